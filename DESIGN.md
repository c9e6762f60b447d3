# Formal model of patrickhuber/go-wasm in Rocq (Coq 8.16.1)

`/repo` is modelled function by function as total Gallina functions in
`rocq/theories/`. Every model definition carries a comment with the file and
lines it models. Properties are listed in `properties.jsonl`, the mapping from
property to theorem in `MANIFEST.json`.

## Layout of the development

| files | contents |
|---|---|
| `GoBase.v` | outcomes of a Go call (`Ok`, `Err`, `Panic`, `Diverge`), fixed-width arithmetic, Go maps |
| `M_*.v` | models of the Go packages |
| `S_*.v` | small independent specifications used in theorem statements |
| `L_*.v` | lemmas and proofs |
| `P_*.v` | property theorems only: statement, `exact lemma`, `Print Assumptions`, non-vacuity example |
| `T_*.v` | the repository's unit tests, evaluated on the model |

## Modelling conventions

* **Outcomes.** A Go function returning `(T, error)` is a function into
  `outcome T`: `Ok v`, `Err e` (`ETrap` for errors made by `types.TrapWith`,
  other constructors for plain errors; message texts are dropped), `Panic`
  (run-time panic: slice bounds, failed unchecked type assertion), `Diverge`
  (a loop that does not end).
* **Integers.** `uint32`/`uint64` values are `N`, every addition,
  multiplication and shift that can wrap is written with an explicit `mod`.
  Signed values are `Z`.
* **Floats** are their IEEE-754 bit patterns (`N`); the code only ever tests
  for NaN and reinterprets bits.
* **Memory** (`*bytes.Buffer`) is the byte list up to the capacity of the
  underlying array together with its length, since Go's `b[lo:hi]` is checked
  against the capacity.
* **Dynamic values** (`any`) are an inductive type with one constructor per Go
  dynamic type the code distinguishes. A `map[string]any` is an association
  list.
* **Callbacks** (Realloc, callee, post-return, destructor) are parameters of
  the model. Realloc is an arbitrary function of the request and the whole
  state (memory, earlier requests, instances, calls in progress); it may
  replace the memory, use the handle functions and call into instances.
  Theorems say what they ask of it: nothing, `keeps_guards`, `leaves_world`
  or `orderly_allocator`.
* **Pointers** (`*HandleElem`, `*CallContext`, `*ComponentInstance`) are
  indices into a heap component of the state, so aliasing is faithful.
* **Loops** over slices are folds; `for` loops that may not terminate carry
  fuel and return `Diverge`, and a theorem excludes or exhibits divergence.

## Plan per property

Status words: *full* = intended as a full theorem, *split* = positive part as
theorem plus `_refuted` counterexample for the part the code does not satisfy.

* C01-C03 (`M_Leb128`): encoder by fuel-free recursion on the value; induction
  over 7-bit groups. *split* for C03.
* C04: integer model of the float computation, and (`M_AlignFloat`) the float64
  operations themselves with Flocq's binary64; the two are proved equal for
  all uint32 operands. *split*.
* C05-C08 (`M_Layout`): structural recursion over nested types; a custom
  induction principle in which specialised types are reduced to
  record/variant. *full*.
* C09-C11, C16-C18 (`M_Flat`): mutual structural induction; join semilattice
  lemma for variant payload coercion. *full*, C17 *split*.
* C12-C15, C22 (`M_Mem`): induction on types with an allocator specification
  (fresh, aligned, in bounds, preserves other bytes). *full*, C14 *split*.
* C19, C20, C21, C23: bit-level lemmas, list induction. *split*.
* C24-C30 (`M_Handles`, `M_Canon`): transition system over handle tables and
  contexts; inductive invariants over histories. *split* for C25 and C30.
* C31, C32: composition of C09/C10. *split* for C31.
* C33 (`M_Utf`): case analysis on scalar ranges; *split*: the unclosed writer refutes the last clause. The transcoders of
  golang.org/x/text are external; the model is the standard's definition.
* C34, C35 (`M_Binary`): reader as a function on byte lists; an encoder in the
  specification; induction on lists. *full* for the subset.
* C36-C40 (`M_WatLex`, `M_WitLex`): lexers as functions on lists of
  characters with fuel equal to the remaining length. *full/split*.
* C41-C46, C48 (`M_WatParse`, `M_WastParse`, `M_WitParse`): recursive descent
  on token lists; print/parse round trip by induction on the AST; fuel bound.
* C47 (`M_Runtime`): lists.
* C57 (`S_Format`): the memory format as a relation between bytes and values,
  by recursion on the type; Load and Store are proved against it separately,
  by induction on types. *split* (untagged length bit, ill-formed text,
  wrapping text).
* C55: which Go dynamic types Store and LowerFlat accept. *split*.
* C58: the format of flattened values, as C57 for core values. *full*.
* C59: whole calls: what CanonLift passes to the core function and returns from it, what CanonLower passes to the host function, in terms of the formats of C57 and C58. *full*; short core results crash (refuted).
* C60: the two exported string copies that nothing calls, over an allocator that can shrink blocks. *full*; code unit counts unchecked, wrapped sizes and unchecked shrunk block refuted.
* C61: the WAT decoder over the parser of C44. *full*; contents lost (refuted).
* C62: ParseString as C46 for string literals. *full*; panic on lexical errors (refuted).
* C63: float64 model (`M_LayoutFloat`) of `DiscriminantType` and `NumI32Flags`; `math.Log2` is a parameter with the accuracy of `S_LayoutFloat`, met by the rounded real logarithm (`log2_rounded_accurate`). *full*; exactness at powers of two is needed (refuted without).
* C64: CanonLower whose callee is CanonLift of another component with its own memory (`S_Linked.linked`); composition of the theorems of C59 with uniqueness of the value that core values stand for. *full* for handle-free types.
* C65: CanonLift, CanonLower and linked calls as sequences of the operations of C24-C28 (`S_HandleCalls.orderly`); per-parameter effects by splitting the argument list (`L_HandleCalls`). *full* for handles that are parameters or results of their own, passed flat; two expectations are refuted.
* C66: the binary reader once more on a stream of pieces (`M_Stream`), related function by function to the reader of C34/C35. *split*: four expectations are refuted.
* C67: the resources a value carries as a relation on type and value (`S_HandleValues.carries`); lifting and lowering by induction on the type as sequences of the operations of C24-C28. *full* for lifting, and for lowering passed flat; values too large to be passed flat are never stored by the code, so they give nothing.
* C68: the type with `u32` in place of its handle types (`S_HandleNames.plain`) and the value with indices in place of its resources (`names`); two runs in step by induction on the type. *full* for lifting from core values and memory and for lowering flat, the latter for allocators that do not look at the handles.
* C69: two runs of Load on memories that agree below their length (`S_Inside.same_inside`), in step by induction on the type. *full*; loads outside memory and misaligned ones are not refused (refuted).
* C70: a grammar of the accepted files (`S_BinaryLoose.loose_file`) written without the reader; each reader function is shown to accept exactly its part of the grammar, by composition and by induction on the input. *full*.
* C71: the error as the lexer state it prints (`M_LexErrors`); the refused places as a predicate on the rest of the input (`S_LexErrors.no_start`, `S_WitErrors.unreadable`); refusal shown equivalent to it by cases on the first character, line and column through the history invariants of C38 and C39. *full*; wording of the message not modelled.
* C72: requests read off the recorded history of realloc (`made`), against the sequence a value takes (`S_Requests.asks`), induction on types; writes as a relation between memories that holds for every realloc (`changes_only`), with address arithmetic modulo 2^32. *full*; refusals *split*.
* C73: two runs of Load and LiftFlat on memories that agree on the bytes of the value (`S_Looks.part_of`, `flat_part_of`), in step by induction on the type; C69 is the special case of memories that agree everywhere inside. *full*; that every byte matters is refuted.
* C74: every element of a list is looked at, so the elements of a wrapping list would have to lie beyond the capacity of memory; from there the sizes computed in 32 bits are the real ones (`L_Reached`), and the value is the one of C57 (`reads_as`). Induction on the type, for Load and LiftFlat (`S_Reached.reached`, `flat_reached`). *full*; that lists of empty elements are short is refuted.
* C75: the parser over the lexer with a note of the last token (`M_WitLocate`) runs in step with the parser over a machine that counts tokens and remembers the last one looked at (`L_WitNote`). A parser that knows only the first tokens of a file either decides or asks for more (`L_WitStop`); when it asks for more, tokens that complete a file are constructed for every place in the grammar (`L_WitViable`). `S_WitStop` says which token sequences begin accepted files.
* C76: the same for WAT (`M_WatLocate`, `L_WatNote`, `L_WatStop`, `L_WatViable`); that the parser does not read beyond the end of the file is proved in `L_WatEnd`. `S_WatStop` says which token sequences begin accepted files; there are no exceptions here.
* C77: the same for WAST (`M_WastLocate`, `L_WastRel`, `L_WastStop`, `L_WastViable`, `L_WastPlace`). The parser looks at a directive with a copy of the lexer before it reads it; `L_WastStop` proves that a parser with one token of lookahead does the same. A script is read to its end, so `S_WastStop` speaks of whole files.
* C78: `lex.New` ranges over a Go map; `new_lexer` takes the order as an argument. `L_WatOrder` relates lexers that differ in it: no character starts both rules of the map, so every call answers alike, and the relation is carried through the parsers by the lemmas of `L_WatRel` and `L_WastRel`.
* C79: `bufio.Writer` and `bufio.Reader` as state machines over any io.Writer and io.Reader (`M_Bufio`); every byte written is at the io.Writer or in the buffer, every byte to come is in the buffer or at the io.Reader; induction on the bytes of a number and on the numbers. *split* (bytes of a failed call, a hundred empty reads).
* C80: both lexers, as a function of the text ahead: what a call consumes and which rule accepts depends on nothing else (`L_LexResume`, `L_WitResume`); invariant over the calls that the text between offset and position is what the failures since the last token passed over; simulation between lexers with the same text ahead. *split* (texts of tokens after an error).
* C81: comparison of two runs that differ in the allocator only (the relational lemmas of `L_Alloc`): they agree, or part at a request the first allocator refuses, which the second run has then made (`L_Blame`). Refusing with a panic instead of an error, and the requests of C72, then show that a failed run failed at the next request of its value; C12 and C31 show that it cannot fail otherwise.
* C82: two runs of lifting from iterators that agree on the next core values, by induction on the type; a variant's payload is read through a coercing iterator whose remaining types are those left of the join. Whole calls by inversion of the run.
* C83: three counters kept along the histories of C24, defined by requests and by handles no longer found. The free list of a table is always 0..f-1 (invariant of C24), so the counters are its length and that of the array, by induction on the history; the rest is counting.
* C84: an inductive relation of reachable states with what each place holds and what was sent; each value found in memory carries the set of bytes it depends on (its place and the blocks it was given), which no later step writes. Frame of LowerFlat for every value and outcome by induction on the type.
* C85: S_Width.v says what core values of a wide or narrow list stand for and what is sent; the run of each call is unfolded step by step, from the theorems about lifting a tuple from memory (C59), about refused requests (C81) and about correct allocators.
* C86: S_Subtype.v defines the relation between types by its cases; what is read at a type names cases by their full labels (as in C57, with the label in place of any that selects the case), and by induction on the supertype such a value is a proper value there, so C10 and C12 apply to it. The nearest case is read off the steps of LiftFlatVariant and MatchCase.
* C87: by induction on the derivation that spells the accepted file (C42), each construct has a second spelling whose texts are the printer's (S_WitPrint.v) and which begins with the same token, so that what may not follow still does not; names keep their tokens, numbers are written in decimal.
* C88: by induction on the tree, with the derivation that spells it (C44, C48), every part that a valid text spells meets the conditions of the printer (good_module in S_WatPrint.v, good_wdirective in S_WastPrint.v), which are then also sufficient; the floats are written with the tokens of the text, found by reading each of them.
* C89: by induction on the type, C13 with the set of bytes the value occupies (`S_Own.own_bytes`) in place of the interval; and two runs of Store on different memories in step, the later writes leaving alone what the earlier ones wrote. *full*; that the whole place is settled is refuted.
* C90: by induction on the type, each operation at the renamed type in step with the one at the type; key lookup, refinement chains and bar-separated keys commute with renaming because it is injective and renames piece by piece. *full*; that names may be merged is refuted.
* C91: by induction on the type, the two loads in step at corresponding addresses; what texts and lists hold by C73, since pointers are absolute. *full*; that places need not be aligned is refuted.
* C92: by induction on the type, the two stores in step at corresponding addresses, using C89 for what each write leaves alone; which bytes are occupied by induction on the type alone. *full*; that it holds for texts is refuted
* C93: from C90, value by value along the lists of parameters and results and statement by statement through CanonLift and CanonLower; core and host functions are arbitrary. *full*
* C94: by induction on the type, what `holds` (C57) says of memory fixes which bytes are read; with `store_writes_format` and that equal values occupy the same bytes. *full*
* C95: by induction on the type: the two programs are the same function of the state, statement by statement; a variant with too many cases fails before the payload matters. *full*
* C96: by induction on the type, statement by statement; that core values tell values apart follows from C10 and C95. *full*
* C97: by induction on the type, success is kept by every statement as memory grows; with C69 and C73 for what lies beyond the length. *full*
* C98: by induction on the number of elements in the first part; addresses of elements are taken modulo 2^32 and agree. *full*
* C99: by induction on the characters of the first part, for each decoder; the rest of the bytes is arbitrary. *full*
* C100: by induction on the types of the first group; the flat widths decide the branch (S_Flat.v). *full*
* C49, C50, C51: predicates on the values Load and LiftFlat return, on the
  memory afterwards, and on addresses outside memory; induction on types.
* C52: flattening against a join defined by its order. *full*.
* C53, C54: the token grammar of each lexer as a relation on texts, longest
  match; deviations from the published grammars are *split*.
* C56: what is handed to `strconv.ParseFloat` for each accepted literal. The
  numbers that float bit patterns stand for are counted in units of the
  smallest positive number, so that exact and nearest can be said with integers
  (`S_Float.v`).

## Trusted base

* Coq 8.16.1's kernel (`coqc`; no `vm_compute` in a proof is replaced by an
  unchecked step, `native_compute` is not used).
* `Print Assumptions`: every theorem named in `MANIFEST.json` prints *Closed
  under the global context*, except `align_float_as_integers` and
  `align_float_least` (C04) and the theorems of C63, which use Flocq's theory of IEEE-754 over the
  standard library's real numbers and print
  `ClassicalDedekindReals.sig_not_dec`, `ClassicalDedekindReals.sig_forall_dec`,
  `FunctionalExtensionality.functional_extensionality_dep` and
  `Classical_Prop.classic`, all of the standard library. Each `P_*.v` file
  contains the command for each of its theorems, so the build log shows it. (A listing of every axiom in scope, such as the one `coqchk -o`
  gives, also shows `Coq.ssr.ssrunder.Under_rel.*`: these belong to a module
  type of the standard library that is loaded, and no theorem uses them.)
* The reading of the Go source into `M_*.v`, which nothing checks. Each
  definition cites its lines so that it can be compared.
* The specifications `S_*.v`: they are what the theorems say.
* Models of code outside the repository, listed below.

### How the model was compared with the code

The code cannot be run here, so the model was written by reading. As a check
against misreadings, every unit test of the repository that needs no missing
files is replayed on the model and evaluates to the expected result: `T_Abi.v`
(abi/io, encoding), `T_Wat.v` (wat/lex, wat/parse, wast/parse), `T_WitLex.v`
(wit/lex) and `T_Binary.v` (leb128, binary, on the bytes of the fixtures). The
Go tests themselves were not run. They are examples and count as evidence
about the model only; no property rests on them. Not replayed: the tests that
read the WebAssembly and wasm-tools submodules (absent), and
abi/types/type_test.go, which only checks Go type switches.

### Models of code that is not in the repository

| code | model |
|---|---|
| golang.org/x/text transcoders | `M_Utf`: ill-formed UTF-8 bytes and lone surrogates become U+FFFD (an unfinished sequence at the end of what an encoder is given is held back for a Close that never comes), Latin-1 refuses other characters, UTF-16 little endian unless asked otherwise |
| patrickhuber/go-types `Result`, `handle.Error`, `Unwrap` | Go's early return: an error ends the function and is returned |
| `strconv.ParseInt`, `ParseUint` | `M_Strconv`, from the standard library's source, including base prefixes and underscores |
| `strconv.ParseFloat` | a parameter of the parsers: any function of text and size |
| `unicode.IsLetter`, `IsDigit`, `IsSpace` | parameters constrained on ASCII only (`good_tables`) |
| `bufio.Writer` (Flush, WriteByte), `bufio.Reader` (ReadByte) | `M_Bufio`, from the standard library's source, over any io.Writer and io.Reader |
| `bytes.Buffer`, slices | byte lists with a length and a capacity |
| `io.Reader` | a byte list read from the front (`M_Binary`, `M_Leb128`); in `M_Stream` any sequence of pieces followed by any error, with `io.ReadFull` and `io.ReadAll` from the standard library's source |
| `make` of a slice larger than memory | `Panic` above a limit that is a parameter (C35) |
| Realloc, callee, post-return, destructor, memory.grow | arbitrary functions (see conventions); Realloc reads and may change the memory and the instances |

### What of the repository is modelled

| Go | model | not modelled |
|---|---|---|
| `leb128` | `M_Leb128`, `M_Stream`, `M_Bufio` | |
| `abi/types` | `M_Types` (types as one inductive, constructors and accessors are its constructors and projections), `M_State` (contexts, handle tables, instances) | `Trap()` identity of errors |
| `abi/kind`, `abi/values` | `M_Types`, `M_Flat` | `Kind.String` |
| `abi/io` alignment, size, despecialize, flatten, math | `M_Layout`, `M_Types` | `AlignTo`'s float64 arithmetic is `M_AlignFloat`, proved equal to the integers used elsewhere (C04); `DiscriminantType`'s and `NumI32Flags`'s float64 arithmetic is `M_LayoutFloat`, proved equal to the ranges used elsewhere (C63) for any logarithm accurate as in `S_LayoutFloat` |
| `abi/io` load, canonicalize, code_units | `M_Load` | |
| `abi/io` store | `M_Store` | `M_StoreCopy` for the two exported string copies that nothing calls |
| `abi/io` lift, lower | `M_Flat` | |
| `abi/io` canon, canon_lift, canon_lower | `M_Canon`, `M_State`; `canon_resource_drop_with` for destructors with effects of their own | |
| `encoding` | `M_Utf` | |
| `binary`, `opcode` | `M_Binary`, `M_Api`; `M_Stream` for readers that deliver pieces or fail | |
| `api`, `instance`, `address`, `runtime` | `M_Api`, `M_Runtime` | data types without functions that nothing constructs (`api/f32.go`, `table.go`, `vector.go`, ...); there is no interpreter in the repository |
| `wat/lex`, `wat/token` | `M_WatLex`, `M_LexErrors` | wording of error texts. Go's `map` iteration order over rules is a parameter |
| `wat/parse`, `wat/ast` | `M_WatParse`, `M_WatAst`, `M_WatLocate` (the token an error is about) | error texts; which messages print no place |
| `wat` decoder (`wat/decoder.go`) | `M_WatDecoder` | |
| `wast/parse`, `wast/ast` | `M_WastParse`, `M_WastLocate` | error texts other than the place |
| `wit/lex`, `wit/token` | `M_WitLex`, `M_LexErrors` | wording of error texts |
| `wit/parse`, `wit/ast` | `M_WitParse`, `M_WitAst`, `M_WitLocate` | wording of error texts, and which of its calls produced an error; the token and the place it is about are modelled |
| `internal`, `config` | inlined where used | |

Lengths, line and column numbers and positions of the lexers are `nat` where
Go has `int`: a text of 2^63 bytes is needed to tell them apart. Recursion of
the parsers carries fuel computed from the text's length; C45 proves that it
never runs out.

## Properties the code does not have

Where the code does not do what a user would rely on, the property keeps its
English statement, names the exception, and a theorem ending in `_refuted`
exhibits a concrete execution. They are, by property:

* C03: `leb128_decode_slice_truncated_refuted`, `leb128_decode_overflow_refuted`, `leb128_decode_overlong_refuted`
* C04: `align_to_not_below_refuted`
* C14: `store_wraparound_rejected_refuted`
* C17: `lower_char_checked_refuted`
* C19: `flags_over_64_kept_refuted`
* C21: `case_label_terminates_refuted`
* C23: `tagged_units_large_refuted`
* C25: `add_always_succeeds_refuted`, `freed_index_reused_refuted`
* C26: `exit_twice_harmless_refuted`, `borrowed_cannot_be_transferred_refuted`
* C28: `trapping_drop_harmless_refuted`
* C30: `leave_restored_after_error_refuted`
* C31: `spilled_values_arrive_refuted`, `spilled_results_ordered_refuted`, `missing_values_rejected_refuted`
* C33: `encoding_keeps_every_byte_refuted`
* C34: `every_module_read_back_refuted`
* C35: `every_truncation_rejected_refuted`, `section_sizes_checked_refuted`, `functions_have_code_refuted`, `small_inputs_cannot_crash_refuted`
* C38: `peek_reports_errors_refuted`
* C39: `wit_peek_reports_errors_refuted`
* C41: `list_item_type_set_refuted`, `types_are_names_refuted`
* C42: `unknown_tokens_rejected_refuted`, `one_package_refuted`, `semicolons_required_refuted`, `worlds_define_types_refuted`, `versions_are_decimal_refuted`, `method_names_refuted`
* C43: `different_instructions_differ_refuted`
* C44: `trailing_text_rejected_refuted`, `imports_kept_refuted`, `unknown_reference_types_rejected_refuted`
* C46: `i64_range_refuted`, `leading_zeros_refuted`, `plus_sign_refuted`, `negative_index_rejected_refuted`
* C47: `exports_reachable_refuted`
* C48: `parentheses_balance_refuted`, `nan_patterns_kept_refuted`, `unknown_actions_rejected_refuted`, `numbers_required_refuted`, `unclosed_comment_rejected_refuted`
* C51: `load_list_wrapped_size_traps_refuted`
* C53: `decimal_floats_refuted`, `unsigned_exponents_refuted`, `float_tokens_are_floats_refuted`, `nested_comments_refuted`, `string_escapes_refuted`, `unfinished_rejected_refuted`
* C54: `identifiers_are_labels_refuted`, `explicit_ids_have_names_refuted`
* C55: `store_exact_width_refuted`, `store_numbers_only_refuted`, `store_all_fields_refuted`, `refusal_is_an_error_refuted`
* C56: `nan_is_nan_refuted`, `f32_integers_nearest_refuted`
* C57: `untagged_length_kept_refuted`, `ill_formed_text_rejected_refuted`, `wrapped_text_traps_refuted`
* C59: `short_results_refused_refuted`
* C60: `copy_is_whole_refuted`, `copy_size_limit_refuted`, `utf16_stays_in_block_refuted`, `shrunk_block_checked_refuted`
* C61: `decoded_functions_kept_refuted`, `decoded_component_refuted`
* C62: `string_parsing_ends_refuted`
* C63: `discriminant_without_exactness_refuted`
* C65: `kept_borrow_traps_refuted`, `trapping_call_keeps_handles_refuted`
* C66: `end_with_last_bytes_refuted`, `cut_off_input_refused_refuted`,
  `empty_reads_refuted`, `own_error_reported_refuted`
* C67: `spilled_file_arrives_refuted`
* C69: `load_outside_traps_refuted`, `load_misaligned_refused_refuted`, `load_misaligned_record_inside_refuted`
* C72: `bad_text_block_refused_refuted`, `misaligned_text_block_refused_refuted`,
  `wrapping_list_block_refused_refuted`
* C73: `every_byte_matters_refuted`
* C74: `loaded_list_short_refuted`
* C75: `wit_error_before_is_viable_refuted`, `wit_world_item_place_refuted`
* C79: `failed_encode_writes_nothing_refuted`, `impatient_reader_refuted`
* C80: `token_after_error_is_a_token_refuted`, `wit_token_after_error_is_a_token_refuted`
* C82: `too_few_refused_refuted` (a tuple of two numbers lifted from one core value panics, abi/values/value.go:37).
* C83: `freed_index_back_iff` says exactly when a freed index is the next one given out (Remove pushes the length of the free list, not the index, abi/types/handle.go:50); `freed_index_reused_refuted` of C24 is a case where it is not.
* C84: `failed_store_keeps_value_refuted` (a record whose second field is refused has its first field overwritten, abi/io/store.go).
* C85: `wide_results_arrive_refuted` (LowerValuesToTuple builds the tuple and does not store it, abi/io/canon_lower.go:94-140).
* C86: `payload_kept_refuted` (LowerFlatVariant does not look at the payload when the case found has none, abi/io/lower.go:272-344).
* C05: `no_layout_no_alignment_refuted` (AlignmentVariant returns 0 and no error when MaxCaseAlignment fails, abi/io/alignment.go:80-83).
* C89: `whole_place_settled_refuted` (nothing clears the padding or the room of cases not chosen, abi/io/store.go).
* C90: `merging_names_refuted` (a Go map holds one value per key, abi/io/load.go:301-324).
* C91: `misaligned_copy_refuted` (LoadRecord aligns addresses, not offsets, abi/io/load.go:303-322).
* C92: `text_same_everywhere_refuted` (StoreString writes the address that realloc returns, abi/io/store.go:201-215).
* C94: `same_bytes_same_text_refuted` (a text's place holds only its address and length, abi/io/store.go:201-215).
* C97: `grown_keeps_error_refuted`, `full_memory_keeps_texts_refuted` and `full_memory_keeps_lists_refuted` (uint32 of a length of 2^32 is 0, abi/io/load.go:247,286).
* C99: `text_cut_anywhere_refuted`, and `latin1_text_cut_refuted` (Latin-1 has alignment 2, encoding/latin1.go:10-25).
* C100: `groups_beyond_limit_refuted` and `wrong_number_is_error_refuted` (abi/io/canon_lower.go:71-92 counts the core values of all types, and the number of values is not compared with the number of types).

## Not expressible / not modelled

* Error message texts; `%T` formatting.
* `errors.Is(err, Trap())` compares pointers to a zero-size struct, whose
  equality Go leaves unspecified.
* `float64` to `uint32` conversion of out-of-range values is
  implementation-specific in Go; the model uses amd64's result.
* The code of golang.org/x/text and of patrickhuber/go-types (not in the
  repository).
