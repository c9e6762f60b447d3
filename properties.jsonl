{"id": "C01", "title": "LEB128 encode/decode round trip", "statement": "Encoding any uint32 as LEB128 and decoding the bytes, with anything at all following them, yields the same uint32 and reports exactly the number of bytes the encoder produced; the slice decoder and the reader decoder agree.", "quantifier": "every uint32 value and every trailing byte string", "why_tests_cant": "2^32 values times unbounded suffixes.", "anchors": ["leb128/encode.go: Encode", "leb128/decode.go: Decode, DecodeReader, DecodeSlice"]}
{"id": "C02", "title": "LEB128 encodings are minimal and prefix-free", "statement": "The encoder emits between 1 and 5 bytes, the fewest possible for the value, with the continuation bit set on all bytes but the last; two different values never have encodings one of which is a prefix of the other.", "quantifier": "every pair of uint32 values", "why_tests_cant": "Pairs of 2^32 values.", "anchors": ["leb128/encode.go: Encode"]}
{"id": "C03", "title": "LEB128 decoding computes the weighted sum of the 7-bit groups and stops at the first byte without continuation bit", "statement": "For every byte sequence, decoding consumes bytes up to and including the first one below 0x80, and the value is the sum of the groups times powers of 128 modulo 2^32; input that ends early is an error for the reader decoder. (The slice decoder does not report it, and over-long or overflowing encodings are accepted: refuted.)", "quantifier": "every byte sequence", "why_tests_cant": "Unbounded inputs.", "anchors": ["leb128/decode.go: Decode, DecodeReader, DecodeSlice"]}
{"id": "C04", "title": "AlignTo returns the least multiple of the alignment not below the pointer", "statement": "For every pointer and every alignment a > 0 for which the answer fits in 32 bits, AlignTo returns the least multiple of a that is >= ptr. (When the answer is 2^32 the result wraps below ptr: refuted.)", "quantifier": "every uint32 pointer and alignment", "why_tests_cant": "2^64 argument pairs, and floating-point arithmetic is used.", "anchors": ["abi/io/alignment.go: AlignTo"]}
{"id": "C05", "title": "Alignment of a type is 1, 2, 4 or 8 and divides its size", "statement": "For every component value type with a layout, Alignment is one of 1,2,4,8 and Size is a multiple of it, as long as the mathematical size fits in 32 bits.", "quantifier": "every (arbitrarily nested) component value type", "why_tests_cant": "Types nest without bound.", "anchors": ["abi/io/alignment.go: Alignment, AlignmentRecord, AlignmentVariant, AlignmentFlags, MaxCaseAlignment", "abi/io/size.go: Size, SizeRecord, SizeVariant, SizeFlags"]}
{"id": "C06", "title": "Record fields are laid out aligned, in order, disjoint and inside the record", "statement": "For every record (or tuple) type and every aligned base pointer, the places at which fields are stored and loaded are aligned for the field, are pairwise disjoint, increase in field order and lie within Size(record) of the base.", "quantifier": "every record type, every base pointer", "why_tests_cant": "Unbounded field lists and nestings.", "anchors": ["abi/io/store.go: StoreRecord", "abi/io/load.go: LoadRecord", "abi/io/size.go: SizeRecord"]}
{"id": "C07", "title": "Variant payloads are laid out aligned, after the discriminant and inside the variant", "statement": "For every variant type, the payload of every case is placed at the same offset, which is after the discriminant, aligned for that case and leaves the payload inside Size(variant); the discriminant is the smallest of u8/u16/u32 that can number the cases.", "quantifier": "every variant type", "why_tests_cant": "Unbounded case lists.", "anchors": ["abi/io/store.go: StoreVariant", "abi/io/load.go: LoadVariant", "abi/io/alignment.go: DiscriminantType, MaxCaseAlignment", "abi/io/size.go: SizeVariant"]}
{"id": "C08", "title": "Specialised types behave exactly as the record/variant they abbreviate", "statement": "tuple, union, enum, option and result have the same alignment, size, flattening, load, store, lift and lower behaviour as the record or variant they stand for, on every state, and Despecialize is idempotent.", "quantifier": "every type, value, pointer and state", "why_tests_cant": "All operations over unbounded types and states.", "anchors": ["abi/io/despecialize.go: Despecialize"]}
{"id": "C09", "title": "Lowering produces exactly the flattened core types", "statement": "Whenever LowerFlat succeeds on a value at a type, the kinds of the produced core values are exactly FlattenType of the type, whatever case of a variant was chosen.", "quantifier": "every type, value and state on which lowering succeeds", "why_tests_cant": "Unbounded types and values.", "anchors": ["abi/io/lower.go: LowerFlat and helpers", "abi/io/flatten.go: FlattenType, FlattenVariant, join"]}
{"id": "C10", "title": "Flat lift after lower gives back the value", "statement": "For every well-formed type without handles and every proper value of it, lowering to core values and lifting them back returns the same value (NaNs canonicalised) and consumes exactly the core values produced, wherever they stand among other core values. For types without strings and lists lowering always succeeds and changes nothing; for the others it fails only if the allocator does, and lifting still works later as long as the freshly allocated memory is kept.", "quantifier": "every type without handles, value of it, state and correct allocator", "why_tests_cant": "Unbounded types and values; joined variant payloads go through bit reinterpretation.", "anchors": ["abi/io/lower.go", "abi/io/lift.go", "abi/values/coerce_value_iterator.go: Next"]}
{"id": "C11", "title": "Lifting consumes exactly as many core values as the type flattens to", "statement": "Every successful LiftFlat advances the value iterator by exactly len(FlattenType(t)), including for variants whose case is shorter than the join, and the core values passed over have exactly the flattened types.", "quantifier": "every type, iterator and state", "why_tests_cant": "Unbounded types and inputs.", "anchors": ["abi/io/lift.go: LiftFlat, LiftFlatVariant", "abi/values/value.go: Next", "abi/values/coerce_value_iterator.go: Next"]}
{"id": "C12", "title": "Load after Store gives back the value", "statement": "For every type with a layout (integers, floats, char, string, list, record, variant, flags and their specialisations) and every well-typed value, storing it at an aligned in-bounds place with a correct allocator fails only if the allocator does, and after a successful store loading from there returns the same value (NaNs canonicalised).", "quantifier": "every type, value, pointer, memory and correct allocator", "why_tests_cant": "Unbounded types, values and memories.", "anchors": ["abi/io/store.go: Store and helpers", "abi/io/load.go: Load and helpers"]}
{"id": "C13", "title": "Store writes nothing outside the destination and the blocks it allocated", "statement": "A successful Store of a value of type T at ptr leaves every byte in use unchanged except those in [ptr, ptr+Size(T)): the bytes in use are those of the initial region the allocator never hands out and those of blocks it handed out earlier. Whatever else changes lies in memory handed out during this Store.", "quantifier": "every type, every value whose lists each fit in a 32-bit address space, every pointer, memory and allocator that does not itself scribble", "why_tests_cant": "Unbounded types, values and memories.", "anchors": ["abi/io/store.go: Store and helpers"]}
{"id": "C14", "title": "Out-of-bounds stores are rejected without touching memory", "statement": "Storing at a pointer whose [ptr, ptr+size) does not fit in memory returns an error and changes nothing, provided ptr+size does not wrap around 2^32. (With wrap-around the check passes and the program panics: refuted.)", "quantifier": "every type, value, pointer and memory", "why_tests_cant": "2^32 pointers times unbounded types.", "anchors": ["abi/io/store.go: StoreValidate, StoreInt"]}
{"id": "C15", "title": "Misaligned pointers are rejected", "statement": "Store of a type at a pointer not divisible by the alignment fails and leaves memory unchanged; loading a list or string whose data pointer is misaligned traps.", "quantifier": "every type and pointer", "why_tests_cant": "Unbounded.", "anchors": ["abi/io/store.go: StoreValidate", "abi/io/load.go: LoadListFromRange, LoadStringFromRange"]}
{"id": "C16", "title": "Floats crossing the boundary are canonical", "statement": "Every f32/f64 produced by LiftFlat, Load, LowerFlat or written by Store is either not a NaN, in which case the bit pattern is unchanged, or the one canonical NaN.", "quantifier": "every 32-bit and 64-bit pattern", "why_tests_cant": "2^64 patterns.", "anchors": ["abi/io/canonicalize.go", "abi/io/lift.go: LiftFlatFloat32, LiftFlatFloat64", "abi/io/lower.go: LowerFloat32, LowerFloat64", "abi/io/load.go: LoadFloat", "abi/io/store.go: StoreFloat"]}
{"id": "C17", "title": "Lifted chars are Unicode scalar values", "statement": "LiftFlat and Load at type char either trap or return a Unicode scalar value, they trap exactly on surrogates and values >= 0x110000. (The lowering direction performs no check: refuted.)", "quantifier": "every uint32", "why_tests_cant": "2^32 inputs.", "anchors": ["abi/io/load.go: ConvertU32ToRune, LoadChar", "abi/io/lift.go: LiftFlatChar", "abi/io/lower.go: LowerChar"]}
{"id": "C18", "title": "Narrow integers are lifted modulo their width", "statement": "LiftFlat at bool/u8/u16/s8/s16/s32 accepts every core u32 and returns it reduced to the width (two's complement for signed, non-zero test for bool); LowerFlat sign- or zero-extends so that the round trip is the identity.", "quantifier": "every uint32", "why_tests_cant": "2^32 inputs.", "anchors": ["abi/io/lift.go: LiftFlatU8..LiftFlatS64", "abi/io/lower.go: LowerU8..LowerS64"]}
{"id": "C19", "title": "Flags: label i is bit i", "statement": "For a flags type with at most 64 distinct labels, packing sets bit i exactly when label i is true, unpacking is its inverse, and Store/Load and Lower/Lift of flags agree with it. (With more than 64 labels flags are silently lost: refuted.)", "quantifier": "every label list up to 64 and every flag assignment", "why_tests_cant": "2^64 assignments.", "anchors": ["abi/io/store.go: PackFlagsIntoInt, StoreFlags", "abi/io/load.go: UnpackFlagsFromInt, LoadFlags", "abi/io/lower.go: LowerFlatFlags", "abi/io/lift.go: LiftFlatFlags"]}
{"id": "C20", "title": "Out-of-range discriminants trap", "statement": "Loading or lifting a variant whose discriminant is >= the number of cases is a trap; below it the selected case is the one at that position.", "quantifier": "every variant type and discriminant value", "why_tests_cant": "Unbounded types.", "anchors": ["abi/io/load.go: LoadVariant", "abi/io/lift.go: LiftFlatVariant"]}
{"id": "C21", "title": "Refinement labels: a lifted case label always matches back to the case it came from", "statement": "For a variant with distinct '|'-free labels whose refines form no cycle, the label computed for case i is found again by MatchCase as case i; computing it terminates. (With a refinement cycle it never terminates: refuted.)", "quantifier": "every such variant type and case", "why_tests_cant": "Unbounded case lists and refinement chains.", "anchors": ["abi/io/load.go: CaseLabelWithRefinements, FindCaseIndex", "abi/io/lower.go: MatchCase"]}
{"id": "C22", "title": "String round trip through memory in every encoding", "statement": "For every well-formed UTF-8 string whose UTF-8 form is shorter than 2^31 bytes and each supported encoding (utf-8, utf-16 LE/BE, latin1+utf16, latin1 when representable), storing the string with a correct allocator and loading it returns the same string; when the allocator fails, storing reports an error instead.", "quantifier": "every string, encoding, memory", "why_tests_cant": "Unbounded strings.", "anchors": ["abi/io/store.go: StoreStringIntoRange, StoreStringDynamic, isLatin1", "abi/io/load.go: LoadStringFromRange", "abi/io/code_units.go", "encoding/*.go"]}
{"id": "C23", "title": "Tagged code units round trip", "statement": "Packing a code-unit count below 2^31 and a UTF-16 flag into a uint32 and unpacking gives the pair back, and unpacking then packing any uint32 is the identity. (Counts >= 2^31 collide with the tag: refuted.)", "quantifier": "every uint32 and flag", "why_tests_cant": "2^32 inputs.", "anchors": ["abi/io/code_units.go"]}
{"id": "C24", "title": "Handle table: a handle is found under the index it was added at, until removed", "statement": "After Add returns i, Get(i) returns that handle until Remove(i) succeeds; afterwards Get(i) traps until i is handed out again; other indices are unaffected by either.", "quantifier": "every history of Add/Get/Remove calls", "why_tests_cant": "Unbounded operation histories.", "anchors": ["abi/types/handle.go: HandleTable.Add, Get, Remove"]}
{"id": "C25", "title": "Handle table: Add never disturbs a live handle", "statement": "Add never overwrites a live handle in any reachable history. (But Add can fail or hand out nothing although space is available, because Remove records the wrong free index: 'Add always succeeds' is refuted, and freed indices are not the ones reused.)", "quantifier": "every history of Add/Remove calls", "why_tests_cant": "Unbounded operation histories.", "anchors": ["abi/types/handle.go: HandleTable.Add, Remove", "internal/collections/stack/stack.go"]}
{"id": "C26", "title": "A lent handle cannot be removed and lend counts balance", "statement": "While a call that borrowed from a handle has not exited, removing (dropping or transferring) that handle traps. A handle's lend count is the number of times calls still in progress have borrowed from it, so once the calls that began since some moment have exited the count is back to its value then.", "quantifier": "every interleaving of borrows, drops and exits", "why_tests_cant": "Unbounded histories.", "anchors": ["abi/types/context.go: LiftBorrowFrom, ExitCall", "abi/types/handle.go: Remove", "abi/io/lift.go: LiftOwn, LiftBorrow"]}
{"id": "C27", "title": "Borrow counting: ExitCall traps exactly when a borrow handle created for the call is still in a table", "statement": "In every reachable state the borrow count of a call equals the number of live table entries scoped to it, so ExitCall traps iff one is left.", "quantifier": "every history of operations", "why_tests_cant": "Unbounded histories.", "anchors": ["abi/types/context.go", "abi/types/handle.go: Add, Remove", "abi/io/lower.go: LowerBorrow"]}
{"id": "C28", "title": "Resource drop runs the destructor exactly once for owned handles and never for borrowed ones", "statement": "Dropping an owned handle calls the destructor with its representation exactly once, after the handle is gone from the table, and nothing happens after it; dropping a borrowed handle never does, dropping an unknown handle traps without any effect. (That a drop which traps leaves the handle in place is refuted.)", "quantifier": "every instance state and handle index", "why_tests_cant": "Unbounded states.", "anchors": ["abi/io/canon.go: CanonResourceDrop, CanonResourceNew, CanonResourceRep"]}
{"id": "C29", "title": "Re-entrance guards", "statement": "CanonLift on an instance that may not be entered (or left), and CanonLower on one that may not be left (or entered), fail before anything is lowered, lifted or called, leaving all state unchanged (CanonLower opens a call nothing refers to). While arguments or results are lowered the instance may not be left; in particular Realloc is only ever called then, so a call cannot tell apart two allocators that behave alike while the instance may not be left. The callee runs with all guards as before the call.", "quantifier": "every instance state, type, argument list, and allocator that leaves the guards alone", "why_tests_cant": "Unbounded.", "anchors": ["abi/io/canon_lift.go: CanonLift", "abi/io/canon_lower.go: CanonLower"]}
{"id": "C30", "title": "MayLeave is restored after a successful lifted or lowered call", "statement": "After CanonLift or CanonLower returns without error MayLeave is true again. (On an error while lowering it stays false for ever: refuted.)", "quantifier": "every call and outcome", "why_tests_cant": "Unbounded.", "anchors": ["abi/io/canon_lift.go: CanonLift", "abi/io/canon_lower.go: CanonLower"]}
{"id": "C31", "title": "Values passed through a lift/lower pair arrive unchanged when they fit the flat limits", "statement": "For function types whose parameters/results flatten within the limits, arguments lowered by one side are lifted by the other as the same values in the same order. (Beyond the limits the tuple is never stored and results come back in map order: refuted.)", "quantifier": "every function type and argument list within the limits", "why_tests_cant": "Unbounded types and values.", "anchors": ["abi/io/canon_lower.go: LowerValues, LowerValuesToTuple", "abi/io/canon_lift.go: LiftValues"]}
{"id": "C32", "title": "Flattened function types respect the limits", "statement": "FlattenFuncTypeLift/Lower never produce more than maxFlatParams (plus the out pointer) parameters nor more than maxFlatResults results, for limits >= 1.", "quantifier": "every function type and limits", "why_tests_cant": "Unbounded types.", "anchors": ["abi/io/flatten.go: FlattenFuncTypeLift, FlattenFuncTypeLower"]}
{"id": "C33", "title": "Well-formed UTF-8 and UTF-16 codecs are inverse", "statement": "Encoding any sequence of Unicode scalar values in UTF-8, UTF-16LE, UTF-16BE or (when < 256) Latin-1 and decoding it gives the sequence back; encoded lengths are multiples of the code unit size. Whatever Go string is encoded, well-formed or not, what comes out is text in that encoding. (That every byte of the string is accounted for, by itself, a replacement character or an error, is refuted: a string that breaks off inside a character is encoded as if it ended before it.)", "quantifier": "every scalar sequence; every Go string; every place to break off", "why_tests_cant": "Unbounded sequences.", "anchors": ["encoding/utf8.go", "encoding/utf16.go", "encoding/latin1.go", "encoding/codec.go"]}
{"id": "C34", "title": "Binary reader reads back every module of the supported subset", "statement": "For every module of the supported subset (types, functions without local declarations, function exports, code made of local.get, i32.add and end), reading any standard binary encoding of it returns the module: same types, functions, exports and instructions; custom and unknown sections between the known ones are skipped. (Functions with local declarations are not read back: refuted.)", "quantifier": "every module of the subset", "why_tests_cant": "Unbounded modules.", "anchors": ["binary/read.go: Read, ReadModule and helpers"]}
{"id": "C35", "title": "Binary reader rejects every truncated or foreign input with an error, never a panic", "statement": "Reading any byte string returns a document or an error when every announced allocation fits in memory; wrong magic, wrong version, fewer than eight bytes, and every truncation inside a section are errors. (Truncation between two sections, wrong section sizes and functions without code are accepted, and a 14-byte input can exhaust memory: refuted.)", "quantifier": "every byte string", "why_tests_cant": "Unbounded inputs.", "anchors": ["binary/read.go: ReadPreamble, ReadModule, ReadSectionHeader, UpdateFuncsWithCode"]}
{"id": "C36", "title": "WAT tokenisation is lossless", "statement": "The captures of the tokens returned by successive Next calls, concatenated, are the beginning of the input (no character lost, duplicated or reordered) and all of it once the end of the stream was reported, and each token's position is the sum of the lengths before it; errors and Peek calls in between do not change this.", "quantifier": "every input text", "why_tests_cant": "Unbounded texts.", "anchors": ["wat/lex/lexer.go: Next, next, token", "wat/lex/dfa.go"]}
{"id": "C37", "title": "WAT line and column numbers", "statement": "Each token's line is the number of newlines before it and its column the distance from the last newline.", "quantifier": "every input text", "why_tests_cant": "Unbounded texts.", "anchors": ["wat/lex/lexer.go"]}
{"id": "C38", "title": "WAT lexer progress, termination and peek/next coherence", "statement": "Every Next consumes at least one character, reports the end of the stream, or fails, and after as many Next calls as the input has characters only the end of the stream is reported; Peek returns precisely what the following Next returns and changes nothing, and a clone is unaffected by operations on the original. (Peek panics where Next reports an error: refuted that it reports errors.)", "quantifier": "every input text and call sequence", "why_tests_cant": "Unbounded texts and histories.", "anchors": ["wat/lex/lexer.go: Peek, Next, Clone"]}
{"id": "C39", "title": "WIT tokenisation is lossless with correct positions", "statement": "The tokens taken from the WIT lexer by any history of Next and Peek calls cut the input into consecutive pieces with correct positions, lines (newlines before the token) and columns (bytes since the last newline). Next gives a token or an error and never panics, and after as many Next calls as the input has bytes every further call gives the end of the stream. Peek gives the token the following Next gives and has no other effect; clones do not influence each other. (Peek reporting an error where Next does: refuted, it panics.)", "quantifier": "every input text, every history of Next, Peek and Clone calls", "why_tests_cant": "Unbounded texts and call histories, all byte values including ill-formed UTF-8.", "anchors": ["wit/lex/lexer.go: Next, Peek, Clone, next, token"]}
{"id": "C40", "title": "WIT keywords are recognised only as whole words", "statement": "Without errors, a WIT token has the type of a keyword exactly when its whole text is that keyword, for each of the 42 keywords; and each keyword followed by anything that is not part of a word is found as a token of its type.", "quantifier": "every input text", "why_tests_cant": "Unbounded texts.", "anchors": ["wit/lex/lexer.go: keywordMap, next"]}
{"id": "C41", "title": "WIT types print and parse back", "statement": "For every WIT type expression in the supported grammar, the token stream of its concrete syntax parses to that type and consumes exactly those tokens, whatever follows (only after a bare result, stream or future the next token must not be <). (That the element type of a list or option is in the field ItemType: refuted; that only names are accepted as types: refuted.)", "quantifier": "every nested type expression", "why_tests_cant": "Unbounded nesting.", "anchors": ["wit/parse/parser.go: parseType, parseStream, parseResult, parseTuple, parseItemList"]}
{"id": "C42", "title": "WIT items print and parse back", "statement": "A text parses as a WIT file exactly if its tokens, whitespace and comments left out, spell that file in the supported grammar; one text has one reading; and records, variants, enums, flags, functions, resources, uses, interfaces and worlds of the supported grammar parse back when they are written down. (Refuted: namespaced use paths are accepted; unknown top-level tokens, a second package and missing semicolons are rejected; flags and enums stand in worlds; versions are decimal; a method has its name.)", "quantifier": "every AST of the grammar", "why_tests_cant": "Unbounded.", "anchors": ["wit/parse/parser.go"]}
{"id": "C43", "title": "WAT instructions print and parse back", "statement": "For every instruction AST of the supported, faithfully represented subset, its token stream parses back to it and consumes exactly those tokens; so do sequences of instructions in a file. (A set of i32 instructions is parsed to a nil instruction: refuted for them.)", "quantifier": "every instruction tree", "why_tests_cant": "Unbounded nesting.", "anchors": ["wat/parse/parser.go: parseInstruction, parseBlock, parseLoop, parseIf, parseBlockType"]}
{"id": "C44", "title": "WAT modules print and parse back", "statement": "A WAT text is accepted as a tree exactly if it begins with a text whose tokens, without whitespace and comments, spell that tree in the grammar; the tree is unique; and every module AST of the supported subset (functions, types, tables, globals, memories) parses back from its printed text. (That trailing text is rejected, imports are kept and unknown reference types are rejected: refuted.)", "quantifier": "every module AST", "why_tests_cant": "Unbounded.", "anchors": ["wat/parse/parser.go: parseModule, parseFunc, parseType, parseTable, parseGlobal, parseMemory"]}
{"id": "C45", "title": "Parsers terminate on every token stream", "statement": "WAT, WAST and WIT parsing of any token stream finishes with a result or an error after a number of steps bounded by the number of tokens.", "quantifier": "every token stream", "why_tests_cant": "Unbounded streams.", "anchors": ["wat/parse/parser.go", "wast/parse/parser.go", "wit/parse/parser.go"]}
{"id": "C46", "title": "Integer literals", "statement": "ParseInt32 returns the literal's value modulo 2^32 exactly for literals in range and an error otherwise. (ParseInt64 uses the 32-bit range and rejects valid 64-bit literals, leading zeros mean octal, plus signs are rejected, negative indices are accepted: refuted.)", "quantifier": "every literal", "why_tests_cant": "Unbounded literals.", "anchors": ["wat/parse/parser.go: parseInt32, parseInt64", "wat/lex/lexer.go: isInteger"]}
{"id": "C47", "title": "Module instantiation assigns consecutive fresh function addresses", "statement": "Instantiating a module appends its functions to the store in order, gives the instance precisely those addresses, and leaves previously allocated functions in place; after any sequence of instantiations every instance still finds its own functions and no two share an address; GetExport returns the first export with the name. (Instantiation records no exports, so no export is ever found: refuted.)", "quantifier": "every store and module", "why_tests_cant": "Unbounded histories.", "anchors": ["runtime/instance.go", "runtime/store.go"]}
{"id": "C48", "title": "WAST scripts: what is accepted, and parsing back", "statement": "A text is accepted as a list of directives exactly if its tokens, whitespace and comments left out, spell these directives in order with nothing after them but perhaps the beginning of a comment or string; a spelling has one meaning; every script of the supported directives that can be written parses back. (References as results, NaN patterns, unknown actions, numbers left out, unclosed comments: refuted.)", "quantifier": "every text; every script of the supported subset", "why_tests_cant": "Unbounded.", "anchors": ["wast/parse/parser.go"]}
{"id": "C49", "title": "Only proper values come out of Load and LiftFlat", "statement": "Whatever bytes are in memory and whatever core values arrive, a value that Load or LiftFlat returns without error is a proper value of the type: integers in range, floats not a non-canonical NaN, chars scalar values, strings well-formed UTF-8, records with exactly the declared fields, variants naming a declared case, at every depth.", "quantifier": "every well-formed type, memory content, core value sequence", "why_tests_cant": "Arbitrary garbage input and unbounded types.", "anchors": ["abi/io/load.go", "abi/io/lift.go"]}
{"id": "C50", "title": "Load and LiftFlat leave memory alone", "statement": "Load and LiftFlat never change linear memory and never call the allocator, whether they succeed, fail, trap or panic.", "quantifier": "every type, memory, core value sequence", "why_tests_cant": "All inputs and failure paths.", "anchors": ["abi/io/load.go", "abi/io/lift.go"]}
{"id": "C51", "title": "List and string data outside memory traps", "statement": "Loading a list or string whose data range [start, start+bytes) exceeds memory is a trap, provided start+bytes fits in 32 bits. (When count*element size wraps around 32 bits the check passes and the program panics: refuted.)", "quantifier": "every element type, encoding, memory, start and count", "why_tests_cant": "2^64 start/count pairs, unbounded types.", "anchors": ["abi/io/load.go: LoadListFromRange, LoadStringFromRange"]}
{"id": "C52", "title": "FlattenType gives concatenated and least-joined core types", "statement": "FlattenType succeeds exactly on the types without streams whose variants have between 1 and 2^24 cases, and returns: one core value per scalar or handle, two 32-bit values per string or list, one 32-bit value per 32 flags, the concatenation of the fields for a record or tuple, and for a variant a 32-bit discriminant followed by a list as long as the longest case whose every position is the least core type able to carry all cases' values there.", "quantifier": "every type", "why_tests_cant": "Unbounded nesting of types; leastness quantifies over all core types.", "anchors": ["abi/io/flatten.go: FlattenType, FlattenRecord, FlattenVariant, join"]}
{"id": "C53", "title": "WAT token texts", "statement": "Without errors, each token's text belongs to the token's type and could not be longer, and every file written as a sequence of such tokens is read back as exactly these tokens; an error is reported only where no token fits. Integers and hexadecimal floats of the WebAssembly text format get the right type. (Decimal floats, exponents without sign, nested block comments and escaped quotation marks are not recognised, some malformed floats and unfinished comments are accepted: refuted.)", "quantifier": "every input text", "why_tests_cant": "Unbounded texts, all byte values.", "anchors": ["wat/lex/lexer.go: next, rules, isFloat, isInteger, keyword", "wat/lex/dfa.go", "wat/lex/string.go"]}
{"id": "C54", "title": "WIT token texts", "statement": "Without errors, each WIT token's text belongs to the token's type and could not be longer, and every file written as a sequence of such tokens is read back as exactly these tokens; an error is reported only where no token fits. Block comments nest, and one that is never closed is an error. Every identifier of the WIT grammar that is no keyword is an identifier token. (Conversely every identifier token being an identifier of the grammar, and explicit identifiers having a name: refuted.)", "quantifier": "every input text, every table of non-ASCII letters and digits that keeps letters, digits and spaces apart", "why_tests_cant": "Unbounded texts, unbounded nesting of comments, all byte values.", "anchors": ["wit/lex/lexer.go: next, eat, eatIf, isKeyLikeStart, isKeyLikeContinue"]}
{"id": "C56", "title": "Float literals", "statement": "ParseFloat32 and ParseFloat64 give a value exactly if the text begins with one float token. The value of ParseFloat32 is what Go's ParseFloat gives for the text, except for NaN literals, where the payload is kept. The value of ParseFloat64 is the same number as the float32 that ParseFloat gives. After f32.const and f64.const an integer token may stand instead: it is read as an int32 or int64, and the value is the nearest float, ties to even, for f64 exactly the integer. (A plain nan literal is read as infinity, not as a NaN, and integers from 2^31 are read as negative floats after f32.const: refuted.)", "quantifier": "every text", "why_tests_cant": "Unbounded literals.", "anchors": ["wat/parse/parser.go: ParseFloat32, ParseFloat64, parseInstruction (f32.const, f64.const)"]}
{"id": "C57", "title": "Memory format: which bytes stand for which value", "statement": "The bytes that Store writes for a value are the ones the Canonical ABI assigns to it: little-endian integers in two's complement, IEEE bits, discriminants of 1, 2 or 4 bytes followed by the payload at its own alignment, fields at their aligned offsets, flags as bits in label order, strings and lists as pointer and length with the data at the pointer, text in the encoding of the context with the tag bit of latin1+utf16. Load returns exactly the value the bytes stand for, named by the full label of its case, and traps exactly when they stand for none, without changing anything; at most one value, up to NaN payloads and the spelling of cases, is held at an address. (That a length word with bit 31 set is rejected in untagged encodings, that bytes encoding no text are rejected, and that a text whose range wraps around the address space traps, is refuted: they are read with the bit dropped, replaced, and panic.)", "quantifier": "for all types without handles, all values, memories, addresses, encodings and correct allocators", "why_tests_cant": "round-trip tests pass when Load and Store share a mistake, such as a swapped byte order; only an independent format for all types, nestings and memories shows what another component would read", "anchors": ["abi/io/load.go: Load and the functions it calls", "abi/io/store.go: Store and the functions it calls"]}
{"id": "C55", "title": "Values of the wrong dynamic type are refused", "statement": "Store and LowerFlat succeed only for Go values whose dynamic types fit the component type at every depth: a bool for bool, float32/float64 for floats, rune for char, string, slice, a map with one entry selecting a case, a map with a bool per flag; LowerFlat wants integers of exactly the width and sign of the type, Store refuses signed integers at unsigned types, anything but a signed integer at signed types, and Go's int and uint. A bool, integer or char refused by Store, and a bool, integer, float or handle refused by LowerFlat, leaves memory, handle tables and everything else unchanged and is reported as an error. (That Store compares widths, accepts only numbers at unsigned types, wants every integer field of a record, and that every refusal is an error rather than a panic, is refuted.)", "quantifier": "for all types, values, addresses, states and allocators", "why_tests_cant": "the combinations of dynamic types and nested component types are unbounded; tests store values of the right type", "anchors": ["abi/io/store.go: Store, StoreInt, StoreFloat, StoreRecord, StoreVariant, StoreFlags", "abi/io/lower.go: LowerFlat and the functions it calls"]}
{"id": "C58", "title": "Flat format: which core values stand for which value", "statement": "The core values that LowerFlat returns for a value are the ones the Canonical ABI assigns to it: one i32 per bool, small integer or char, zero or sign extended, i64, f32 and f64 as they are with canonical NaNs, pointer and length for strings and lists, the fields of a record one after the other, the number of the case followed by the payload widened bit for bit to the joined core types and zeros, flags as 32-bit words in label order. LiftFlat returns exactly the value the next core values stand for, ignoring the bits and the core values that carry none, consumes exactly the core values of the type, traps exactly when they stand for none, and changes nothing; core values stand for at most one value up to NaN payloads and the spelling of cases.", "quantifier": "for all types without handles, all values, core values, surrounding core values, memories, encodings and correct allocators", "why_tests_cant": "round-trip tests pass when lifting and lowering share a mistake; the joined core types of nested variants are too many to enumerate", "anchors": ["abi/io/lift.go: LiftFlat and the functions it calls", "abi/io/lower.go: LowerFlat and the functions it calls", "abi/values: ValueIterator, CoerceValueIterator"]}
{"id": "C59", "title": "What passes between caller and core function in a lifted or lowered call", "statement": "A lifted call within the flat limits asks for exactly the blocks its arguments take and either ends at the first one that realloc refuses, with realloc's own error, or hands the core function exactly the core values that stand for its arguments, in order, writes no memory in use, and then either returns the values the core results stand for together with a function that runs the post-return option, or fails with the core function's own error, or traps exactly when the results stand for no values. A lowered call hands the host function exactly the values the core arguments stand for, or traps when there are none, and returns the core values standing for the host function's results once its post-return step has run, unless realloc refuses one of the blocks the results take, where the call ends with realloc's error. Beyond the flat limit, values are the fields of the tuple memory holds at the pointer passed, which traps exactly when misaligned, out of bounds or unreadable. (That too few core results are refused with an error: refuted, they crash the host.)", "quantifier": "for all function types without handles on the lifted side, all arguments, core results, callees, memories, encodings, flat limits and correct allocators", "why_tests_cant": "a test fixes one callee; the statement is about every callee, including ones that change memory and ones that return ill-formed core values", "anchors": ["abi/io/canon_lift.go: CanonLift, LiftValues", "abi/io/canon_lower.go: CanonLower, LowerValues, LowerValuesToTuple"]}
{"id": "C60", "title": "The exported string copies", "statement": "StoreStringCopy, given the size of the encoded text, leaves exactly the encoded text in a fresh block of the alignment asked for; StoreUtf8ToUtf16, given the number of bytes of its source text, leaves the text in UTF-16LE in a block of exactly its size and returns the number of its code units; neither changes a byte in use. (That a wrong number of code units is noticed: refuted, StoreStringCopy then cuts the text short and StoreUtf8ToUtf16 writes beyond its block. That sizes of 2^31 bytes and more are refused: refuted, sizes wrap around. That a block outside memory is always refused: refuted for the shrunk block.)", "quantifier": "for all texts, encodings, memories and allocators that allocate and shrink correctly", "why_tests_cant": "the functions are not called by the repository's tests; moving and shrinking allocators are not among the tests' heaps", "anchors": ["abi/io/store.go: StoreStringCopy, StoreUtf8ToUtf16"]}
{"id": "C61", "title": "Decoding WAT files", "statement": "Decode of the wat package ends on every file and succeeds exactly on the files that begin with a module or component the parser accepts. (That the decoded module has the contents of the file, and that a component is decoded as a component: refuted, every module is decoded as the empty one and every component as a nil pointer without an error.)", "quantifier": "for all files, and readers that fail", "why_tests_cant": "which files are accepted is a statement about all texts", "anchors": ["wat/decoder.go: Decode"]}
{"id": "C62", "title": "Exported parsing of string literals", "statement": "ParseString returns the contents of the string literal that the text begins with after whitespace and comments, without the quotes, and an error for other tokens. (That it gives a result or an error for every text, as the other exported parsers do: refuted, it panics where no token fits.)", "quantifier": "for all texts", "why_tests_cant": "a statement about all texts; the crash needs a text that the lexer refuses", "anchors": ["wat/parse/parser.go: ParseString"]}
{"id": "C63", "title": "Float arithmetic in discriminant widths and flag words", "statement": "DiscriminantType, computed as ceil(log2(n)/8) in float64, returns the narrowest of u8 (up to 2^8 cases), u16 (up to 2^16) and u32 (up to 2^24) that holds n cases, and an error exactly when n is 0 or above 2^24; NumI32Flags, computed as ceil(n/32) in float64, returns the least number of 32-bit words with one bit per label. Rounding never moves a boundary, provided math.Log2 is exact at powers of two and within 2^-30 elsewhere; closeness alone would not be enough (refuted: one unit in the last place at 256 cases gives u16).", "quantifier": "for all numbers of cases below 2^53, all label lists shorter than 2^32 and all logarithm functions meeting the stated accuracy", "why_tests_cant": "The boundaries are where rounding could go wrong, and there are too many inputs to enumerate; tests cannot rule out a rounding error at an untested count.", "anchors": ["abi/io/alignment.go:113-130", "abi/io/size.go:130-132"]}
{"id": "C64", "title": "A call between two components", "statement": "When core code of component A calls a lowered import that is the lifted export of component B, B's core function is run on core values that stand, in B's memory and string encoding, for the same component values A passed in its own memory and encoding, and A gets core values that stand for the values B returned. No byte in use in either memory changes, whatever the two string encodings are. If B's allocator refuses one of the blocks the arguments take there, or A's one of those the results take, or B's core or post-return function fails, the call has that outcome and nothing else.", "quantifier": "for all function types without handles, all values, both string encodings of each side, all core functions, allocators, memories and post-return functions, with the instances open to calls", "why_tests_cant": "Tests run single calls within one component with one encoding; transcoding between two memories through both directions has a product of cases no suite covers.", "anchors": ["abi/io/canon_lift.go:12-143", "abi/io/canon_lower.go:13-140", "abi/io/lift.go:13-342", "abi/io/lower.go:13-374"]}
{"id": "C65", "title": "Resource handles across whole calls", "statement": "Calls through CanonLift, CanonLower, or from one component to another change handle tables, guards and the calls in progress only by the operations C24 to C28 speak of, so those properties hold after any sequence of whole calls. An owned handle passed as an argument is taken from the caller's table, and the callee gets an index that was not in use, now an owned handle for the same representation; a returned owned handle goes the other way. A borrowed handle stays with the caller and can be neither dropped nor transferred while the call is in progress; the callee gets the representation itself if it implements the resource and otherwise a handle that belongs to the call and does not own. A handle cannot be passed twice in one call if one of the two passings is owned. Handles of other instances, and of resource types the function does not mention, are left alone. (That a callee keeping a borrowed handle makes the call trap is refuted; so is that a trapping call leaves the caller's handles as they were.)", "quantifier": "for all function types, arguments, numbers of instances, core functions and histories in which fewer than 2^32 handles are made", "why_tests_cant": "Interleavings of calls, borrows and transfers over several tables are unbounded; tests follow single handles through single calls.", "anchors": ["abi/io/canon_lift.go:12-143", "abi/io/canon_lower.go:13-140", "abi/io/lift.go:13-26", "abi/io/lower.go:244-270", "abi/types/handle.go"]}
{"id": "C66", "title": "Reading does not depend on how the input arrives", "statement": "binary.Read, leb128.DecodeReader and the WAT decoder give the same result however the io.Reader cuts the input into pieces of at least one byte. Reading ends without a panic whatever the reader does. When the reader fails with an error other than io.EOF no module is returned, and Read's error is not io.EOF. When the reader says io.EOF together with the last bytes, an input that has a meaning is given that meaning or refused. (Refuted: that such an input is never refused; that one cut off after a section header is refused; that reads returning no byte and no error do no harm; that the reader's own error is the one reported. All four hold of the WAT decoder.)", "quantifier": "every reader that delivers any sequence of pieces and ends with any error, every input", "why_tests_cant": "Pieces, their sizes and the place of the failure are unbounded; tests use in-memory readers that deliver everything at once.", "anchors": ["binary/read.go:16-427", "leb128/decode.go:9-32: DecodeReader", "wat/decoder.go:27-38: Decode"]}
{"id": "C67", "title": "Resources inside values change hands with them", "statement": "Whatever the values are made of (records, tuples, variants, options, results, unions, and lists when lifting), lifting takes from the instance exactly the resources the lifted values carry: it had each of them under some index, it no longer has the owned ones, an owned one was named once and not also borrowed, and every other handle of every instance is as before. Lowering values flat gives the instance exactly the resources the values carry, each under a different index it had not in use, and the indices are among the core values in the order of the resources; a borrow of a resource the instance implements gives it the representation instead. A call from one component to another that succeeds moves the resources in the parameters from the caller to the callee before the core function runs and those in the results back after it. Values too large to be passed flat give the callee nothing. (That a resource passed to a function whose parameters do not fit arrives at the callee is refuted: the caller loses it and no one gets it.)", "quantifier": "for all well-formed types, values, numbers of instances, core functions and histories in which fewer than 2^32 handles are made", "why_tests_cant": "Types nest without bound and every shape moves its handles along its own path; tests move single handles passed as parameters of their own.", "anchors": ["abi/io/lift.go:13-26", "abi/io/lower.go:13-64", "abi/io/load.go", "abi/io/canon_lift.go:79-143: LiftValues", "abi/io/canon_lower.go:71-140: LowerValues, LowerValuesToTuple"]}
{"id": "C68", "title": "Handle indices sit where u32s would", "statement": "Reading a value that contains resources reads exactly what reading it with u32 in place of every handle type reads, from the same core values and the same memory, and each resource in the result is the one the instance has under the index that stands in its place; memory is left as it was. This holds for values passed flat, for values in memory and for parameter lists too large to be passed flat. Lowering a value with resources flat gives the same core values and the same memory as lowering the value with the new indices in the resources' places.", "quantifier": "for all well-formed types, values, memories, instances and histories; for lowering, all allocators whose answers do not depend on the handles", "why_tests_cant": "Where the index of a nested resource is read from depends on the whole shape of the type; tests lift and lower handles at the top level only.", "anchors": ["abi/io/lift.go:13-89: LiftOwn, LiftBorrow, LiftFlat", "abi/io/load.go:13-65", "abi/io/lower.go:13-64, 244-270", "abi/io/canon_lift.go:79-143"]}
{"id": "C69", "title": "Loading looks only inside memory", "statement": "Loading a value of any type, handles included, from an aligned place inside linear memory returns a value or an error; it does not crash or hang. The result and the effect on handles depend only on the bytes inside memory, not on what the buffer holds beyond the memory's length nor on how far it extends, and memory is left as it was. (Outside memory it is different. That loading from a place outside memory traps is refuted: up to the end of the buffer the bytes beyond the length are returned, and past it the load crashes. That a misaligned place is refused is refuted too, and a misaligned record may be read past its own end and past the end of memory.)", "quantifier": "for all well-formed types, memories, places and handle tables, as long as no string or list in memory claims a range past 2^32", "why_tests_cant": "Which bytes a load looks at follows from the whole type and from pointers in memory; a test has one buffer, usually exactly as long as the memory.", "anchors": ["abi/io/load.go:13-65, 133-159: Load, LoadInt", "abi/io/load.go:206-299: LoadString, LoadList", "abi/types/context.go"]}
{"id": "C70", "title": "What the binary reader accepts", "statement": "Given memory for its vectors, the binary reader accepts exactly the files of a grammar that does not mention the reader, gives exactly the document the grammar assigns and leaves exactly what the grammar leaves, and reports an error on everything else. No file stands for two documents, and the standard encodings of modules without locals are among the files. In the grammar numbers are LEB128 of any length modulo 2^32; the sizes of type, function, export and code sections and of functions are not looked at; those sections may come in any order and be repeated, a later one replacing an earlier one; codes belong to the functions in order and may be fewer; any other section is skipped by its size; a component's contents are left unread.", "quantifier": "for all byte strings and documents", "why_tests_cant": "A test shows one accepted or one refused file; that nothing else is accepted, or accepted as something else, is about all files.", "anchors": ["binary/read.go:16-43: Read, 45-69 ReadPreamble", "binary/read.go:71-135: ReadModule, ReadSectionHeader", "binary/read.go:137-398", "leb128/decode.go"]}
{"id": "C71", "title": "Where lexical errors are reported", "statement": "After any sequence of Next and Peek without an error, the next token is refused exactly when the input at that place starts nothing: for WAT a character no token starts with or a lone semicolon; for WIT a character no token starts with, a byte that starts no character, or a block comment that is never closed. The error then names the line and column of that place. Its position is just after the strange character (for an unclosed comment, the end of the input), and for WAT the quoted text is that one character.", "quantifier": "for all inputs and all sequences of Next and Peek without an error", "why_tests_cant": "A test shows one message for one bad input; that no bad input is let through, no good one refused, and that line and column are right for every text before it is about all inputs.", "anchors": ["wat/lex/lexer.go:90-150: next; 710-712: lexerError", "wit/lex/lexer.go:78-226: next; 325-327: lexerError"]}
{"id": "C72", "title": "What is asked of the guest's allocator, and what its answers can do", "statement": "Store and LowerFlat ask the guest's realloc for exactly the blocks the value takes: one for every string, of the alignment and length of the encoded text, and one for every list, of the alignment and total size of its elements, an outer list before its elements and record fields in order; always new blocks (old pointer and size 0); nothing else is asked for, and a run that fails has made the first few of these requests. The arguments of a call are asked for one by one, or with one block for all of them when their flat form is too long. Whatever realloc answers (wrong, overlapping, misaligned or out-of-range pointers, errors, grown memory), the only bytes that change, besides those realloc itself writes, are those of the destination and of the blocks it answered. A list block that is misaligned or runs past the end of memory traps, with memory as realloc left it. (That every bad answer is refused with an error is refuted: a text block outside memory panics, a misaligned UTF-16 block is used, and a list block that runs past the end of the address space panics.)", "quantifier": "all types, values, destinations, memories, encodings and reallocs", "why_tests_cant": "the requests depend on arbitrarily nested values, and the writes on everything an allocator could answer; a test allocator answers well", "anchors": ["abi/io/store.go:201-480", "abi/io/lower.go:178-220", "abi/io/lower.go:272-344", "abi/io/canon_lower.go:71-115", "abi/types/canonical_options.go:9-18"]}
{"id": "C73", "title": "A loaded value depends only on its own bytes", "statement": "Loading a value from an aligned place inside memory depends only on the bytes the value is made of: those of its fields, of the discriminant and of the chosen case, and of the texts and list elements they point to. Padding, the room of cases not chosen and the rest of memory make no difference to the value, to the error or to what happens to handles. The same holds for lifting from core values, where only texts and lists are looked at, and the core values after the value are left. A value without texts and lists depends on its own place only. Every byte of an unsigned integer does matter. (That every byte of every value matters is refuted: a bool is any nonzero byte and NaNs are one value.)", "quantifier": "all types, memories that agree on the bytes of the value, addresses, core values, handle tables", "why_tests_cant": "a test loads from one memory; that nothing else was looked at needs a comparison over all contents of the other bytes", "anchors": ["abi/io/load.go:15-396", "abi/io/lift.go:28-342"]}
{"id": "C74", "title": "A load that succeeds stayed inside memory", "statement": "If loading a value from an aligned place inside memory gives a value, then every list and every text the value is made of lies inside memory, whatever the bytes of memory are: a length a guest makes up never yields a value by wrapping around 2^32. The same holds for lifting from core values. If no text claims 2^31 or more code units the value is the one the memory format describes, with no assumption about where lists and texts lie. A loaded list has at most as many elements as memory has room for, and a loaded text is at most three times as long as memory. (That the number of elements itself is bounded by memory is refuted: elements that take no room can be as many as the guest likes.)", "quantifier": "all types, memory contents, addresses, core values, handle tables, string encodings, for memories and list element sizes that stay within 2^32 together", "why_tests_cant": "Lengths and addresses come from the guest and are 32-bit words; tests try a few overlong ones, while the claim is about all of them at every nesting depth, including those for which the 32-bit size computation wraps.", "anchors": ["abi/io/load.go:206-299: LoadString, LoadList", "abi/io/load.go:13-65: Load", "abi/io/lift.go: LiftFlat"]}
{"id": "C75", "title": "Parse errors of WIT are about the first wrong token", "statement": "If the WIT parser refuses a text, the token its message is about is in the text at the line, column and position printed (counted from 1, 1 and 0), or is the end of the text. It is the first wrong token: no accepted file begins with the tokens up to and including it, while some accepted file begins with the tokens before it. If the message is about no token, the lexer could not read the text after tokens that begin an accepted file. (Refuted: that the tokens before the error always begin an accepted file, because paths with a package are read up to the name and then always refused; and that the message about an unknown item of a world prints the place of the item, because it prints the place after it.)", "quantifier": "all texts, all tables of Unicode letters and digits that keep letters, digits and spaces apart", "why_tests_cant": "Tests check the message of a few wrong files. That no accepted file begins with the tokens up to the error, and that one begins with the tokens before it, is a claim about every continuation of every wrong file.", "anchors": ["wit/parse/parser.go:18-21: Parse", "wit/parse/parser.go:880-985: parseId, parseInteger, eat, expect, peek, next, parseError, parseErrorFromLexer", "wit/parse/parser.go:636-666: parseWorldItem", "wit/parse/parser.go:330-371: parseUsePath, parseOptionalVersion"]}
{"id": "C76", "title": "Parse errors of WAT are about the first wrong token", "statement": "If the WAT parser refuses a text, the token its message is about is in the text at the line, column and position printed (counted from 1, 1 and 0), or is the end of the text; a comment or string that does not end counts as the end, and its beginning is the place. It is the first wrong token: no accepted file begins with the tokens up to and including it, while some accepted file begins with the tokens before it. If the message is about no token, no token starts at the place, after tokens that begin an accepted file.", "quantifier": "all texts, both orders of the lexer's rules, every strconv.ParseFloat", "why_tests_cant": "Tests check the message of a few wrong files. That no accepted file begins with the tokens up to the error, and that one begins with the tokens before it, is a claim about every continuation of every wrong file.", "anchors": ["wat/parse/parser.go:19-21: Parse", "wat/parse/parser.go:880-962: expect, eat, peek, next, parseError", "wat/parse/parser.go:22-880: the productions that choose by the next token"]}
{"id": "C77", "title": "Parse errors of WAST are about the first wrong token", "statement": "If the WAST parser refuses a script, the token its message is about is in the script at the line, column and position printed (counted from 1, 1 and 0), or is the end of the script. It is the first wrong token: no accepted script begins with the tokens up to and including it, while some accepted script begins with the tokens before it. If the message is about no token, no token starts at the place, after tokens that begin an accepted script. Whether a script is accepted depends on its tokens alone; a comment or string that does not end is ignored at the end of an otherwise complete script.", "quantifier": "all texts, both orders of the lexer's rules, every strconv.ParseFloat", "why_tests_cant": "Tests check the message of a few wrong scripts. The parser tries a directive on a copy of the lexer, steps back and reads it again, so that its place is still the first wrong token is a claim about all continuations of all wrong scripts.", "anchors": ["wast/parse/parser.go:17-75: Parse, parseWast, parseDirective", "wast/parse/parser.go:130-190: parseQuoteWat, parseWat", "wast/parse/parser.go:370-437: expect, eat, peek, next, parseError"]}
{"id": "C78", "title": "Go's map order has no effect on WAT and WAST", "statement": "lex.New ranges over a Go map when it makes its rules, so their order changes from run to run. This is never visible: any sequence of Next, Peek and Clone calls has the same answers, lexer errors the same place and text, Parse (of WAT, WAST and the exported functions for literals, on a fresh or a used lexer) the same result, the same token in its error and the same tokens left over, and Decode the same module or error.", "quantifier": "for all inputs, all histories of calls, all starting points and both orders", "why_tests_cant": "the order is chosen by the runtime at random, so a passing test run says nothing about the next one", "anchors": ["wat/lex/lexer.go:27-54 New", "wat/lex/lexer.go:56-150 Clone, Peek, Next", "wat/parse/parser.go:19-21 Parse", "wast/parse/parser.go:17-20 Parse", "wat/decoder.go:27-38 Decode"]}
{"id": "C79", "title": "LEB128 through buffered writers and readers", "statement": "Encode on a bufio.Writer of any size over any io.Writer writes the shortest LEB128 form of the number and returns its length, or returns an error of the io.Writer, after which every call returns that error and writes nothing; what was written before is never lost or changed. If writing some numbers and Flush succeed, the io.Writer has exactly their forms in order; over an io.Writer that takes everything nothing fails. Decode on a bufio.Reader of any size gives the number that the bytes to come begin with and leaves the bytes after it, however the io.Reader cuts them into pieces, including empty reads and an error that comes with the last bytes; if they end too early it returns the io.Reader's own error. So numbers written and flushed are read back in order. (That a failed Encode has written nothing, and that any number of empty reads in a row is accepted, is refuted.)", "quantifier": "for all numbers below 2^32, all buffer sizes, all io.Writers that take no more than they are given, all io.Readers", "why_tests_cant": "the sizes of buffers, the pieces of the input and the moment of a failure are chosen by others; a test fixes one of infinitely many", "anchors": ["leb128/encode.go:5-23 Encode", "leb128/decode.go:34-51 Decode"]}
{"id": "C80", "title": "Lexers after an error", "statement": "A lexer may be used on after Next returned an error or Peek panicked. Each such call of the WAT lexer passes over exactly one character, each of the WIT lexer over the strange character or the unclosed comment it was about. The text passed over since the last token is put before the next token, which otherwise is the one a new lexer finds in the rest of the input; its place is that of the text passed over. A number or the words module and component then become a plain word, a WIT keyword a name. A further error gives the same line and column, and in WAT quotes all the text passed over. After that token earlier errors have no influence: all further calls give the types and texts a new lexer gives on the rest of the input. (That every token's text is a text of its type is refuted after an error.)", "quantifier": "for all inputs, all sequences of Next and Peek with any number of failures, all tables of letters and digits", "why_tests_cant": "errors may come in any number, at any place and between any calls; a test of a few inputs shows nothing about the rest", "anchors": ["wat/lex/lexer.go:68-189 Peek, Next, next, token", "wat/lex/lexer.go:710-712 lexerError", "wit/lex/lexer.go:55-181 Next, Peek, next", "wit/lex/lexer.go:228-258 token, capture"]}
{"id": "C81", "title": "Only the allocator can refuse a proper value", "statement": "Storing a value of its type at an aligned place inside memory, lowering it to flat values, or lowering the arguments of a call within the flat limit, can fail in one way only when the guest's realloc is correct: realloc itself fails on one of the blocks the value takes. The blocks before it have then been asked for in order and granted, the caller gets realloc's own error or panic, and nothing is asked for or written afterwards: memory, instances and handles are as realloc left them. If realloc grants each of these requests when it is made, the operation succeeds, and a stored value reads back; a value that takes no block is stored and lowered whatever realloc would do.", "quantifier": "for all types without handles, all proper values, all memories and places, all correct allocators, which may refuse any request for any reason", "why_tests_cant": "a refusal can come at any of arbitrarily many requests, in any state, from arbitrary guest code; tests try a few allocators that always succeed", "anchors": ["abi/io/store.go:13-98 Store, StoreValidate", "abi/io/store.go:201-515 strings, lists, records and variants", "abi/io/lower.go:178-220", "abi/io/lower.go:272-344", "abi/io/canon_lower.go:71-115", "abi/types/canonical_options.go:9-18"]}
{"id": "C82", "title": "Core values of the wrong type or number", "statement": "LiftFlat looks at the next len(FlattenType(t)) core values and at no others, whatever they are and whether it succeeds or not: the core values before and after them make no difference to the value, to the error or to what happens to memory and handles. If one of them has another type than the flattened one, or there are fewer, no value is returned. If there are enough, of whatever types, a value without texts and lists is lifted or refused with an error, without a panic. A lowered call whose core arguments do not begin with the flattened types of the parameters (or, beyond the flat limit, with a pointer) fails before the host function is run, and a lifted call returns values only if the core function gave back core values that begin with the flattened types of the results. (That too few core values are always refused with an error: refuted, they can crash the host.)", "quantifier": "every type, context, state, list of core values of any types and position in it, function type, flat limits, host and core function", "why_tests_cant": "The core values come from guest code and may be any list; that none beyond the value's own is looked at, also when lifting fails, compares two runs for all lists.", "anchors": ["abi/io/lift.go: LiftFlat", "abi/values/value.go: Next", "abi/values/coerce_value_iterator.go: Next", "abi/io/canon_lift.go: CanonLift, LiftValues", "abi/io/canon_lower.go: CanonLower"]}
{"id": "C83", "title": "Which index a new handle gets", "statement": "Count, for one resource type in one instance, the slots its table came to have, the handles that left it and how many of these departures are still outstanding: each request for a new handle (CanonResourceNew, LowerOwn, LowerBorrow into another instance) takes up one outstanding departure, granted or not, and only if there is none a new slot. With none outstanding the request is granted under the first index never used. With k+1 outstanding it is granted index k if no handle is there and refused with an error otherwise. So as long as no handle left the table the handles are numbered 0, 1, 2, ... in order and none is refused; in total no more requests are refused than handles left; a request directly after the removal of index i gets i again exactly if i equals the number of departures outstanding before (that a freed index is always the next one given out: refuted by this); and a table that is empty at every request uses index 0 only and refuses nothing.", "quantifier": "every number of instances, every resource type, every history of operations on handles and calls with fewer than 2^32 requests", "why_tests_cant": "The index depends on all earlier additions and removals in the table; a test sees one order of them.", "anchors": ["abi/types/handle.go: Add, Get, Remove", "abi/io/canon.go: CanonResourceNew, CanonResourceDrop", "abi/io/lower.go: LowerOwn, LowerBorrow", "abi/io/lift.go: LiftOwn"]}
{"id": "C84", "title": "Memory behaves like variables", "statement": "Take places in memory, each with a type, aligned and in the region the allocator never hands out, no two of them sharing a byte. Then, whatever sequence of Store calls to these places (succeeding or failing, with values of the right type or not), LowerFlat calls (succeeding or failing) and steps of a guest that leaves memory in use alone has been run with a correct allocator, each place loads as the value last stored there, provided that store succeeded; and the core values any earlier LowerFlat produced still lift to the value that was lowered. LowerFlat, whatever the value and outcome, changes no byte in use. (That a Store that fails leaves the old value in place: refuted.)", "quantifier": "every list of places, every sequence of steps of any length, all types and values without handles, every correct allocator", "why_tests_cant": "Needs all sequences of operations and all interleavings with guest steps; a test stores one value and loads it back.", "anchors": ["abi/io/store.go: Store", "abi/io/load.go: Load", "abi/io/lower.go: LowerFlat", "abi/io/lift.go: LiftFlat"]}
{"id": "C85", "title": "What calls of any width pass", "statement": "Whole calls, with parameters and results each within or beyond the limit on the number of core values. CanonLift: arguments beyond the limit are not looked at; one block of the size and alignment of the tuple of the parameter types is asked for; if it is refused the call ends with the allocator's failure, otherwise the core function is run with the block's address, which is aligned, inside memory and was free, with no byte in use changed and all guards as before. Results beyond the limit are the fields of the tuple found at the address the core function returns, in some order, and the call traps exactly if the address is not aligned, not inside memory or the tuple there is not readable. CanonLower reads parameters beyond the limit in the same way. With results beyond the limit it writes nothing: it returns the core argument that follows those of the parameters if it is an address at which the tuple could lie; fails with an error that is not a trap if it is another address or a core value of another type; and crashes if there is none, unless there are no core arguments at all. After such a failure the instance may not be left. So neither arguments nor results beyond the limit can make a difference to the other side. (That results beyond the limit reach the place the caller gives for them: refuted.)", "quantifier": "all function types without handles in what is read, all limits, all argument values, every core or component function, every correct allocator, every memory", "why_tests_cant": "A test calls a few functions, nearly always within the limits; the claim is about every type, limit, value and callee.", "anchors": ["abi/io/canon_lift.go: CanonLift, LiftValues", "abi/io/canon_lower.go: CanonLower, LowerValues, LowerValuesToTuple"]}
{"id": "C86", "title": "Values may be handed on at a supertype", "statement": "A value that Load or LiftFlat gives at one type may be given to Store or LowerFlat at a supertype: a record with some of the fields, flags with some of the labels, a variant that has, for each case, the case itself or one it refines (directly or in steps), with payloads at supertypes, and lists of these; a tuple, option, result, enum or union counts as the record or variant it abbreviates. Provided texts can be written in the encoding and lists fit in memory, the operation succeeds or fails as the allocator does, and reading back at the supertype gives the same value without what the supertype lacks. The case written is the nearest one known: of the labels of the case that was read, followed by those of the cases it refines, the first that the other type has. A case of which no label is known is refused with an error and no effect. Every type without handles is its own supertype, and so is one with fewer fields, fewer flags or more cases. (That a payload which was read is never lost in such a step: refuted.)", "quantifier": "all pairs of types in this relation, nested to any depth, with refinement chains of any length; all core values and memories; every correct allocator; every pair of call contexts, with different encodings", "why_tests_cant": "The repository's test tries three cases of one variant against another with a single case; the claim is about every pair of types and every value.", "anchors": ["abi/io/load.go: CaseLabelWithRefinements, LoadVariant, LoadRecord", "abi/io/lift.go: LiftFlatVariant", "abi/io/lower.go: MatchCase, LowerFlatVariant, LowerFlatRecord", "abi/io/store.go: StoreVariant, StoreRecord, StoreFlags"]}
{"id": "C87", "title": "What the WIT parser accepts can be written down again", "statement": "For every text the WIT parser accepts, writing its syntax tree down in the notation of the language (one token after the other, a blank after each) gives a text that is accepted with the same syntax tree. Nothing the parser puts into a tree is beyond what the notation can say: not a namespace that is a number, not a keyword taken as the name of a type, not a token that was skipped between items. So a formatter that parses and prints keeps the meaning of every text, running it twice is the same as running it once, and two accepted texts have the same tree exactly if they are formatted to the same text.", "quantifier": "every text the parser accepts, every well-formed classification of characters", "why_tests_cant": "A test formats some files; the claim is about every accepted text, including those with skipped tokens, numbers in octal, left-over commas and keywords as names, and needs the tree of every construct of the language to be within reach of the printer.", "anchors": ["wit/parse/parser.go:18-985", "wit/lex/lexer.go", "wit/token/token.go"]}
{"id": "C88", "title": "What the WAT and WAST parsers accept can be written down again", "statement": "For every text that the WAT or the WAST parser accepts, writing its tree down in the text format gives a text that is accepted with the same tree; floats may be written in any way that is read back, and the tokens of the text itself always provide one. So two accepted files have the same tree exactly if they print alike, and the trees the parsers produce are exactly those that can be written: names are identifiers, i32 constants lie in the range of an int32, i64 constants between -2^31 and 2^32, indices and limits are below 2^32, a br_table has one label, results of functions and of if have one type, only an operator can be folded. Instructions that are accepted and forgotten, unknown element types and unknown actions are written as some instruction, type or action of that kind.", "quantifier": "every text the parsers accept, every tree, any function for strconv.ParseFloat", "why_tests_cant": "A test prints some files; the claim is about every accepted text, including files with forgotten instructions, imports, octal or negative numbers, sections in any order and repeated parts of an if, and says of every tree whether some file has it.", "anchors": ["wat/parse/parser.go", "wast/parse/parser.go", "wat/lex/lexer.go", "wat/ast/ast.go", "wast/ast/ast.go"]}
{"id": "C89", "title": "Store writes exactly the bytes the value occupies", "statement": "A Store of a value at a place changes, of all bytes in use, only those the value occupies: those of its fields, of its discriminant and of the payload of the case it selects. Padding between and behind fields, and the room other cases would have needed, keep what they held, whether or not Store succeeds. All bytes the value occupies lie in its place, and for a type without texts and lists all of them are written: what they hold afterwards, and whether Store succeeds, does not depend on what memory held before. (That the place as a whole is settled by the value is refuted: stale bytes stay in the padding.)", "quantifier": "every type with a layout, every value whose lists fit, every place and memory, every correct allocator", "why_tests_cant": "Types nest without bound and the bytes that must stay depend on the cases chosen at every level; a test looks at the bytes of a few values.", "anchors": ["abi/io/store.go: Store, StoreRecord, StoreVariant, StoreInt, StoreFlags", "abi/io/alignment.go: AlignTo"]}
{"id": "C90", "title": "Labels are only names", "statement": "Renaming the fields, cases and flags of a type so that different names stay different (keeping the names that go with tuples, unions, options and results, and bringing in no bars) changes no alignment, no size and no core signature. The value with its keys renamed is stored and lowered at the renamed type exactly as before: the same outcome, bytes, allocations, handle tables and core values. Loading and lifting at the renamed type does the same and gives the renamed value. So two sides that agree on a type up to names understand each other. (That names may be merged is refuted: a record with two fields of one name loses a value.)", "quantifier": "every such renaming, every type, value, place, iterator, state and call context", "why_tests_cant": "Both the names and the types range over unbounded sets, and refinement chains and bar-separated keys compose names; a test fixes the names.", "anchors": ["abi/io/load.go: LoadRecord, LoadVariant, LoadFlags, CaseLabelWithRefinements", "abi/io/store.go: StoreRecord, StoreVariant, StoreFlags", "abi/io/lower.go: MatchCase", "abi/io/lift.go: LiftFlat"]}
{"id": "C91", "title": "A copied value is the same value", "statement": "The bytes of a value without texts and lists mean the same wherever they lie: at two aligned places, in memories of any two lengths, they load as the same value or fail with the same error, and do the same to handles. Any value, with texts and lists too, may be copied within memory to another aligned place, even one that overlaps the old one, as long as the copy does not write over its texts and lists: it loads at the new place as it did at the old one. (That this holds at places that are not aligned is refuted: fields are looked for at aligned addresses, so the same bytes are another value.)", "quantifier": "every well-formed type with a layout, every two places and memories, every handle table and string encoding", "why_tests_cant": "Types nest without bound and places are any of 2^32 addresses; a test loads a few values from a few addresses.", "anchors": ["abi/io/load.go: Load, LoadRecord, LoadVariant, LoadList, LoadString, LoadFlags", "abi/io/alignment.go: AlignTo"]}
{"id": "C92", "title": "A value is written the same way everywhere", "statement": "A value without texts and lists has one encoding. Stored at any two places, in two memories of any contents and lengths, by two calls with any allocators and string encodings, it is accepted at both or refused at both with the same error, and if it is accepted the bytes it occupies at one place are those at the same distance at the other; only that both places are aligned, or neither, is required. Which bytes of its place a value of any type occupies does not depend on the place. (That the encoding of a text is the same everywhere is refuted: it holds an address, which depends on what was allocated before.)", "quantifier": "every well-formed type without texts and lists, every value of whatever shape, every two places, memories, allocators and encodings", "why_tests_cant": "Types nest without bound, values need not even be of the type, and places are any of 2^32 addresses; a test stores a few values at one or two addresses.", "anchors": ["abi/io/store.go: Store, StoreInt, StoreRecord, StoreVariant, StoreFlags", "abi/io/alignment.go: AlignTo"]}
{"id": "C93", "title": "Calls do not depend on the names in a function's type", "statement": "Take a function type and another that has other names for its parameters and results (any) and for the fields, cases and flags in their types (renamed so that different names stay different, as in C90). Both have the same core signatures. CanonLift with the other type, given the arguments with their keys renamed, is the same call: the same checks, allocations and core arguments, the core function runs in the same state, the outcome, the effects and the post-return function are the same, and the results have the other names. CanonLower with the other type, around a host function that does the same under the other names, cannot be told apart by core code: same core results, same outcome, same effects. This holds within the flat limits and beyond them, for maps visited in any order that is the same up to names.", "quantifier": "every such pair of function types, all arguments of whatever shape, all options, instances, limits, core and host functions, and states", "why_tests_cant": "Names, types and core functions range over unbounded sets and a call goes through every part of the ABI; a test fixes one type and its names.", "anchors": ["abi/io/canon_lift.go: CanonLift, LiftValues", "abi/io/canon_lower.go: CanonLower, LowerValues, LowerValuesToTuple", "abi/io/flatten.go: FlattenFuncTypeLift, FlattenFuncTypeLower"]}
{"id": "C94", "title": "A value is read from the bytes it was written to", "statement": "After Store succeeds with a proper value of any type, the bytes Load makes of it are exactly those the value occupies in its place (C89) and those of the texts and lists it points to: Load and Store agree on every field offset, discriminant width, payload offset and padding byte. If the type has no texts and lists, they are exactly the bytes the value occupies, so that whatever later happens to the rest of memory, the padding of the place included, Load still gives that value. And different values are written differently: if the bytes that one value occupies are also those at the same distances in the place of another stored value, the two are the same value, even when the memories, the allocators and the encodings differ. For texts the bytes in place do not settle the value.", "quantifier": "every type that obeys the format's rules, all proper values, all aligned places, allocators that obey the rules, memories, and later changes of memory", "why_tests_cant": "Padding and unused payload bytes may hold anything and types nest without bound; a test compares a few places of a few types.", "anchors": ["abi/io/store.go: Store, StoreInt, StoreRecord, StoreVariant, StoreFlags", "abi/io/load.go: Load, LoadRecord, LoadVariant, LoadFlags", "abi/io/size.go, abi/io/alignment.go: SizeVariant, MaxCaseAlignment, DiscriminantType"]}
{"id": "C95", "title": "Values that are the same are interchangeable", "statement": "Two values may differ in what the component model does not see: the payload of a NaN, entries of a record's map that are not fields, the order of entries, the refinements named in a case's key, what is given for a case without a payload. Such values are the same, and nothing downstream can tell them apart: Store and LowerFlat do exactly the same with either, in every state and with every allocator - same outcome, same allocations, same bytes, same core values - also inside lists, records and variants of any depth; CanonLift with the one or the other as arguments is the same call; and core code that calls a host function through CanonLower cannot tell which of them the host returned. In particular what Load gives back after a Store may be stored and lowered instead of the original, with the same effects.", "quantifier": "every type that obeys the format's rules (with any number of cases), all pairs of values that are the same, all contexts, allocators, limits, core and host functions, addresses and states", "why_tests_cant": "It compares two runs on values that may differ at any number of places in a nested value; a test compares two literals.", "anchors": ["abi/io/store.go: Store, StoreFloat, StoreListIntoRange, StoreRecord, StoreVariant, StoreFlags", "abi/io/lower.go: LowerFlat, LowerFlatVariant, MatchCase", "abi/io/canonicalize.go", "abi/io/canon_lift.go: CanonLift", "abi/io/canon_lower.go: CanonLower, LowerValues"]}
{"id": "C96", "title": "Core values of plain values", "statement": "A type without texts, lists and handles in it is plain. LowerFlat of any value at a plain type has one outcome, the same for all calls, encodings, allocators and states, and no effect; LiftFlat of given core values at a plain type likewise. Two proper values of a plain type have the same core values exactly if they are the same value (as in C95), so core values neither confuse different values nor tell apart what the component model does not.", "quantifier": "every plain type, all values (of the type or not) and all core values, contexts and states", "why_tests_cant": "It relates all pairs of values and all states; joined and padded core values of variants collide only for particular pairs.", "anchors": ["abi/io/lower.go: LowerFlat, LowerFlatRecord, LowerFlatVariant, LowerFlatFlags", "abi/io/lift.go: LiftFlat, LiftFlatVariant, LiftFlatRecord, LiftFlatFlags"]}
{"id": "C97", "title": "Values survive the growth of memory", "statement": "A value that Load returns is still returned, and the same happens to handles, after bytes were appended to linear memory: whatever the type, the place and the contents of memory are. For a value in an aligned place inside memory it is enough that the bytes inside the old memory stay; what the buffer had beyond its length may be lost. The same holds for LiftFlat, and for all the arguments or results of a call at once. (Only success is kept. That errors stay is refuted: what lay outside memory may lie inside afterwards. And the new length must fit in 32 bits. That values survive growth to the 4 GiB a 32-bit guest may have is refuted: the program sees the length as 0, and every nonempty text and list traps.)", "quantifier": "all types, places, memories, amounts of growth below 2^32, core values, handle tables, string encodings", "why_tests_cant": "tests load from a memory of one fixed small size; growth can come between any two accesses and by any amount", "anchors": ["abi/io/load.go:13-65", "abi/io/load.go:219-253", "abi/io/load.go:269-299", "abi/io/lift.go:28-89", "abi/io/canon_lift.go:79-143"]}
{"id": "C98", "title": "A part of a list is a list", "statement": "A list inside memory may be passed to LiftFlat whole or in parts: what is lifted from n1+n2 elements is what is lifted from the first n1 of them, followed by what is lifted afterwards from the n2 at the address that many element sizes further on. One succeeds if and only if the other does, and handles change hands in the same order. A list of one element is what Load gives at its address, a list of none is empty and touches nothing, and a list that lies in memory as an address and a length loads as what is lifted from these two numbers. So the elements of a list are what Load gives at their places, one after the other.", "quantifier": "all element types, addresses, lengths, ways to cut, memories, handle tables, string encodings", "why_tests_cant": "the ways to cut a list and the values in it are unbounded, and elements may own handles, so the order matters", "anchors": ["abi/io/load.go:255-299", "abi/io/lift.go:234-244"]}
{"id": "C99", "title": "A text may be cut between characters", "statement": "A text inside memory may be passed to LiftFlat whole or in two parts, in UTF-8 and in UTF-16 of either byte order: if the first part is made of whole characters, then it is lifted as these, and the whole is lifted as these followed by what is lifted from the second part, whatever bytes that has. (That a text may be cut anywhere is refuted: parts of a character are lifted as replacement characters. In Latin-1, where every byte is a character, it is refuted too: a part that begins at an odd address traps.)", "quantifier": "all addresses, lengths below 2^31, texts, memories, byte orders", "why_tests_cant": "texts, their lengths and the bytes that follow are unbounded, and characters take one to four bytes", "anchors": ["abi/io/load.go:219-253", "abi/io/lift.go:246-256", "encoding/utf8.go:8-16", "encoding/utf16.go:12-34", "encoding/latin1.go:10-25"]}
{"id": "C100", "title": "Arguments are passed one after the other", "statement": "As long as the core values of all arguments (or results) together fit the limit, a sequence of arguments may be passed whole or in two groups. LiftValues on the whole succeeds exactly when LiftValues on the first group succeeds and then, from the core values and the state this leaves, LiftValues on the second group does; the result is the values of the first group followed by those of the second. LowerValues likewise gives the core values of the first group followed by those of the second. The first group that fails decides the error of the whole and the state it leaves. A single argument is passed, or fails, exactly as LiftFlat and LowerFlat pass it. LowerValues does not check the number of values: within the limit, a surplus value is an index panic once the others are lowered, and missing values are not noticed. (That a wrong number of values is an error is refuted. Without the limit the first claims are refuted: groups that fit the limit on their own need not fit it together, and are then passed as an address.)", "quantifier": "all types, values, core values, limits, states, options", "why_tests_cant": "the number of arguments and the depth of their types are unbounded, and so are the states in which the second group is passed", "anchors": ["abi/io/canon_lift.go:79-91", "abi/io/canon_lower.go:71-92", "internal/collections/select.go:3-13"]}
