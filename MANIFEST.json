{
 "claims": [
  {
   "property": "C01",
   "status": "proved",
   "theorems": [
    "leb128_round_trip"
   ],
   "note": ""
  },
  {
   "property": "C02",
   "status": "proved",
   "theorems": [
    "leb128_encode_minimal",
    "leb128_encode_prefix_free"
   ],
   "note": ""
  },
  {
   "property": "C03",
   "status": "proved",
   "theorems": [
    "leb128_decode_value",
    "leb128_decode_truncated",
    "leb128_decode_slice_truncated_refuted",
    "leb128_decode_overflow_refuted",
    "leb128_decode_overlong_refuted"
   ],
   "note": "the parenthesised exceptions are proved as refutations"
  },
  {
   "property": "C04",
   "status": "proved",
   "theorems": [
    "align_to_least",
    "align_to_mod",
    "align_to_not_below_refuted",
    "align_float_as_integers",
    "align_float_least"
   ],
   "note": "Wrap-around part proved as a refutation. The float64 operations are proved equal to the integer model with Flocq; these two theorems depend on the axioms of the standard library for the reals."
  },
  {
   "property": "C05",
   "status": "proved",
   "theorems": [
    "alignment_divides_size",
    "layout_as_specified",
    "no_layout_no_size",
    "no_layout_no_alignment_refuted"
   ],
   "note": "Types without a layout have no Size; that Alignment refuses them too is refuted."
  },
  {
   "property": "C06",
   "status": "proved",
   "theorems": [
    "record_fields_placed",
    "record_load_reads_at_offsets",
    "record_store_writes_at_offsets"
   ],
   "note": ""
  },
  {
   "property": "C07",
   "status": "proved",
   "theorems": [
    "variant_payloads_placed",
    "discriminant_smallest",
    "variant_load_reads_at_offset",
    "variant_store_writes_at_offset"
   ],
   "note": ""
  },
  {
   "property": "C08",
   "status": "proved",
   "theorems": [
    "specialised_as_despecialised",
    "despecialize_table",
    "positions_label"
   ],
   "note": ""
  },
  {
   "property": "C09",
   "status": "proved",
   "theorems": [
    "lower_flat_kinds"
   ],
   "note": ""
  },
  {
   "property": "C10",
   "status": "proved",
   "theorems": [
    "flat_round_trip",
    "flat_round_trip_memory"
   ],
   "note": ""
  },
  {
   "property": "C100",
   "status": "proved",
   "theorems": [
    "lifted_in_groups",
    "lowered_in_groups",
    "single_value",
    "single_value_fails",
    "lift_group_fails",
    "lower_group_fails",
    "more_values_panic",
    "fewer_values_unnoticed",
    "groups_beyond_limit_refuted",
    "wrong_number_is_error_refuted"
   ],
   "note": "flattens is in S_Flat.v. The _refuted theorems are the refuted parts of the statement."
  },
  {
   "property": "C11",
   "status": "proved",
   "theorems": [
    "lift_flat_consumes"
   ],
   "note": ""
  },
  {
   "property": "C12",
   "status": "proved",
   "theorems": [
    "load_after_store",
    "later_stores_keep_value"
   ],
   "note": "handles (own, borrow) are excluded: Store has no case for them"
  },
  {
   "property": "C13",
   "status": "proved",
   "theorems": [
    "store_frame"
   ],
   "note": ""
  },
  {
   "property": "C14",
   "status": "proved",
   "theorems": [
    "store_out_of_bounds_rejected",
    "store_wraparound_rejected_refuted"
   ],
   "note": "the uint32 wrap-around case is a refutation"
  },
  {
   "property": "C15",
   "status": "proved",
   "theorems": [
    "store_misaligned_rejected",
    "load_misaligned_list_traps",
    "load_misaligned_string_traps"
   ],
   "note": ""
  },
  {
   "property": "C16",
   "status": "proved",
   "theorems": [
    "lift_f32_canonical",
    "lift_f64_canonical",
    "lower_f32_canonical",
    "lower_f64_canonical",
    "load_f32_canonical",
    "load_f64_canonical",
    "store_f32_canonical",
    "store_f64_canonical"
   ],
   "note": ""
  },
  {
   "property": "C17",
   "status": "proved",
   "theorems": [
    "lift_char_scalar",
    "load_char_scalar",
    "lower_char_checked_refuted"
   ],
   "note": "the lowering direction is a refutation"
  },
  {
   "property": "C18",
   "status": "proved",
   "theorems": [
    "lift_bool_nonzero",
    "lift_unsigned_mod",
    "lift_signed_mod",
    "narrow_round_trip"
   ],
   "note": ""
  },
  {
   "property": "C19",
   "status": "proved",
   "theorems": [
    "lower_flags_bits",
    "lift_flags_bits",
    "load_flags_bits",
    "store_flags_bits",
    "flags_over_64_kept_refuted"
   ],
   "note": "more than 64 labels: refutation"
  },
  {
   "property": "C20",
   "status": "proved",
   "theorems": [
    "load_bad_discriminant_traps",
    "load_discriminant_selects",
    "lift_bad_discriminant_traps",
    "lift_discriminant_selects"
   ],
   "note": ""
  },
  {
   "property": "C21",
   "status": "proved",
   "theorems": [
    "case_label_matches_back",
    "case_label_terminates_refuted"
   ],
   "note": "refinement cycles: refutation"
  },
  {
   "property": "C22",
   "status": "proved",
   "theorems": [
    "string_round_trip"
   ],
   "note": ""
  },
  {
   "property": "C23",
   "status": "proved",
   "theorems": [
    "tagged_units_round_trip",
    "tagged_units_value",
    "tagged_units_inverse",
    "tagged_units_large_refuted"
   ],
   "note": ""
  },
  {
   "property": "C24",
   "status": "proved",
   "theorems": [
    "handles_follow_spec",
    "handle_found",
    "handle_stays",
    "handle_gone",
    "handle_absent",
    "failed_transfer_keeps"
   ],
   "note": "For every history in which fewer than 2^32 handles are made. A drop may trap after taking the handle away: trapping_drop_harmless_refuted."
  },
  {
   "property": "C25",
   "status": "proved",
   "theorems": [
    "add_uses_free_index",
    "add_never_disturbs",
    "add_always_succeeds_refuted",
    "freed_index_reused_refuted"
   ],
   "note": "Safety proved; 'Add always succeeds' and 'freed indices are reused' refuted."
  },
  {
   "property": "C26",
   "status": "proved",
   "theorems": [
    "lent_stays",
    "unlent_leaves",
    "lend_counts_balance",
    "lend_count_exact",
    "lend_count_returns",
    "exit_twice_harmless_refuted",
    "borrowed_cannot_be_transferred_refuted"
   ],
   "note": "Calls leave once; leaving twice breaks the count (refuted)."
  },
  {
   "property": "C27",
   "status": "proved",
   "theorems": [
    "borrow_count_exact",
    "exit_traps_iff"
   ],
   "note": ""
  },
  {
   "property": "C28",
   "status": "proved",
   "theorems": [
    "drop_effect",
    "drop_runs_destructor",
    "new_entry",
    "destructor_at_most_once",
    "trapping_drop_harmless_refuted"
   ],
   "note": "drop_effect is for a destructor without effects on the state, drop_runs_destructor carries it to any destructor; destructor_at_most_once counts in histories of such destructors. trapping_drop_harmless_refuted is the refuted part."
  },
  {
   "property": "C29",
   "status": "proved",
   "theorems": [
    "lift_refused",
    "lower_refused",
    "lift_lowers_locked",
    "lower_lowers_locked",
    "lifted_callee_sees_guards",
    "lowered_callee_sees_guards",
    "lift_allocates_locked",
    "lower_allocates_locked"
   ],
   "note": "Realloc is arbitrary code on the memory and the instances that leaves the guards as it found them."
  },
  {
   "property": "C30",
   "status": "proved",
   "theorems": [
    "lift_restores_leave",
    "lower_restores_leave",
    "failed_lowering_locks",
    "locked_instance_stays_locked",
    "leave_restored_after_error_refuted"
   ],
   "note": "The error case is a refutation."
  },
  {
   "property": "C31",
   "status": "proved",
   "theorems": [
    "values_arrive",
    "echo_returns_arguments",
    "spilled_values_ignored",
    "spilled_values_arrive_refuted",
    "spilled_results_ordered_refuted",
    "missing_values_rejected_refuted",
    "superfluous_values_panic"
   ],
   "note": "Types without handles; handles are C24-C28. Beyond the limits: refutations."
  },
  {
   "property": "C32",
   "status": "proved",
   "theorems": [
    "lift_functype_limits",
    "lower_functype_limits",
    "lift_functype_shape",
    "lower_functype_shape"
   ],
   "note": ""
  },
  {
   "property": "C33",
   "status": "proved",
   "theorems": [
    "encode_text",
    "decode_encoded_text",
    "encoded_length_units",
    "encode_latin1_rejects",
    "encoded_is_text",
    "cut_character_lost",
    "encoding_keeps_every_byte_refuted"
   ],
   "note": "the last clause is refuted as stated; the transcoders are in golang.org/x/text; modelled by their published behaviour"
  },
  {
   "property": "C34",
   "status": "proved",
   "theorems": [
    "module_read_back",
    "declared_locals_rejected",
    "every_module_read_back_refuted"
   ],
   "note": "Modules whose functions declare no locals; with locals: refutation."
  },
  {
   "property": "C35",
   "status": "proved",
   "theorems": [
    "read_total",
    "wrong_magic_rejected",
    "short_input_rejected",
    "wrong_version_rejected",
    "truncation",
    "accepted_input_truncation",
    "every_truncation_rejected_refuted",
    "section_sizes_checked_refuted",
    "functions_have_code_refuted",
    "small_inputs_cannot_crash_refuted",
    "component_contents_ignored"
   ],
   "note": "Memory exhaustion is modelled as a limit on one allocation. accepted_input_truncation is about sections in the sense of S_BinaryLoose, which is what the reader takes (C70)."
  },
  {
   "property": "C36",
   "status": "proved",
   "theorems": [
    "tokens_cut_the_input"
   ],
   "note": "For histories of Next and Peek calls, also with errors in between."
  },
  {
   "property": "C37",
   "status": "proved",
   "theorems": [
    "lines_and_columns"
   ],
   "note": ""
  },
  {
   "property": "C38",
   "status": "proved",
   "theorems": [
    "next_gives_token_or_error",
    "tokenisation_ends",
    "peek_is_next",
    "peek_panics_on_error",
    "peek_reports_errors_refuted",
    "peeks_are_invisible",
    "clones_are_independent"
   ],
   "note": "Peek panics where Next reports an error: refutation."
  },
  {
   "property": "C39",
   "status": "proved",
   "theorems": [
    "wit_tokens_cut_the_input",
    "wit_lines_and_columns",
    "wit_next_gives_token_or_error",
    "wit_tokenisation_ends",
    "wit_peek_is_next",
    "wit_peek_panics_on_error",
    "wit_peek_reports_errors_refuted",
    "wit_peeks_are_invisible",
    "wit_clones_are_independent"
   ],
   "note": "Peek panics where Next reports an error: refutation."
  },
  {
   "property": "C40",
   "status": "proved",
   "theorems": [
    "keywords_are_whole_words",
    "keywords_are_found"
   ],
   "note": ""
  },
  {
   "property": "C41",
   "status": "proved",
   "theorems": [
    "wit_type_parses",
    "wit_type_means",
    "wit_type_parses_back",
    "list_item_type_set_refuted",
    "item_types_never_set",
    "types_are_names_refuted"
   ],
   "note": "Types of any nesting, with whitespace and comments anywhere between the tokens and anything after them."
  },
  {
   "property": "C42",
   "status": "proved",
   "theorems": [
    "wit_parse_means",
    "wit_spelling_unambiguous",
    "wit_spaces_do_not_matter",
    "wit_files_join",
    "wit_file_parses_back",
    "namespaced_use_rejected",
    "use_paths_have_no_package",
    "unknown_tokens_accepted",
    "unknown_tokens_rejected_refuted",
    "one_package_refuted",
    "semicolons_required_refuted",
    "worlds_define_types_refuted",
    "enums_in_worlds_rejected",
    "namespaced_import_rejected",
    "namespaced_import_version_rejected",
    "namespaced_interface_use_rejected",
    "namespaced_include_rejected",
    "include_with_rejected",
    "versions_are_decimal_refuted",
    "version_eight_rejected",
    "prerelease_rejected",
    "method_names_refuted"
   ],
   "note": "The grammar is S_WitParse, the printer S_WitPrint."
  },
  {
   "property": "C43",
   "status": "proved",
   "theorems": [
    "instruction_parses_back",
    "instructions_parse_back",
    "forgotten_instructions",
    "different_instructions_differ_refuted",
    "block_end_rejected",
    "nop_rejected",
    "load_offset_rejected"
   ],
   "note": "The forgotten instructions: refutation. Some instructions of the text format are rejected: theorems."
  },
  {
   "property": "C44",
   "status": "proved",
   "theorems": [
    "wat_parse_means",
    "wat_spelling_unambiguous",
    "layout_is_irrelevant",
    "module_parses_back",
    "named_module_rejected",
    "export_field_rejected",
    "indexed_type_use_rejected",
    "two_locals_rejected",
    "trailing_text_rejected_refuted",
    "imports_kept_refuted",
    "unknown_reference_types_rejected_refuted"
   ],
   "note": "Accepted texts and their trees exactly; the printed subset parses back; deviations: refutations."
  },
  {
   "property": "C45",
   "status": "proved",
   "theorems": [
    "wat_parse_ends",
    "wast_parse_ends",
    "wit_parse_ends"
   ],
   "note": "The fuel of the models is a function of the length of the text; the theorems say that it never runs out."
  },
  {
   "property": "C46",
   "status": "proved",
   "theorems": [
    "int32_means",
    "int64_means",
    "int_parsing_ends",
    "i32_literal_value",
    "i32_negative_value",
    "i64_range_refuted",
    "leading_zeros_refuted",
    "plus_sign_refuted",
    "negative_index_rejected_refuted"
   ],
   "note": "The 64-bit range, leading zeros, plus signs and negative indices: refutations."
  },
  {
   "property": "C47",
   "status": "proved",
   "theorems": [
    "instance_gets_its_functions",
    "instantiation_keeps_functions",
    "instances_keep_their_functions",
    "get_export_first",
    "get_export_absent",
    "exports_reachable_refuted"
   ],
   "note": "For stores of at most 2^32 functions."
  },
  {
   "property": "C48",
   "status": "proved",
   "theorems": [
    "wast_parse_means",
    "script_parses_back",
    "wast_spelling_unambiguous",
    "wast_scripts_join",
    "register_rejected",
    "lone_invoke_rejected",
    "assert_exhaustion_rejected",
    "assert_unlinkable_rejected",
    "get_rejected",
    "null_argument_rejected",
    "null_result_rejected",
    "parentheses_balance_refuted",
    "nan_patterns_kept_refuted",
    "unknown_actions_rejected_refuted",
    "numbers_required_refuted",
    "unclosed_comment_rejected_refuted"
   ],
   "note": "Over texts, not only token streams. References, NaN patterns, unknown actions, missing numbers and unclosed comments: refutations and rejections."
  },
  {
   "property": "C49",
   "status": "proved",
   "theorems": [
    "load_only_proper_values",
    "lift_only_proper_values"
   ],
   "note": ""
  },
  {
   "property": "C50",
   "status": "proved",
   "theorems": [
    "load_leaves_memory",
    "lift_leaves_memory"
   ],
   "note": ""
  },
  {
   "property": "C51",
   "status": "proved",
   "theorems": [
    "load_list_out_of_bounds_traps",
    "load_string_out_of_bounds_traps",
    "load_list_wrapped_size_traps_refuted"
   ],
   "note": ""
  },
  {
   "property": "C52",
   "status": "proved",
   "theorems": [
    "flatten_type_as_specified"
   ],
   "note": ""
  },
  {
   "property": "C53",
   "status": "proved",
   "theorems": [
    "token_texts",
    "tokens_read_back",
    "error_means_no_token",
    "wasm_integers",
    "wasm_hex_floats_partial",
    "decimal_floats_refuted",
    "unsigned_exponents_refuted",
    "float_tokens_are_floats_refuted",
    "nested_comments_refuted",
    "string_escapes_refuted",
    "unfinished_rejected_refuted"
   ],
   "note": "The lexer's own token grammar exactly; deviations from the WebAssembly text format: refutations."
  },
  {
   "property": "C54",
   "status": "proved",
   "theorems": [
    "wit_token_texts",
    "wit_tokens_read_back",
    "wit_error_means_no_token",
    "block_comments_nest",
    "open_comments_rejected",
    "labels_are_identifiers",
    "identifiers_are_labels_refuted",
    "explicit_ids_have_names_refuted"
   ],
   "note": "The converse for identifiers fails: refutations."
  },
  {
   "property": "C55",
   "status": "proved",
   "theorems": [
    "store_accepts_only",
    "lower_accepts_only",
    "store_refuses_unchanged",
    "lower_refuses_unchanged",
    "store_exact_width_refuted",
    "store_numbers_only_refuted",
    "store_all_fields_refuted",
    "refusal_is_an_error_refuted"
   ],
   "note": "What is accepted is the predicate shaped in S_Accept. The last four theorems are the refuted parts of the statement."
  },
  {
   "property": "C56",
   "status": "proved",
   "theorems": [
    "float32_means",
    "float64_means",
    "float_parsing_ends",
    "nan_payload_kept",
    "nan_is_nan_refuted",
    "float64_number",
    "f64_const_number",
    "f32_const_nearest",
    "f64_const_exact",
    "f32_integers_nearest_refuted"
   ],
   "note": "strconv.ParseFloat is any function; the plain nan literal and large integers after f32.const: refutations."
  },
  {
   "property": "C57",
   "status": "proved",
   "theorems": [
    "load_reads_format",
    "load_held_value",
    "store_writes_format",
    "canonical_is_held",
    "held_value_unique",
    "untagged_length_kept_refuted",
    "ill_formed_text_rejected_refuted",
    "wrapped_text_traps_refuted"
   ],
   "note": "The format is the relation holds in S_Format, over sp_layout of S_Layout. The last three theorems are the refuted parts of the statement."
  },
  {
   "property": "C58",
   "status": "proved",
   "theorems": [
    "lift_reads_flat",
    "lift_stood_value",
    "lower_writes_flat",
    "canonical_stands",
    "stood_value_unique"
   ],
   "note": "The format is the relation stands in S_FlatFormat, over flattens of S_Flat and holds of S_Format."
  },
  {
   "property": "C59",
   "status": "proved",
   "theorems": [
    "lifted_call",
    "lowered_call",
    "spilled_values_read",
    "short_results_refused_refuted"
   ],
   "note": "The core values of a call are split by in_turn of S_Calls over the formats of C57 and C58. short_results_refused_refuted is the refuted part: too few core results crash the host."
  },
  {
   "property": "C60",
   "status": "proved",
   "theorems": [
    "copied_text",
    "utf16_stored",
    "copy_is_whole_refuted",
    "copy_size_limit_refuted",
    "utf16_stays_in_block_refuted",
    "shrunk_block_checked_refuted"
   ],
   "note": "The last four theorems are the refuted parts of the statement. The allocator's shrinking is specified in S_StoreCopy."
  },
  {
   "property": "C61",
   "status": "proved",
   "theorems": [
    "decode_accepts",
    "decoded_module_empty",
    "decoded_functions_kept_refuted",
    "decoded_component_refuted"
   ],
   "note": "The last two theorems are the refuted parts of the statement."
  },
  {
   "property": "C62",
   "status": "proved",
   "theorems": [
    "string_means",
    "string_parsing_terminates",
    "string_parsing_ends_refuted"
   ],
   "note": "string_parsing_ends_refuted is the refuted part of the statement."
  },
  {
   "property": "C63",
   "status": "proved",
   "theorems": [
    "discriminant_narrowest",
    "flag_words_least",
    "layout_uses_exact_integers",
    "discriminant_without_exactness_refuted"
   ],
   "note": "math.Log2 is a parameter; its assumed accuracy is accurate_log2 of S_LayoutFloat, shown satisfiable by log2_rounded_accurate. discriminant_without_exactness_refuted is the refuted part of the statement."
  },
  {
   "property": "C64",
   "status": "proved",
   "theorems": [
    "component_call"
   ],
   "note": "Function types without handles; the two components' memories are separate."
  },
  {
   "property": "C65",
   "status": "proved",
   "theorems": [
    "resource_functions_orderly",
    "orderly_then",
    "drop_with_orderly",
    "lifted_call_orderly",
    "lowered_call_orderly",
    "component_call_orderly",
    "own_argument_taken",
    "borrow_argument_lent",
    "handle_not_passed_twice",
    "lifting_leaves_others",
    "lowering_leaves_handles",
    "own_value_given",
    "borrow_value_given",
    "component_call_moves_handle",
    "component_call_returns_handle",
    "kept_borrow_traps_refuted",
    "trapping_call_keeps_handles_refuted"
   ],
   "note": "Handles as parameters or results of their own, passed flat. A kept borrow does not make the call trap (ExitCall's error is dropped), and a trapping call may have taken handles already."
  },
  {
   "property": "C66",
   "status": "proved",
   "theorems": [
    "pieces_do_not_matter",
    "module_read_back_in_pieces",
    "leb_in_pieces",
    "never_misread",
    "end_with_last_bytes_refuted",
    "cut_off_input_refused_refuted",
    "empty_reads_refuted",
    "stream_read_total",
    "failing_reader_reported",
    "own_error_reported_refuted",
    "wat_pieces_do_not_matter"
   ],
   "note": "The _refuted theorems are the refuted parts of the statement. io.ReadFull and io.ReadAll are modelled from the standard library's source."
  },
  {
   "property": "C67",
   "status": "proved",
   "theorems": [
    "carried_unique",
    "lifting_takes_handles",
    "lowering_gives_handles",
    "component_call_moves_parameters",
    "component_call_moves_values",
    "spilled_values_give_nothing",
    "spilled_file_arrives_refuted"
   ],
   "note": "spilled_file_arrives_refuted is the refuted part of the statement. Whole calls with parameters and results passed flat."
  },
  {
   "property": "C68",
   "status": "proved",
   "theorems": [
    "lifting_reads_indices",
    "loading_reads_indices",
    "spilled_lifting_reads_indices",
    "lowering_writes_indices"
   ],
   "note": "Relates every type to the one with u32 in place of its handle types, for which the format properties hold."
  },
  {
   "property": "C69",
   "status": "proved",
   "theorems": [
    "load_stays_inside",
    "load_inside_returns",
    "load_outside_traps_refuted",
    "load_beyond_buffer_panics",
    "load_misaligned_refused_refuted",
    "load_misaligned_record_inside_refuted"
   ],
   "note": "The _refuted theorems and load_beyond_buffer_panics are the refuted parts of the statement."
  },
  {
   "property": "C70",
   "status": "proved",
   "theorems": [
    "reader_accepts_exactly",
    "reader_refuses_the_rest",
    "file_stands_for_one_document",
    "standard_file_is_accepted"
   ],
   "note": "The grammar is S_BinaryLoose.v. The hypothesis `enough` is memory for a vector of 2^32-1 elements."
  },
  {
   "property": "C71",
   "status": "proved",
   "theorems": [
    "wat_errors_are_located",
    "wit_errors_are_located",
    "unreadable_piece_unique"
   ],
   "note": "The numbers and the quoted text of the message are modelled (M_LexErrors.v), its wording is not."
  },
  {
   "property": "C72",
   "status": "proved",
   "theorems": [
    "store_requests",
    "lower_requests",
    "requests_determined",
    "call_requests",
    "wide_call_requests",
    "store_stays_inside",
    "lower_stays_inside",
    "call_stays_inside",
    "bad_list_block_traps",
    "bad_text_block_refused_refuted",
    "misaligned_text_block_refused_refuted",
    "wrapping_list_block_refused_refuted"
   ],
   "note": "The _refuted theorems are the refuted parts of the statement. The specification is S_Requests.v."
  },
  {
   "property": "C73",
   "status": "proved",
   "theorems": [
    "load_depends_on_parts",
    "lift_depends_on_parts",
    "padding_ignored",
    "inline_value_in_place",
    "integer_bytes_matter",
    "every_byte_matters_refuted"
   ],
   "note": "every_byte_matters_refuted is the refuted part of the statement. Which bytes a value is made of is specified in S_Looks.v."
  },
  {
   "property": "C74",
   "status": "proved",
   "theorems": [
    "loaded_lies_inside",
    "lifted_lies_inside",
    "loaded_is_read",
    "lifted_is_read",
    "loaded_list_fits",
    "loaded_text_fits",
    "loaded_list_short_refuted"
   ],
   "note": "loaded_list_short_refuted is the refuted part of the statement. roomy (S_Reached.v) asks that the memory's capacity and the size of one more list element stay within 2^32. In C57 what happens to texts that claim 2^31 or more code units is refuted, so loaded_is_read leaves these out."
  },
  {
   "property": "C75",
   "status": "proved",
   "theorems": [
    "wit_locating_parses",
    "wit_error_token_is_there",
    "wit_error_token_is_first",
    "wit_tokens_before_unique",
    "wit_error_without_token",
    "wit_error_before_is_viable_refuted",
    "wit_world_item_place_refuted"
   ],
   "note": "The last two theorems are the refuted parts of the statement. The token of a message is the one read last (M_WitLocate.v); the messages at lines 370 and 900 of wit/parse/parser.go print no place."
  },
  {
   "property": "C76",
   "status": "proved",
   "theorems": [
    "wat_locating_parses",
    "wat_error_token_is_there",
    "wat_error_token_is_first",
    "wat_tokens_before_unique",
    "wat_error_without_token",
    "wat_acceptable_begins"
   ],
   "note": "The token of a message is the one read last (M_WatLocate.v); the message for an unknown module section and the errors of strconv print no place."
  },
  {
   "property": "C77",
   "status": "proved",
   "theorems": [
    "wast_locating_parses",
    "wast_error_token_is_there",
    "wast_error_token_is_first",
    "wast_error_without_token",
    "wast_tokens_decide"
   ],
   "note": "wat_tokens_before_unique (C76) says that the tokens before a place are unique. The token of a message is the one read last (M_WastLocate.v); the message that get is not implemented and the errors of strconv print no place."
  },
  {
   "property": "C78",
   "status": "proved",
   "theorems": [
    "lexing_ignores_map_order",
    "lex_errors_ignore_map_order",
    "parse_ignores_map_order",
    "literals_ignore_map_order",
    "wast_ignores_map_order",
    "decode_ignores_map_order"
   ],
   "note": "The order is the Boolean argument of new_lexer. The other map that the code ranges over, in LiftValues, does show its order: spilled_results_ordered_refuted (C31)."
  },
  {
   "property": "C79",
   "status": "proved",
   "theorems": [
    "shortest_is_one",
    "encode_through_writer",
    "writer_error_stays",
    "flushed_numbers_arrive",
    "good_writer_never_fails",
    "failed_encode_writes_nothing_refuted",
    "decode_through_reader",
    "decode_reports_reader_error",
    "number_or_cut_off",
    "buffered_round_trip",
    "impatient_reader_refuted"
   ],
   "note": "bufio.Writer and bufio.Reader are modelled from the standard library's source (M_Bufio.v). The theorems ending in _refuted are the refuted parts of the statement."
  },
  {
   "property": "C80",
   "status": "proved",
   "theorems": [
    "refused_text_begins_next_token",
    "lexer_recovers",
    "token_after_error_is_a_token_refuted",
    "wit_refused_text_begins_next_token",
    "passed_text_unique",
    "wit_lexer_recovers",
    "wit_token_after_error_is_a_token_refuted"
   ],
   "note": "The two theorems ending in _refuted are the refuted part of the statement. good_tables says of Go's Unicode tables what the WIT lexer needs of them."
  },
  {
   "property": "C81",
   "status": "proved",
   "theorems": [
    "store_blame",
    "lower_blame",
    "arguments_blame",
    "store_succeeds",
    "lower_succeeds",
    "no_blocks_no_failure"
   ],
   "note": "The requests of a value are those of C72. Values with handles are outside the claim."
  },
  {
   "property": "C82",
   "status": "proved",
   "theorems": [
    "lift_looks_no_further",
    "wrong_core_values_refused",
    "core_values_refused_with_error",
    "lowered_call_wrong_arguments",
    "lifted_call_right_results",
    "too_few_refused_refuted"
   ],
   "note": "Covers core values of any types and any number. The part about too few core values being refused with an error is false of the code and refuted."
  },
  {
   "property": "C83",
   "status": "proved",
   "theorems": [
    "every_history_counted",
    "new_handle_index",
    "requests_accounted",
    "refusals_bounded",
    "handles_numbered",
    "freed_index_back_iff",
    "one_at_a_time_zero"
   ],
   "note": "freed_index_back_iff says exactly when a freed index is the next one given out; that it always is is false of the code."
  },
  {
   "property": "C84",
   "status": "proved",
   "theorems": [
    "variables_hold",
    "sent_values_arrive",
    "lower_frame",
    "failed_store_keeps_value_refuted"
   ],
   "note": "The part about a failing Store leaving the old value is false of the code and refuted. Handles are outside the claim (Store has no case for them)."
  },
  {
   "property": "C85",
   "status": "proved",
   "theorems": [
    "lifted_call_any_width",
    "lowered_call_any_width",
    "lowered_call_wide_results",
    "wide_results_lost",
    "wide_arguments_lost",
    "wide_results_arrive_refuted"
   ],
   "note": "The part about results beyond the limit reaching the caller is false of the code and refuted. Addresses whose sum with the tuple's size reaches 2^32 are outside the claim (C14, C51 and C74 are about those)."
  },
  {
   "property": "C86",
   "status": "proved",
   "theorems": [
    "loaded_at_supertype",
    "lifted_at_supertype",
    "lift_then_lower",
    "lift_then_lower_memory",
    "load_then_store",
    "lowers_nearest_case",
    "unknown_case_refused",
    "subtype_refl",
    "more_fields_subtype",
    "more_flags_subtype",
    "fewer_cases_subtype",
    "payload_kept_refuted"
   ],
   "note": "The part about payloads never being lost is false of the code and refuted. Handles are outside the claim: no handle type has a supertype."
  },
  {
   "property": "C87",
   "status": "proved",
   "theorems": [
    "wit_accepted_reprints",
    "wit_same_file_same_print",
    "wit_reformat_stable"
   ],
   "note": "The printer is part of the specification (S_WitPrint.v): the repository has none."
  },
  {
   "property": "C88",
   "status": "proved",
   "theorems": [
    "wat_accepted_reprints",
    "wat_same_file_same_print",
    "wat_trees",
    "wast_accepted_reprints",
    "wast_same_script_same_print",
    "wast_scripts"
   ],
   "note": "The printers are part of the specification (S_WatPrint.v, S_WastPrint.v): the repository has none. strconv.ParseFloat is any function."
  },
  {
   "property": "C89",
   "status": "proved",
   "theorems": [
    "store_keeps_rest",
    "own_bytes_in_place",
    "own_bytes_settled",
    "whole_place_settled_refuted"
   ],
   "note": "own_bytes (S_Own.v) says which bytes a value occupies; the second half is for types without texts and lists, whose pointers the allocator chooses."
  },
  {
   "property": "C90",
   "status": "proved",
   "theorems": [
    "names_no_layout",
    "names_not_stored",
    "names_not_lowered",
    "names_put_back",
    "names_lifted_back",
    "merging_names_refuted"
   ],
   "note": "renaming, rename_type and rename_value are in S_Rename.v. No hypothesis on the type, the value or the state."
  },
  {
   "property": "C91",
   "status": "proved",
   "theorems": [
    "bytes_load_alike",
    "copy_loads_alike",
    "nothing_behind_inline",
    "behind_is_part",
    "misaligned_copy_refuted"
   ],
   "note": "behind (S_Move.v) says which bytes belong to texts and lists a value points to. addressable is the hypothesis of C57 that no text or list wraps around the address space."
  },
  {
   "property": "C92",
   "status": "proved",
   "theorems": [
    "bytes_same_everywhere",
    "own_bytes_same_everywhere",
    "text_same_everywhere_refuted"
   ],
   "note": "own_bytes is in S_Own.v. The two calls may have different allocators, encodings and memories; the value need not be of the type."
  },
  {
   "property": "C93",
   "status": "proved",
   "theorems": [
    "names_no_signature",
    "names_lift_calls",
    "names_lower_calls"
   ],
   "note": "renamed_func, renamed_order and renamed_host are in S_RenameCall.v. No hypothesis on the types, the values, the core function or the state."
  },
  {
   "property": "C94",
   "status": "proved",
   "theorems": [
    "read_where_written",
    "inline_read_where_written",
    "other_bytes_keep_value",
    "same_bytes_same_value",
    "same_bytes_same_text_refuted"
   ],
   "note": "part_of (S_Looks.v) says which bytes Load looks at, own_bytes (S_Own.v) which ones Store writes, behind (S_Move.v) what texts and lists point to. That Load depends on no others is C73's load_depends_on_parts."
  },
  {
   "property": "C95",
   "status": "proved",
   "theorems": [
    "same_value_stored_alike",
    "same_value_lowered_alike",
    "same_arguments_same_call",
    "same_results_same_call",
    "loaded_replaces_original"
   ],
   "note": "same_value is in S_Values.v, each_same and alike_hosts in S_Alike.v. No hypothesis on the allocator or the state except in the last."
  },
  {
   "property": "C96",
   "status": "proved",
   "theorems": [
    "plain_lowering",
    "plain_lifting",
    "same_core_values_same_value",
    "core_values_tell_apart"
   ],
   "note": "memory_free (S_Flat.v) is the English 'plain'."
  },
  {
   "property": "C97",
   "status": "proved",
   "theorems": [
    "appended_keeps_value",
    "appended_keeps_lifted",
    "appended_keeps_values",
    "grown_keeps_value",
    "grown_keeps_lifted",
    "grown_keeps_error_refuted",
    "full_memory_keeps_texts_refuted",
    "full_memory_keeps_lists_refuted"
   ],
   "note": "grown and appended are in S_Grow.v. The _refuted theorems are the refuted parts of the statement."
  },
  {
   "property": "C98",
   "status": "proved",
   "theorems": [
    "list_cut_in_two",
    "list_of_one",
    "list_of_none",
    "list_in_memory",
    "list_first_and_rest"
   ],
   "note": "The statements use only Load, LiftFlat, the layout specification (S_Layout.v) and the little-endian number at an address (S_Memory.v)."
  },
  {
   "property": "C99",
   "status": "proved",
   "theorems": [
    "utf8_text_cut",
    "utf16_text_cut",
    "text_cut_anywhere_refuted",
    "latin1_text_cut_refuted"
   ],
   "note": "utf8_text is in S_Utf.v, utf16_text in S_Cut.v, bytes_at in S_Format.v. The _refuted theorems are the refuted parts of the statement."
  }
 ]
}
