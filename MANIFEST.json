{
 "claims": [
  {
   "property": "C01",
   "status": "proved",
   "theorems": [
    "C01_header_with_payload",
    "C01_header_extended",
    "C01_storage_type"
   ],
   "note": "All commands and payloads."
  },
  {
   "property": "C02",
   "status": "partial",
   "theorems": [
    "C02_stream_round_trip_partial",
    "C02_stream_round_trip_refuted",
    "C02_pop_argument_addr_refuted",
    "C02_push_field_content_refuted"
   ],
   "note": "Round trip proved for all instructions except _content pushes and _addr pops/picks whose operand the writer drops (refuted)."
  },
  {
   "property": "C03",
   "status": "proved",
   "theorems": [
    "C03_jump_distance",
    "C03_jump_overflow_rejected"
   ],
   "note": "All distances."
  },
  {
   "property": "C04",
   "status": "proved",
   "theorems": [
    "C04_packing_round_trip",
    "C04_unpacking_round_trip",
    "C04_iteration",
    "C04_equality",
    "C04_overflow_truncated_refuted"
   ],
   "note": "Packing, iteration (index range inside the 20-bit space) and equality; silent truncation of out-of-range arguments shown as a finding."
  },
  {
   "property": "C05",
   "status": "partial",
   "theorems": [
    "C05_unknown_command_refuted",
    "C05_past_end_refuted",
    "C05_known_command_advances_partial",
    "C05_reader_outcome_partial"
   ],
   "note": "Refuted for arbitrary buffers (unknown commands loop, truncated last instruction overruns); proved progress for known commands and the complete list of outcomes."
  },
  {
   "property": "C06",
   "status": "proved",
   "theorems": [
    "C06_result_type",
    "C06_result_type_symmetric",
    "C06_result_type_represents_operands"
   ],
   "note": "Holds for all type pairs."
  },
  {
   "property": "C07",
   "status": "partial",
   "theorems": [
    "C07_exact_modular_partial",
    "C07_u32_signed_mix_is_mod_2_32",
    "C07_exact_refuted",
    "C07_division_partial",
    "C07_division_u64_refuted",
    "C07_division_by_zero_is_ub",
    "C07_right_shift_partial",
    "C07_left_shift_partial",
    "C07_wide_shift_refuted"
   ],
   "note": "Exact for every pair except uint32 with a signed type (refuted, characterised as arithmetic mod 2^32) and uint64 with negative operands for / and %; signed overflow and division by zero are C++ undefined behaviour."
  },
  {
   "property": "C08",
   "status": "partial",
   "theorems": [
    "C08_comparison_partial",
    "C08_comparison_nonneg_partial",
    "C08_comparison_refuted"
   ],
   "note": "Refuted for unsigned-with-signed mixes of the same or larger width on negative operands; proved for all other pairs and all non-negative operands."
  },
  {
   "property": "C09",
   "status": "partial",
   "theorems": [
    "C09_unary_partial",
    "C09_bit_not_unsigned",
    "C09_minus_uint32_refuted",
    "C09_minus_uint64_refuted"
   ],
   "note": "Refuted for unary minus on uint32 and uint64; proved otherwise."
  },
  {
   "property": "C10",
   "status": "partial",
   "theorems": [
    "C10_fold_binary_agrees",
    "C10_fold_unary_agrees",
    "C10_fold_binary_complete",
    "C10_fold_compound_assignment",
    "C10_fold_increment_partial",
    "C10_fold_exchanged_refuted",
    "C10_fold_decrement_refuted",
    "C10_fold_bool_not_equal_refuted",
    "C10_fold_division_by_zero_is_compiler_ub"
   ],
   "note": "Agreement proved for every folded operator that has a run-time command; refuted for --x, x++ (exchanged) and bool != (compile error)."
  },
  {
   "property": "C11",
   "status": "proved",
   "theorems": [
    "C11_integer"
   ],
   "note": "Plain digits, all forms, prefixes and suffixes, any surrounding text."
  },
  {
   "property": "C12",
   "status": "partial",
   "theorems": [
    "C12_separators_partial",
    "C12_separators_refuted"
   ],
   "note": "Quotes after decimal digits only; refuted for quotes after hexadecimal letters."
  },
  {
   "property": "C13",
   "status": "partial",
   "theorems": [
    "C13_negative_partial",
    "C13_negative_refuted"
   ],
   "note": "Excludes texts that pass through 2^31 or 2^63, where the reader overflows a signed integer (refuted)."
  },
  {
   "property": "C14",
   "status": "proved",
   "theorems": [
    "C14_scan",
    "C14_local"
   ],
   "note": "Scan position and locality for every text."
  },
  {
   "property": "C15",
   "status": "partial",
   "theorems": [
    "C15_string_partial",
    "C15_refuted",
    "C15_zero_refuted"
   ],
   "note": "String literals round trip for all strings without zero and form feed characters; the two escapes are refuted."
  },
  {
   "property": "C16",
   "status": "partial",
   "theorems": [
    "C16_verbatim_partial",
    "C16_refuted"
   ],
   "note": "Verbatim strings without quotes round trip; doubled quotes refuted."
  },
  {
   "property": "C17",
   "status": "partial",
   "theorems": [
    "C17_terminates_partial",
    "C17_plain_partial",
    "C17_bounds",
    "C17_refuted"
   ],
   "note": "Exact characterisation: tokenising ends iff no unclosed character literal is met; refuted in general; no read outside the buffer."
  },
  {
   "property": "C18",
   "status": "partial",
   "theorems": [
    "C18_sign_partial",
    "C18_refuted"
   ],
   "note": "Signs after names and literals are operators; refuted after closing brackets."
  },
  {
   "property": "C19",
   "status": "proved",
   "theorems": [
    "C19_precedence_and_associativity",
    "C19_grammar",
    "C19_unambiguous",
    "C19_brackets_force_any_tree"
   ],
   "note": "every tree of binary operators round-trips through its minimally bracketed source; plus a full grammar"
  },
  {
   "property": "C20",
   "status": "partial",
   "theorems": [
    "C20_prefix_partial",
    "C20_postfix_partial",
    "C20_prefix_binds_tighter_partial",
    "C20_prefix_then_postfix_refuted",
    "C20_member_of_postfix_refuted"
   ],
   "note": "prefix runs, postfix runs, and prefix against infix are proved; prefix+postfix on one operand is refuted (-a++ is (-a)++)"
  },
  {
   "property": "C21",
   "status": "partial",
   "theorems": [
    "C21_conditional_partial",
    "C21_nested_middle_refuted",
    "C21_missing_colon_refuted",
    "C21_assignment_in_middle_refuted"
   ],
   "note": "all operand expressions except middle operands holding a conditional with a non-tight middle, which are refuted"
  },
  {
   "property": "C22",
   "status": "partial",
   "theorems": [
    "C22_operator_after_operator_partial",
    "C22_leading_operator",
    "C22_operator_after_open_bracket",
    "C22_empty_brackets",
    "C22_second_operand_partial",
    "C22_operand_after_postfix",
    "C22_brackets_balance",
    "C22_operands_in_order",
    "C22_always_finishes",
    "C22_adjacent_operands_refuted"
   ],
   "note": "operator misuse, brackets and operand order proved; adjacent operands at the start of an expression are accepted (refuted)"
  },
  {
   "property": "C23",
   "status": "partial",
   "theorems": [
    "C23_statements_keep_meaning_partial",
    "C23_well_formed_compiles"
   ],
   "note": "proved for all statement trees without do-while/loop-until continue, expressions opaque, no try/catch; well-formed trees always compile"
  },
  {
   "property": "C24",
   "status": "partial",
   "theorems": [
    "C24_continue_evaluates_condition_refuted",
    "C24_continue_restarts_body"
   ],
   "note": "the property is refuted with a witness; the exact actual behaviour (restart without evaluating the condition) is proved"
  },
  {
   "property": "C25",
   "status": "partial",
   "theorems": [
    "C25_unreachable_removal_safe_partial",
    "C25_plain_statements_partial",
    "C25_unreached_never_completes_partial",
    "C25_unreachable_removal_refuted"
   ],
   "note": "proved under the decidable condition safe; refuted with six witnesses otherwise"
  },
  {
   "property": "C26",
   "status": "partial",
   "theorems": [
    "C26_switch_as_if_partial",
    "C26_simple_shapes_partial",
    "C26_switch_as_if_refuted"
   ],
   "note": "proved for the shapes of if_shape; refuted with witnesses otherwise"
  },
  {
   "property": "C27",
   "status": "proved",
   "theorems": [
    "C27_switch_dispatch"
   ],
   "note": "dispatch by binary search equals lookup for every table with different constants"
  },
  {
   "property": "C28",
   "status": "partial",
   "theorems": [
    "C28_break_runs_finally_partial",
    "C28_continue_runs_finally_partial",
    "C28_return_runs_finally_partial",
    "C28_throw_from_finally_refuted",
    "C28_break_without_finally_refuted"
   ],
   "note": "Proved for every program whose finally parts end normally and which meets tame (try bodies and clauses within the code's exit-type limits), with a null word after the block table; refuted: break in a try/catch without finally when that word is not null, a finally part that throws."
  },
  {
   "property": "C29",
   "status": "partial",
   "theorems": [
    "C29_program_runs_as_meant_partial",
    "C29_meaning_is_restriction",
    "C29_throw_reaches_handler_partial",
    "C29_throw_uncaught_partial",
    "C29_wrong_exception_refuted",
    "C29_catch_falls_through_refuted",
    "C29_throw_outside_try_refuted"
   ],
   "note": "Same scope as C28, through any call depth; refuted: a finally part that throws and catches hands the outer clause the wrong exception; a clause that falls through where the try body cannot; a throw outside try when the word after the table is not null."
  },
  {
   "property": "C30",
   "status": "partial",
   "theorems": [
    "C30_return_value_refuted",
    "C30_return_without_value_corrupts_refuted",
    "C30_return_value_partial"
   ],
   "note": "Refuted: a return with a value inside try/finally never evaluates the value and overwrites a unit of the caller. Proved: returns without value, and value returns outside try."
  },
  {
   "property": "C31",
   "status": "proved",
   "theorems": [
    "C31_call_and_return",
    "C31_return_defined",
    "C31_call_and_unwind",
    "C31_expression_value",
    "C31_expression_method",
    "C31_assignments"
   ],
   "note": "All executions of the callee, nested calls and exceptions included, for void, one-unit and struct results."
  },
  {
   "property": "C32",
   "status": "partial",
   "theorems": [
    "C32_row_major",
    "C32_no_alias",
    "C32_creation",
    "C32_rank_10_refuted"
   ],
   "note": "Proved for every rank up to 8 and every higher rank not congruent to 2 modulo 8; refuted for rank 10 (general index loop reads past the stored lengths)."
  },
  {
   "property": "C33",
   "status": "partial",
   "theorems": [
    "C33_rank1_partial",
    "C33_header",
    "C33_multi_refuted",
    "C33_struct_refuted",
    "C33_class_refuted"
   ],
   "note": "Proved for one-dimensional arrays of numbers, structs of at most 8 bytes and most classes; refuted for rank >= 2 (only the first dimension is reserved), larger structs and small classes."
  },
  {
   "property": "C34",
   "status": "partial",
   "theorems": [
    "C34_lengths",
    "C34_zero_refuted",
    "C34_negative_refuted"
   ],
   "note": "Proved for all representable arrays (positive lengths, product below 2^31). Refuted: a zero inner length makes the query divide by zero; negative lengths are accepted."
  },
  {
   "property": "C35",
   "status": "partial",
   "theorems": [
    "C35_frame_partial",
    "C35_one_kind_defined",
    "C35_terminates",
    "C35_frame_refuted",
    "C35_alignment_refuted"
   ],
   "note": "Proved for frames without mixed-kind locals, up to 64K, when the layout is computed without undefined behaviour (always so for one kind); the full statement is refuted by witnesses."
  },
  {
   "property": "C36",
   "status": "partial",
   "theorems": [
    "C36_pushed_where_read",
    "C36_partition",
    "C36_extends_only_after_one_unit",
    "C36_extends_refuted"
   ],
   "note": "Slots proved disjoint, ordered and exact for every parameter list below 64K units; the address of variable parameters is proved right only after exactly one unit and refuted in general."
  },
  {
   "property": "C37",
   "status": "partial",
   "theorems": [
    "C37_append_insert",
    "C37_delete_partial",
    "C37_delete_across_refuted",
    "C37_delete_boundary_refuted"
   ],
   "note": "Appending, inserting and clearing proved for every history; deletions only within the last row. Deletions across rows lose elements or are undefined (refuted)."
  },
  {
   "property": "C38",
   "status": "partial",
   "theorems": [
    "C38_arrays",
    "C38_allocator",
    "C38_zero_refuted"
   ],
   "note": "Small-object allocator and array heap proved for every history of requests of at least one byte; a request of zero bytes is undefined (refuted)."
  },
  {
   "property": "C39",
   "status": "partial",
   "theorems": [
    "C39_read",
    "C39_search_partial",
    "C39_fresh_search_refuted",
    "C39_overread_refuted"
   ],
   "note": "Reads proved for every history; searches proved once something has been written. Refuted: searching a fresh array dereferences null, growing reads beyond the old buffer."
  },
  {
   "property": "C40",
   "status": "partial",
   "theorems": [
    "C40_list_partial",
    "C40_own_refuted"
   ],
   "note": "List behaviour proved for every history of push, insert, truncate, pop, clear, write, copy and move; refuted for pushing an element of the vector itself when the array is full. Aliasing inserts and the iterator constructor are not modelled."
  },
  {
   "property": "C41",
   "status": "partial",
   "theorems": [
    "C41_round_trip_partial",
    "C41_null",
    "C41_wide_refuted"
   ],
   "note": "Round trip proved for trees whose nodes have at most 255 children; every other tree makes restore throw (proved)."
  },
  {
   "property": "C42",
   "status": "partial",
   "theorems": [
    "C42_small",
    "C42_small_find",
    "C42_fixed_room",
    "C42_fixed_partial",
    "C42_fixed_refuted"
   ],
   "note": "Small map proved for every history; fixed map proved for distinct keys, refuted for keys appended twice (the first value is found with a stable sort)."
  },
  {
   "property": "C43",
   "status": "proved",
   "theorems": [
    "C43_exclusive",
    "C43_bounded",
    "C43_no_leak"
   ],
   "note": "For every history and every creator that does not return an object in use."
  },
  {
   "property": "C44",
   "status": "proved",
   "theorems": [
    "C44_interning",
    "C44_total"
   ],
   "note": "For every interning history; addresses of set elements are stable by the C++ standard."
  },
  {
   "property": "C45",
   "status": "partial",
   "theorems": [
    "C45_find",
    "C45_find_char",
    "C45_find_nocase_partial",
    "C45_find_nocase_refuted"
   ],
   "note": "Exact search and character search proved; the search without regard to case is proved for ASCII and refuted beyond it (characters are truncated to 8 bits)."
  },
  {
   "property": "C46",
   "status": "partial",
   "theorems": [
    "C46_compare",
    "C46_order",
    "C46_compare_nocase_partial",
    "C46_compare_nocase_refuted",
    "C46_overrun_refuted",
    "C46_prefix",
    "C46_equals"
   ],
   "note": "Comparison proved; without regard to case proved for ASCII, refuted beyond it, including reads past the end."
  },
  {
   "property": "C47",
   "status": "proved",
   "theorems": [
    "C47_round_up",
    "C47_round_up_wraps",
    "C47_round_down",
    "C47_test",
    "C47_doubling",
    "C47_doubling_refuted"
   ],
   "note": "Rounding up, down and the test proved for every size and unit; beyond the last representable multiple rounding up gives 0 (proved). The doubling helper is proved up to 2^63 and never ends above (refuted)."
  },
  {
   "property": "C48",
   "status": "partial",
   "theorems": [
    "C48_add",
    "C48_remove",
    "C48_has",
    "C48_has_only",
    "C48_extensional",
    "C48_match",
    "C48_has_one",
    "C48_has_many_refuted",
    "C48_and_int_refuted",
    "C48_list",
    "C48_list_refuted"
   ],
   "note": "Member operations of flag enumerations proved for all integer types. Refuted: the free bit_has_flag with a repeated flag, bit_and of plain integers, and listing flags of a negative 32/64-bit value (signed overflow)."
  },
  {
   "property": "C49",
   "status": "partial",
   "theorems": [
    "C49_accepts",
    "C49_sixteen_bytes",
    "C49_first_36",
    "C49_exact_refuted",
    "C49_in_bounds_refuted",
    "C49_short_refuted",
    "C49_defined_partial"
   ],
   "note": "Acceptance characterised exactly: strings whose first 36 characters have the form, and the bytes are those denoted. Refuted: trailing characters are accepted, digits in place of dashes write a 17th byte, short strings are read past their end. Defined behaviour proved when the four dashes are in place."
  },
  {
   "property": "C50",
   "status": "partial",
   "theorems": [
    "C50_compare_partial",
    "C50_compare_refuted"
   ],
   "note": "Refuted for uint64 against a negative constant; proved for all other integer pairs. Float constants not modelled."
  },
  {
   "property": "C51",
   "status": "proved",
   "theorems": [
    "C51_logic_and_or",
    "C51_logic_not",
    "C51_bool_equality"
   ],
   "note": "All boolean operands."
  },
  {
   "property": "C53",
   "status": "partial",
   "theorems": [
    "C53_first_index_partial",
    "C53_negative_refuted",
    "C53_inner_refuted",
    "C53_pick_refuted",
    "C53_rank_9_refuted"
   ],
   "note": "Proved for the first index being too large. Refuted: negative indices, inner indices, assignment expressions and writes above rank 8 are not checked."
  },
  {
   "property": "C54",
   "status": "proved",
   "theorems": [
    "C54_clear",
    "C54_new_object"
   ],
   "note": "Clearing loop and object creation for every size."
  },
  {
   "property": "C52",
   "status": "proved",
   "theorems": [
    "C52_fields"
   ],
   "note": "For every field list and base below 64K and every sort."
  },
  {
   "property": "C55",
   "status": "proved",
   "theorems": [
    "C55_tuple",
    "C55_single_store_refuted"
   ],
   "note": "For every valid element list below 64K."
  },
  {
   "property": "C56",
   "status": "partial",
   "theorems": [
    "C56_copy_partial",
    "C56_copy_refuted",
    "C56_template_copy",
    "C56_template_backward_refuted",
    "C56_zero"
   ],
   "note": "All copies and clears proved except overlapping copies of 3, 5, 6, 7 bytes upwards and the backward template copy, which are refuted."
  },
  {
   "property": "C57",
   "status": "partial",
   "theorems": [
    "C57_walk",
    "C57_leaves_partial",
    "C57_single_refuted"
   ],
   "note": "The walk visits exactly the nodes below the root in order; the root itself is never visited, so a single node has no leaves (refuted)."
  },
  {
   "property": "C58",
   "status": "proved",
   "theorems": [
    "C58_cache"
   ],
   "note": "For every request history; the creator does not use the cache itself."
  },
  {
   "property": "C59",
   "status": "proved",
   "theorems": [
    "C59_key_order",
    "C59_key_strict"
   ],
   "note": "For keys of fewer than 2^31 values over any totally ordered type."
  },
  {
   "property": "C60",
   "status": "partial",
   "theorems": [
    "C60_digit_partial",
    "C60_digit_refuted"
   ],
   "note": "Proved for ASCII; refuted beyond it: characters are truncated to 8 bits."
  },
  {
   "property": "C61",
   "status": "partial",
   "theorems": [
    "C61_hex_suffix_partial",
    "C61_documented_refuted"
   ],
   "note": "H suffix without F digits and leading zero proved; exponents and H literals with F or a leading zero refuted."
  },
  {
   "property": "C62",
   "status": "partial",
   "theorems": [
    "C62_form_partial",
    "C62_malformed_refuted"
   ],
   "note": "Form of every accepted text proved; missing: at least one digit and a single prefix, refuted by 0x and 00x1F."
  },
  {
   "property": "C63",
   "status": "proved",
   "theorems": [
    "C63_spans"
   ],
   "note": "All texts."
  },
  {
   "property": "C64",
   "status": "proved",
   "theorems": [
    "C64_text_read"
   ],
   "note": "Words, symbols, integer, string and character literals, line comments. Lexemes are separated by whitespace."
  },
  {
   "property": "C65",
   "status": "proved",
   "theorems": [
    "C65_symbol",
    "C65_word"
   ],
   "note": "Longest symbol and whole words, for all positions of the reader."
  },
  {
   "property": "C66",
   "status": "proved",
   "theorems": [
    "C66_exclusion",
    "C66_calls"
   ],
   "note": "programs of guards: no thread enters an object it is already inside (undefined with std::mutex, shown by an example)"
  },
  {
   "property": "C67",
   "status": "proved",
   "theorems": [
    "C67_bounded"
   ],
   "note": ""
  },
  {
   "property": "C68",
   "status": "partial",
   "theorems": [
    "C68_capacity_partial",
    "C68_release_partial",
    "C68_refuted"
   ],
   "note": "proved for interleavings without spurious wakeups; refuted with one"
  },
  {
   "property": "C69",
   "status": "partial",
   "theorems": [
    "C69_uncontended_partial",
    "C69_lost_refuted",
    "C69_deadlock_refuted"
   ],
   "note": "proved while no other thread is inside a call; refuted by a lost wakeup and by a lock-order deadlock"
  },
  {
   "property": "C70",
   "status": "partial",
   "theorems": [
    "C70_expression_value_partial",
    "C70_static_type",
    "C70_widening_cast_refuted",
    "C70_widening_parameter_refuted"
   ],
   "note": "Value and effects of compiled expressions at every level, for all typed expressions satisfying explicit conditions; casts and assignments to a wider type of anything but a number, a local or a constant, and of parameters, are refuted."
  },
  {
   "property": "C71",
   "status": "partial",
   "theorems": [
    "C71_exact_arithmetic_partial"
   ],
   "note": "Exact value when every intermediate result fits; same conditions as C70."
  },
  {
   "property": "C72",
   "status": "partial",
   "theorems": [
    "C72_short_circuit_partial",
    "C72_effect_refuted",
    "C72_guard_refuted"
   ],
   "note": "Holds when right operands are comparisons and logic of names and numbers; refuted for right operands with effects and for guards of a division."
  },
  {
   "property": "C73",
   "status": "partial",
   "theorems": [
    "C73_levels_agree_partial",
    "C73_neutral_refuted",
    "C73_zero_minus_refuted"
   ],
   "note": "Levels agree under the C70 conditions; refuted for a neutral operand next to a narrower one and for 0 - u."
  },
  {
   "property": "C74",
   "status": "partial",
   "theorems": [
    "C74_statement_partial",
    "C74_comma_refuted",
    "C74_conditional_refuted",
    "C74_cast_refuted"
   ],
   "note": "Statements keep the stack and perform all effects when discardable; refuted for comma lists at level 0, conditionals and casts."
  },
  {
   "property": "C75",
   "status": "partial",
   "theorems": [
    "C75_initialiser_partial",
    "C75_return_partial",
    "C75_widening_refuted"
   ],
   "note": "Conversion of initialisers and return values that do not widen, or are numbers, locals or constants; refuted for widening of computed values."
  },
  {
   "property": "C76",
   "status": "partial",
   "theorems": [
    "C76_constant_folding_partial",
    "C76_bool_not_equal_refuted",
    "C76_shift_constant_refuted",
    "C76_division_refuted"
   ],
   "note": "Operators on literals fold to their run-time value; refuted: bool !=, constants initialised by a shift, constant division by zero in a branch."
  },
  {
   "property": "C77",
   "status": "partial",
   "theorems": [
    "C77_virtual_call_partial",
    "C77_one_method",
    "C77_table_size",
    "C77_null",
    "C77_override_first_refuted",
    "C77_wrong_method_refuted",
    "C77_new_virtual_refuted",
    "C77_explicit_refuted",
    "C77_method_index_refuted"
   ],
   "note": "Proved for classes whose virtual methods precede their overrides, without 'new virtual' methods or explicit implementations of a virtual method's prototype, and indices below 2^20; each exclusion is refuted."
  },
  {
   "property": "C78",
   "status": "partial",
   "theorems": [
    "C78_interface_call_partial",
    "C78_inherited_override_refuted",
    "C78_override_implements_refuted"
   ],
   "note": "Proved when no override in an intermediate class and no override of an override implements the method; both exclusions are refuted."
  },
  {
   "property": "C79",
   "status": "partial",
   "theorems": [
    "C79_cast_partial",
    "C79_null",
    "C79_lookups_defined",
    "C79_no_interface_refuted"
   ],
   "note": "Proved except for interface tests on objects whose classes list no interface, which is refuted."
  },
  {
   "property": "C80",
   "status": "partial",
   "theorems": [
    "C80_heap_roundtrip_partial",
    "C80_string_nul_refuted",
    "C80_long_block_refuted",
    "C80_last_entry_refuted"
   ],
   "note": "proved for strings without NUL, blocks below 2^28 bytes and raw entries that do not end the heap; the other cases are refuted"
  },
  {
   "property": "C81",
   "status": "partial",
   "theorems": [
    "C81_constants_roundtrip_partial",
    "C81_constants_exact_partial",
    "C81_committed_again",
    "C81_wide_numbers",
    "C81_long_one_refuted",
    "C81_types_refuted",
    "C81_not_a_number_refuted",
    "C81_type_then_true_refuted",
    "C81_null_refuted"
   ],
   "note": "proved up to equal-comparing values for exactly encoded numbers; exact iff for 64-bit numbers; sharing, null and type constants refuted"
  },
  {
   "property": "C82",
   "status": "partial",
   "theorems": [
    "C82_file_roundtrip_partial",
    "C82_heap_limit",
    "C82_truncated_file_rejected",
    "C82_foreign_file_rejected",
    "C82_brief_read",
    "C82_type_defs_refuted",
    "C82_heap_offset_refuted"
   ],
   "note": "round trip, truncation, foreign files, brief reads and heap limit proved; nested type definitions and recorded offsets refuted"
  },
  {
   "property": "C83",
   "status": "partial",
   "theorems": [
    "C83_widening",
    "C83_integers_keep_value",
    "C83_narrow_integers_keep_value",
    "C83_conversions_keep_value_refuted",
    "C83_every_safe_conversion_refuted",
    "C83_widening_composes",
    "C83_super_types",
    "C83_super_queries",
    "C83_late_super_type_refuted",
    "C83_implicit_conversions",
    "C83_reference_conversions_compose",
    "C83_null_only_for_references_refuted"
   ],
   "note": "which conversions are implicit is proved exactly (widening, super types as transitive closure with the cache, compatibility, composition); integers keep their value among integer types and, up to 16/32 bits, towards floating types; wider integers to floats, uint32 to int64, null to value types and late super types are refuted"
  },
  {
   "property": "C84",
   "status": "partial",
   "theorems": [
    "C84_exact_call",
    "C84_one_applicable",
    "C84_ambiguous",
    "C84_none_applicable",
    "C84_written_type_arguments_exact",
    "C84_written_type_arguments_one",
    "C84_written_type_arguments_none",
    "C84_inferred_types_fit_partial",
    "C84_exact_instance_inferred",
    "C84_inferred_types_fit_refuted",
    "C84_all_type_arguments_inferred_refuted",
    "C84_found_is_applicable_refuted",
    "C84_generic_ambiguity_reported_refuted",
    "C84_inference_ignores_order_refuted",
    "C84_explicit_implementation_hides_refuted",
    "C84_nearest_class",
    "C84_own_class_first",
    "C84_no_class_answers",
    "C84_unfit_generic_hides_base_refuted"
   ],
   "note": "ordinary methods and written type arguments are proved exactly; inferred type arguments are proved sound for parameter types without written parts and complete for exact instances; walk through base classes proved; seven refutations"
  },
  {
   "property": "C85",
   "status": "partial",
   "theorems": [
    "C85_duplicate_reported",
    "C85_accepted_class_exact_call",
    "C85_generic_duplicate_reported_partial",
    "C85_only_duplicates_reported_refuted",
    "C85_check_defined_refuted"
   ],
   "note": "the report is proved exact on parameter types for non-generic methods, and its consequence for calls; passing modes and generic methods are refuted"
  },
  {
   "property": "C86",
   "status": "proved",
   "theorems": [
    "C86_string_flag",
    "C86_verbatim_flag",
    "C86_char_flag"
   ],
   "note": "exact for strings and for closed character literals; verbatim strings: unclosed ones are marked"
  },
  {
   "property": "C87",
   "status": "partial",
   "theorems": [
    "C87_member_protected",
    "C87_decided",
    "C87_type_protected",
    "C87_allowed_use_partial",
    "C87_allowed_name_partial",
    "C87_own_members",
    "C87_open_types",
    "C87_private_type_names_itself_refuted",
    "C87_private_neighbours_refuted",
    "C87_protected_members_refuted",
    "C87_outside_types",
    "C87_outside_members_refuted",
    "C87_other_assembly",
    "C87_outside_allowed_partial",
    "C87_outside_types_refuted"
   ],
   "note": "sound for every use from inside a type; complete from types that are not nested with no generic super types, for open types from anywhere and inside the type itself. Refuted: naming oneself and neighbours of private nested types, inherited protected members in nested types and through generic bases, private members outside any type"
  },
  {
   "property": "C88",
   "status": "partial",
   "theorems": [
    "C88_scoping",
    "C88_duplicates_reported",
    "C88_use_before_declaration_refuted",
    "C88_duplicate_local_survived_refuted"
   ],
   "note": "Resolution and the reporting of duplicates are proved for every method; refuted: uses before the declaration are accepted, a duplicate local makes the compiler read through null."
  },
  {
   "property": "C89",
   "status": "partial",
   "theorems": [
    "C89_table",
    "C89_indices_apart",
    "C89_frame",
    "C89_unbounded_refuted"
   ],
   "note": "Proved for every method with fewer than 65535 locals and temporaries; refuted beyond."
  },
  {
   "property": "C90",
   "status": "partial",
   "theorems": [
    "C90_temporaries_apart_partial",
    "C90_bare_block_refuted",
    "C90_for_without_block_refuted"
   ],
   "note": "Proved for methods in which a block is the body of a statement and for/catch have one; refuted otherwise."
  },
  {
   "property": "C91",
   "status": "partial",
   "theorems": [
    "C91_reported_partial",
    "C91_no_error_refuted"
   ],
   "note": "Proved when a stack is left at the end; without one an unfinished program is accepted (refuted)."
  },
  {
   "property": "C92",
   "status": "proved",
   "theorems": [
    "C92_no_later_than_possible",
    "C92_error_at_element"
   ],
   "note": "Proved for tidy nets without dead ends; error at the element for grounded nets."
  },
  {
   "property": "C93",
   "status": "partial",
   "theorems": [
    "C93_accepted_partial",
    "C93_one_reading_partial",
    "C93_every_sentence_refuted"
   ],
   "note": "Proved with exact reports for LL(1) nets; refuted in general."
  },
  {
   "property": "C94",
   "status": "partial",
   "theorems": [
    "C94_ends_partial",
    "C94_unit_cycle_refuted",
    "C94_left_cycle_refuted"
   ],
   "note": "Proved for grounded nets with a bound linear in the program; refuted for unit cycles and expanded left recursion."
  },
  {
   "property": "C95",
   "status": "partial",
   "theorems": [
    "C95_sentences_partial",
    "C95_programs_partial",
    "C95_repeated_beginning_refuted",
    "C95_recursion_refuted",
    "C95_empty_alternative_refuted"
   ],
   "note": "proved for grammars whose rules have different names, whose alternatives are not empty, whose recursive rules do not begin with something that can be empty, and where a symbol a rule can begin with again occurs only at its beginning; without each of the last three the claim is refuted"
  },
  {
   "property": "C96",
   "status": "proved",
   "theorems": [
    "C96_tidy"
   ],
   "note": "every grammar the builder reads"
  },
  {
   "property": "C97",
   "status": "partial",
   "theorems": [
    "C97_ends_partial",
    "C97_named_ends_partial",
    "C97_named_group_refuted",
    "C97_unit_rule_refuted"
   ],
   "note": "for grammars in which no rule can be nothing but itself; with named groups when none that begins a rule can begin with the rule again; both limits refuted"
  },
  {
   "property": "C98",
   "status": "proved",
   "theorems": [
    "C98_unknown_names"
   ],
   "note": "exact"
  },
  {
   "property": "C99",
   "status": "partial",
   "theorems": [
    "C99_reads_back_partial",
    "C99_512_members_refuted",
    "C99_modes_refuted",
    "C99_owners_refuted"
   ],
   "note": "For all assemblies as the compiler makes them the tables are written and read back to the same assembly, when no table exceeds 2^20 rows. Not kept by the code (refuted): lists of 512 members, modes of generic arguments, owners of explicit implementations. Not modelled: attributes, type definitions, bodies."
  },
  {
   "property": "C100",
   "status": "partial",
   "theorems": [
    "C100_meaning_partial",
    "C100_root_partial",
    "C100_root_param_refuted"
   ],
   "note": "what a type name means equals the rules of scopes, for names in the default scope and after global::; type definitions are left out; global:: with a generic param refuted"
  },
  {
   "property": "C101",
   "status": "partial",
   "theorems": [
    "C101_own_first",
    "C101_order_refuted",
    "C101_keyword_refuted"
   ],
   "note": "own names are never changed by other assemblies, imports and usings (proved); order of usings and keywords of basic types refuted"
  },
  {
   "property": "C102",
   "status": "partial",
   "theorems": [
    "C102_in_type_partial",
    "C102_in_method_partial",
    "C102_same_names_refuted",
    "C102_nested_refuted",
    "C102_spread_refuted"
   ],
   "note": "proved for distinct parameter names and arguments whose number does not depend on a spread; refuted otherwise"
  },
  {
   "property": "C103",
   "status": "partial",
   "theorems": [
    "C103_first_partial",
    "C103_closed_partial",
    "C103_kept_refuted"
   ],
   "note": "first read, and all reads through references without parameters; refuted: the kept field ignores the arguments"
  },
  {
   "property": "C104",
   "status": "partial",
   "theorems": [
    "C104_bound_partial",
    "C104_names_refuted",
    "C104_generic_method_refuted"
   ],
   "note": "one class, disjoint parameter names, no packs, no parameters of methods; refuted for equal names and for parameters of methods"
  },
  {
   "property": "C105",
   "status": "partial",
   "theorems": [
    "C105_override_partial",
    "C105_generic_refuted"
   ],
   "note": "base signatures without parameters; refuted with them"
  },
  {
   "property": "C106",
   "status": "proved",
   "theorems": [
    "C106_method",
    "C106_field",
    "C106_nested"
   ],
   "note": "found for every assembly the writer writes, if no table is full"
  },
  {
   "property": "C107",
   "status": "partial",
   "theorems": [
    "C107_found_partial",
    "C107_answers",
    "C107_nested_refuted"
   ],
   "note": "unique names found; refuted for nested types of equal names"
  },
  {
   "property": "C108",
   "status": "partial",
   "theorems": [
    "C108_resolved_partial",
    "C108_again_refuted",
    "C108_last_refuted",
    "C108_root_refuted",
    "C108_above_refuted",
    "C108_begin"
   ],
   "note": "simple paths; refuted for repeated .. behind a removed name, a last .., the root and above"
  },
  {
   "property": "C109",
   "status": "partial",
   "theorems": [
    "C109_values_partial",
    "C109_unique",
    "C109_forward_refuted",
    "C109_order_refuted",
    "C109_negative_refuted",
    "C109_narrow_refuted",
    "C109_small_refuted"
   ],
   "note": "proved for constants settled earlier or exactly of their type; five refutations"
  },
  {
   "property": "C110",
   "status": "partial",
   "theorems": [
    "C110_ends_partial",
    "C110_given",
    "C110_variable_refuted",
    "C110_default_refuted"
   ],
   "note": "proved for programs whose constants name enum fields and initialised constants; two endless compilations refute the rest"
  },
  {
   "property": "C111",
   "status": "proved",
   "theorems": [
    "C111_reported",
    "C111_only"
   ],
   "note": "both directions"
  },
  {
   "property": "C112",
   "status": "proved",
   "theorems": [
    "C112_accepts",
    "C112_no_circle",
    "C112_diamond_refuted"
   ],
   "note": "acceptance is characterised exactly (rules, and at most one way between parameters) and implies that there is no circle; that constraints without a circle are accepted is refuted by a diamond"
  },
  {
   "property": "C113",
   "status": "proved",
   "theorems": [
    "C113_reports"
   ],
   "note": "exact, for every graph of types, with termination"
  },
  {
   "property": "C114",
   "status": "proved",
   "theorems": [
    "C114_once",
    "C114_before"
   ],
   "note": "references in binary form are leaves in the model"
  },
  {
   "property": "C115",
   "status": "proved",
   "theorems": [
    "C115_reported",
    "C115_only"
   ],
   "note": "each circle has a reported import, every report is justified"
  },
  {
   "property": "C116",
   "status": "proved",
   "theorems": [
    "C116_clean",
    "C116_written",
    "C116_complete",
    "C116_first",
    "C116_nothing_refuted"
   ],
   "note": "success exactly for solutions without errors; that a failing build writes nothing is refuted"
  },
  {
   "property": "C117",
   "status": "partial",
   "theorems": [
    "C117_sound_partial",
    "C117_struct_refuted",
    "C117_param_refuted",
    "C117_enum_refuted",
    "C117_shadow_refuted"
   ],
   "note": "Proved without hidden parameters, for constraint types that are classes, interfaces or arrays, and struct parameters given to struct parameters only; refuted without each of these."
  },
  {
   "property": "C118",
   "status": "partial",
   "theorems": [
    "C118_exact_partial",
    "C118_no_crash",
    "C118_field_refuted",
    "C118_chain_refuted"
   ],
   "note": "Exact for arguments that are not parameters themselves and constraint types that are classes, interfaces or arrays; no null is followed inside methods; refuted: fields crash, chains of parameters are refused."
  },
  {
   "property": "C119",
   "status": "partial",
   "theorems": [
    "C119_roundtrip_partial",
    "C119_variables_refuted",
    "C119_rows_refuted",
    "C119_no_body"
   ],
   "note": "proved for fewer than 2^16 variables, tables and blocks and fewer than 2^15 rows a table; false beyond (C119_variables_refuted, C119_rows_refuted)"
  },
  {
   "property": "C120",
   "status": "partial",
   "theorems": [
    "C120_within_partial",
    "C120_within_refuted"
   ],
   "note": "proved for bytes with three zeros behind; false in general (C120_within_refuted)"
  },
  {
   "property": "C121",
   "status": "partial",
   "theorems": [
    "C121_rules_partial",
    "C121_complete_partial",
    "C121_interface_refuted",
    "C121_body_refuted",
    "C121_exclusive_refuted",
    "C121_new_refuted",
    "C121_indexer_refuted"
   ],
   "note": "accepted members keep the rules and members that keep them are accepted, except for the refuted cases"
  },
  {
   "property": "C122",
   "status": "partial",
   "theorems": [
    "C122_override_partial",
    "C122_kind_refuted",
    "C122_passing_refuted",
    "C122_indexer_refuted"
   ],
   "note": "all but the kind and the ways of passing parameters; refuted for these and for indexers"
  },
  {
   "property": "C123",
   "status": "partial",
   "theorems": [
    "C123_refused_partial",
    "C123_true",
    "C123_accessor_refuted"
   ],
   "note": "proved of checked members; refuted for accessors"
  },
  {
   "property": "C124",
   "status": "partial",
   "theorems": [
    "C124_warned",
    "C124_true",
    "C124_new_refuted",
    "C124_text_refuted"
   ],
   "note": "hiding is warned about exactly when it should be; refuted for new that hides nothing"
  },
  {
   "property": "C125",
   "status": "partial",
   "theorems": [
    "C125_values_partial",
    "C125_null_partial",
    "C125_logic_partial",
    "C125_never_called_refuted",
    "C125_declared_refuted",
    "C125_reported_missing_refuted",
    "C125_missing_refuted"
   ],
   "note": "operators on values, comparisons with null and logical operators; refuted: declared operators are never called"
  },
  {
   "property": "C126",
   "status": "partial",
   "theorems": [
    "C126_declarations",
    "C126_callable_partial",
    "C126_generic_refuted",
    "C126_signs",
    "C126_names"
   ],
   "note": "proved except for generic operators, for which it is refuted"
  },
  {
   "property": "C127",
   "status": "partial",
   "theorems": [
    "C127_initial_partial",
    "C127_returned_partial",
    "C127_return_nothing",
    "C127_assigned_refuted",
    "C127_null_refuted"
   ],
   "note": "proved for initial and returned values; refuted for assignments and null"
  },
  {
   "property": "C128",
   "status": "partial",
   "theorems": [
    "C128_pattern_partial",
    "C128_plus_refuted",
    "C128_bar_refuted",
    "C128_anchor_refuted",
    "C128_line_refuted"
   ],
   "note": "proved for patterns without + ^ $ | and names without line ends; refuted for the others"
  },
  {
   "property": "C129",
   "status": "partial",
   "theorems": [
    "C129_pattern",
    "C129_nowhere",
    "C129_file",
    "C129_directory_refuted",
    "C129_listed_partial",
    "C129_here_refuted",
    "C129_hidden_refuted"
   ],
   "note": "patterns in a directory and plain files proved; refuted for directories, patterns without a directory, hidden files"
  },
  {
   "property": "C130",
   "status": "partial",
   "theorems": [
    "C130_stack_partial",
    "C130_math",
    "C130_pow",
    "C130_queries",
    "C130_absent_refuted",
    "C130_type_name_refuted",
    "C130_tuple_get_refuted"
   ],
   "note": "proved for all internal functions of the runtime; refuted for three that are missing, for names of types and elements of tuples"
  },
  {
   "property": "C131",
   "status": "partial",
   "theorems": [
    "C131_write_partial",
    "C131_line_partial",
    "C131_empty_line",
    "C131_uint64_refuted",
    "C131_null_refuted",
    "C131_bool_refuted",
    "C131_nul_refuted",
    "C131_cut"
   ],
   "note": "proved except for lines of UInt64, null and Boolean and strings with NUL, which are refuted; the text of floating numbers is a parameter"
  },
  {
   "property": "C132",
   "status": "partial",
   "theorems": [
    "C132_max",
    "C132_min",
    "C132_sign",
    "C132_abs_partial",
    "C132_abs_refuted"
   ],
   "note": "Max, Min and Sign proved; Abs proved except for the least value of each type, where it is refuted"
  },
  {
   "property": "C133",
   "status": "partial",
   "theorems": [
    "C133_read_back_partial",
    "C133_form",
    "C133_escapes",
    "C133_length",
    "C133_different",
    "C133_form_feed_refuted",
    "C133_control_refuted",
    "C133_nul_refuted"
   ],
   "note": "proved for strings without form feed, NUL and control characters that have no escape, for which it is refuted; different strings without NUL are always shown differently"
  },
  {
   "property": "C134",
   "status": "proved",
   "theorems": [
    "C134_identity"
   ],
   "note": "for all sequences of look-ups of texts without NUL; std::set is an ordered list searched with the operator of the code"
  },
  {
   "property": "C135",
   "status": "partial",
   "theorems": [
    "C135_equals",
    "C135_less",
    "C135_compare_partial",
    "C135_operators_partial",
    "C135_itself_refuted"
   ],
   "note": "equality and less proved; comparison and the other operators proved for strings at different places, refuted for a string with itself"
  },
  {
   "property": "C136",
   "status": "partial",
   "theorems": [
    "C136_start_partial",
    "C136_accepted",
    "C136_first",
    "C136_duplicates",
    "C136_messages",
    "C136_without_modifiers",
    "C136_modifiers",
    "C136_inline",
    "C136_public_refuted",
    "C136_generic_type_refuted"
   ],
   "note": "proved except that the entry point is public, refuted for private and protected internal methods; methods of generic types are accepted"
  },
  {
   "property": "C137",
   "status": "proved",
   "theorems": [
    "C137_enum",
    "C137_enum_accepted",
    "C137_enum_modifiers",
    "C137_enum_type",
    "C137_names",
    "C137_constants"
   ],
   "note": "for all declared types; the values of enum fields are C109-C111"
  },
  {
   "property": "C138",
   "status": "partial",
   "theorems": [
    "C138_class",
    "C138_class_accepted",
    "C138_struct_partial",
    "C138_struct_first",
    "C138_others",
    "C138_struct_refuted"
   ],
   "note": "proved for classes, interfaces and enums, and for structs unless a constructor without parameters is written behind another one, where it is refuted"
  }
 ]
}