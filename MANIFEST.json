{
 "claims": [
  {
   "property": "C01",
   "status": "proved",
   "theorems": [
    "C01_lru_behaves_as_recency_list",
    "C01_lru_size_bounded",
    "C01_lru_size_le_capacity",
    "C01_lru_keys_unique",
    "C01_lru_capacity_zero_refuted",
    "C01_lru_shrink_refuted"
   ],
   "note": "Capacity 0 (undefined behaviour on the first insert) and shrinking by reset_capacity (not enforced) are shown as refutations of the stronger claim."
  },
  {
   "property": "C02",
   "status": "partial",
   "theorems": [
    "C02_arena_regions_disjoint_inside_aligned",
    "C02_arena_no_undefined_behaviour",
    "C02_arena_over_aligned_refuted"
   ],
   "note": "All histories, any allocator that returns fresh aligned blocks. Refuted only for a configured alignment above that of the blocks."
  },
  {
   "property": "C03",
   "status": "partial",
   "theorems": [
    "C03_arena_total_exact",
    "C03_arena_limit_respected",
    "C03_arena_used_exact_partial",
    "C03_arena_failed_request_counted_refuted"
   ],
   "note": "Totals and limit exact in all histories; usage exact while no request fails, and refuted otherwise (a failed request stays counted)."
  },
  {
   "property": "C04",
   "status": "proved",
   "theorems": [
    "C04_list_refines_atomic_queue",
    "C04_list_no_duplicates",
    "C04_list_each_push_swept_exactly_once",
    "C04_list_nothing_lost"
   ],
   "note": "All interleavings of any number of threads, sequentially consistent atomics."
  },
  {
   "property": "C05",
   "status": "proved",
   "theorems": [
    "C05_plan_covers_every_index_once",
    "C05_plan_is_balanced",
    "C05_run_uses_the_pool"
   ],
   "note": "All ranges and pool sizes."
  },
  {
   "property": "C06",
   "status": "proved",
   "theorems": [
    "C06_run_returns_after_all_work",
    "C06_run_processes_the_interval",
    "C06_run_no_use_after_return",
    "C06_run_terminates"
   ],
   "note": "All schedules; a closure that throws is not modelled (the barrier would never open)."
  },
  {
   "property": "C07",
   "status": "partial",
   "theorems": [
    "C07_equal_iff_same_type_partial",
    "C07_equal_iff_same_up_to_array_lengths",
    "C07_array_lengths_refuted",
    "C07_many_classes_refuted",
    "C07_array_of_arrays_refuted",
    "C07_compare_overflow_refuted"
   ],
   "note": "Refuted for array lengths, arrays of arrays, more than 2046 classes, very long arrays; proved for all other types, nested to any depth."
  },
  {
   "property": "C08",
   "status": "partial",
   "theorems": [
    "C08_less_irreflexive_partial",
    "C08_less_transitive_partial",
    "C08_trichotomy_partial",
    "C08_cycle_refuted",
    "C08_antisymmetry_refuted"
   ],
   "note": "Proved for at most 1022 registered classes; above that the int truncation of Compare makes cycles (refuted)."
  },
  {
   "property": "C09",
   "status": "partial",
   "theorems": [
    "C09_sequence_element",
    "C09_array_element",
    "C09_map_key",
    "C09_map_element_partial",
    "C09_pointee_partial",
    "C09_pointee_refuted",
    "C09_map_element_refuted"
   ],
   "note": "Sequences, arrays and map keys proved; pointees and mapped types proved exactly where they hold, refuted on the rest."
  },
  {
   "property": "C10",
   "status": "partial",
   "theorems": [
    "C10_one_tuple_partial",
    "C10_one_tuple_arity",
    "C10_pair_components_partial",
    "C10_pair_component_count",
    "C10_pair_arity_refuted",
    "C10_components_refuted"
   ],
   "note": "TupleSize of a pair is 4 (refuted for all pairs); components returned iff simple."
  },
  {
   "property": "C11",
   "status": "partial",
   "theorems": [
    "C11_conversion_preserves_value",
    "C11_store_and_load",
    "C11_load_checks_type",
    "C11_conversions_chain_partial",
    "C11_conversion_through_int8_refuted"
   ],
   "note": "All pairs of integer types for a stored value; chains through int8 refuted."
  },
  {
   "property": "C12",
   "status": "partial",
   "theorems": [
    "C12_equality_is_byte_equality_partial",
    "C12_view_denotes_its_bytes_partial",
    "C12_long_strings_refuted"
   ],
   "note": "All byte strings below 4 GiB; refuted at 4 GiB."
  },
  {
   "property": "C13",
   "status": "partial",
   "theorems": [
    "C13_compare_is_lexicographic_partial",
    "C13_udf_comparisons_agree_partial",
    "C13_lexicographic_order_is_total",
    "C13_long_strings_refuted",
    "C13_vector_comparison_is_lanewise_partial"
   ],
   "note": "All byte strings below 2 GiB; refuted above. Vectorised comparison lane by lane."
  },
  {
   "property": "C14",
   "status": "partial",
   "theorems": [
    "C14_contains_partial",
    "C14_starts_with_partial",
    "C14_ends_with_partial",
    "C14_contains_ignore_case_partial",
    "C14_starts_with_ignore_case_refuted",
    "C14_ends_with_ignore_case_refuted"
   ],
   "note": "contains/starts_with/ends_with for strings below 4 GiB; the two _ignore_case prefix/suffix functions are case-sensitive (refuted: they decide exact prefix and suffix)."
  },
  {
   "property": "C15",
   "status": "partial",
   "theorems": [
    "C15_set_is_local_partial",
    "C15_get_reads_element",
    "C15_clear_in_zero_byte_hangs_refuted",
    "C15_set_out_of_range_fails",
    "C15_element_set_is_local"
   ],
   "note": "Holds except for clearing an element in an all-zero byte, which never returns (refuted for every such byte)."
  },
  {
   "property": "C16",
   "status": "partial",
   "theorems": [
    "C16_updates_of_distinct_bytes_partial",
    "C16_update_lost_refuted"
   ],
   "note": "Any number of threads and any schedule when no two updated elements share a byte; refuted when they do."
  },
  {
   "property": "C17",
   "status": "partial",
   "theorems": [
    "C17_slice_is_the_window_partial",
    "C17_bit_slice_is_the_window_partial",
    "C17_slice_outside_refuted",
    "C17_resize_wraps_refuted"
   ],
   "note": "Window exact for pos + len < 2^32; refuted above for every vector."
  },
  {
   "property": "C18",
   "status": "partial",
   "theorems": [
    "C18_not_is_pointwise_partial",
    "C18_binary_is_pointwise_partial",
    "C18_not_sets_padding_refuted",
    "C18_binary_keeps_padding_refuted"
   ],
   "note": "Pointwise for every lane count and size; the clause on the unused bits is refuted."
  },
  {
   "property": "C19",
   "status": "partial",
   "theorems": [
    "C19_count_true_partial",
    "C19_count_false_partial",
    "C19_count_true_sparse_partial",
    "C19_count_true_wide_refuted"
   ],
   "note": "Exact below 32 byte lanes, and for sparse vectors on any width; refuted for 32 and more lanes."
  },
  {
   "property": "C20",
   "status": "partial",
   "theorems": [
    "C20_filter_numbers_partial",
    "C20_filter_strings",
    "C20_filter_bits",
    "C20_filter_reads_past_mask_refuted"
   ],
   "note": "Every lane count; masks whose buffer ends inside a group of lanes are read past their end (refuted for 8 and more lanes)."
  },
  {
   "property": "C21",
   "status": "proved",
   "theorems": [
    "C21_find_number",
    "C21_find_string"
   ],
   "note": "Every lane count, size and comparison."
  },
  {
   "property": "C22",
   "status": "partial",
   "theorems": [
    "C22_gather_small",
    "C22_gather_bits",
    "C22_gather_wide_partial",
    "C22_gather_wide_reads_outside_refuted"
   ],
   "note": "8/16-bit, strings and Bit in full; 32/64-bit only for indices in range in full blocks (out-of-range reads refuted)."
  },
  {
   "property": "C23",
   "status": "partial",
   "theorems": [
    "C23_sum_wraps_partial",
    "C23_sum_exact_partial",
    "C23_sum_never_wrong_partial",
    "C23_signed_sum_overflows_refuted",
    "C23_max",
    "C23_min",
    "C23_extrema_of_empty",
    "C23_iota"
   ],
   "note": "max/min/iota in full; sums exact modulo the width except that signed 32/64-bit sums have undefined overflow (refuted)."
  },
  {
   "property": "C24",
   "status": "partial",
   "theorems": [
    "C24_find_partial",
    "C24_find_in_bounds_partial",
    "C24_find_misses_refuted",
    "C24_find_invents_refuted",
    "C24_find_empty_refuted",
    "C24_find_char"
   ],
   "note": "Patterns of one or two bytes and short texts; longer ones refuted for every current lane count."
  },
  {
   "property": "C25",
   "status": "partial",
   "theorems": [
    "C25_split_by_char",
    "C25_split_by_string_partial",
    "C25_fields_unique",
    "C25_split_loses_text_refuted",
    "C25_split_by_empty_refuted"
   ],
   "note": "By character in full; by string where C24 holds; refuted elsewhere."
  },
  {
   "property": "C26",
   "status": "partial",
   "theorems": [
    "C26_layout_partial",
    "C26_set_get_partial",
    "C26_mismatch",
    "C26_long_double_refuted",
    "C26_long_double_outside_refuted",
    "C26_set_variable_refuted",
    "C26_add_new_names_only",
    "C26_late_field_refuted"
   ],
   "note": "Layout and set/get for all schemas without long double and all histories of Set; the other cases refuted."
  },
  {
   "property": "C27",
   "status": "partial",
   "theorems": [
    "C27_first_definition_wins",
    "C27_undefined_name",
    "C27_nested_definition_refuted",
    "C27_unknown_table_refuted",
    "C27_table_found",
    "C27_object_as_table_refuted"
   ],
   "note": "All histories; nested initialisers, unknown table names and object names used for tables refuted."
  },
  {
   "property": "C28",
   "status": "partial",
   "theorems": [
    "C28_lookup_partial",
    "C28_calls_return_partial",
    "C28_put_then_read_partial",
    "C28_set_parent_partial",
    "C28_reference_partial",
    "C28_add_element",
    "C28_contains_partial",
    "C28_array_elements",
    "C28_circle_never_answers",
    "C28_circle_refuted",
    "C28_write_through_refuted",
    "C28_contains_refuted",
    "C28_array_shrinks_refuted"
   ],
   "note": "All histories without a circle of parents; circles, write-through, Contains and shrinking arrays refuted."
  },
  {
   "property": "C29",
   "status": "partial",
   "theorems": [
    "C29_destroyed_once_in_order",
    "C29_reset_destroys_all",
    "C29_only_reset_destroys",
    "C29_calls_return_partial",
    "C29_fetched_alive_partial",
    "C29_fetched_again",
    "C29_fetch_after_reset_refuted",
    "C29_validate_after_reset_refuted",
    "C29_arena_recycled_first_refuted"
   ],
   "note": "Destruction exactly once in order in all histories; liveness of fetched objects only without fetching a type across Reset (refuted otherwise)."
  },
  {
   "property": "C30",
   "status": "partial",
   "theorems": [
    "C30_room_partial",
    "C30_room_refuted",
    "C30_capacity_partial",
    "C30_capacity_wraps_refuted",
    "C30_capacity_not_allocated_refuted",
    "C30_size_wraps_refuted",
    "C30_copied_room",
    "C30_bools"
   ],
   "note": "Exact conditions on n for size, room and capacity; refuted outside."
  },
  {
   "property": "C31",
   "status": "partial",
   "theorems": [
    "C31_transparent_partial",
    "C31_calls_return_partial",
    "C31_other_arguments_refuted",
    "C31_two_functions_refuted",
    "C31_first_evaluation_refuted",
    "C31_reentrant_refuted"
   ],
   "note": "Transparent if every source is always used in one way; refuted for other arguments, several functions, first evaluations and re-entrance."
  },
  {
   "property": "C32",
   "status": "partial",
   "theorems": [
    "C32_lexer_meets_spec",
    "C32_spec_deterministic",
    "C32_tokens_are_slices",
    "C32_no_text_lost",
    "C32_written_tokens_read_back",
    "C32_colon_glued_refuted"
   ],
   "note": "All inputs, against an independent longest-match specification that is shown deterministic; only the reading of cond?a:b without spaces differs from the documented grammar (refuted)."
  },
  {
   "property": "C33",
   "status": "proved",
   "theorems": [
    "C33_lookahead_transparent"
   ],
   "note": "All sequences of lexer calls."
  },
  {
   "property": "C34",
   "status": "partial",
   "theorems": [
    "C34_print_parse_partial",
    "C34_conditional_target_refuted",
    "C34_accepts_only_grammar",
    "C34_accepts_grammar",
    "C34_grammar_unambiguous",
    "C34_parser_total"
   ],
   "note": "Round trip with any white space and comments for all expressions, except conditionals as assignment targets (refuted for all of these); the parser is sound and complete for the grammar, which is unambiguous."
  },
  {
   "property": "C35",
   "status": "partial",
   "theorems": [
    "C35_functions_partial",
    "C35_expression_refuted",
    "C35_function_refuted"
   ],
   "note": "Sequences of functions in full (given C36); refuted for every expression and every single function."
  },
  {
   "property": "C36",
   "status": "partial",
   "theorems": [
    "C36_statements_partial",
    "C36_grammar_accepted",
    "C36_parser_total",
    "C36_missing_semicolon_refuted"
   ],
   "note": "Sound and complete except for break/continue without semicolon (refuted for every such list)."
  },
  {
   "property": "C37",
   "status": "partial",
   "theorems": [
    "C37_suffixed_literal_partial",
    "C37_suffixed_literal_refuted",
    "C37_plain_literal_partial",
    "C37_plain_literal_refuted",
    "C37_large_plain_literal_refuted"
   ],
   "note": "Exact characterisation: which literals keep their value, and that all others below 2^64 are accepted with another value."
  },
  {
   "property": "C38",
   "status": "partial",
   "theorems": [
    "C38_compiled_expression_is_its_tree_partial",
    "C38_operands_of_function_operators_refuted"
   ],
   "note": "All scalar expressions without assignments, strings, arrays and members, down to the generated instructions; operators written as functions with a wrong number of arguments refuted."
  },
  {
   "property": "C39",
   "status": "partial",
   "theorems": [
    "C39_assignment_leaves_other_variables_partial",
    "C39_initialised_with_a_variable_refuted",
    "C39_variable_follows_initialised_refuted"
   ],
   "note": "All programs in the supported shape for declarations not initialised with a variable; refuted for those that are."
  },
  {
   "property": "C40",
   "status": "partial",
   "theorems": [
    "C40_blocks_are_well_formed_partial",
    "C40_statement_after_return_refuted",
    "C40_loop_at_the_end_of_else_refuted"
   ],
   "note": "All programs of the supported shape; refuted for statements after return and loops at the end of else."
  },
  {
   "property": "C41",
   "status": "partial",
   "theorems": [
    "C41_generated_code_runs_the_program_partial",
    "C41_one_outcome_partial"
   ],
   "note": "All programs of the supported shape: same results, effects, undefined behaviour and non-termination."
  },
  {
   "property": "C42",
   "status": "partial",
   "theorems": [
    "C42_compare_signature",
    "C42_load_by_name_partial",
    "C42_compile_signature_refuted",
    "C42_signature_refuted"
   ],
   "note": "The comparison itself is exact, but its answer is not used: refuted for every signature."
  },
  {
   "property": "C43",
   "status": "partial",
   "theorems": [
    "C43_all_operands_are_evaluated_refuted",
    "C43_both_branches_are_evaluated_refuted",
    "C43_value_as_if_only_needed_operands_partial"
   ],
   "note": "Refuted: all operands are evaluated. What holds: the value, if all operands are defined and without effects."
  },
  {
   "property": "C44",
   "status": "partial",
   "theorems": [
    "C44_elementwise_partial",
    "C44_elementwise_if_defined_partial",
    "C44_integers_partial",
    "C44_sizes",
    "C44_assignment",
    "C44_last_unit_refuted",
    "C44_scalar_part_refuted",
    "C44_temporary_refuted",
    "C44_scalar_choice_refuted"
   ],
   "note": "All sizes below 2^30 and all expressions whose parts have one type; mixed parts, scalar temporaries and undefined filler lanes refuted."
  },
  {
   "property": "C45",
   "status": "partial",
   "theorems": [
    "C45_integer_expressions_are_exact",
    "C45_mixed_comparison",
    "C45_common_type",
    "C45_minus_one_less_than_one_refuted",
    "C45_two_hundred_greater_than_one_hundred_refuted",
    "C45_abs_of_unsigned_refuted"
   ],
   "note": "All integer expressions whose intermediate values fit; comparisons of values outside the common type refuted."
  },
  {
   "property": "C46",
   "status": "partial",
   "theorems": [
    "C46_exactly_one_partial",
    "C46_nan_refuted"
   ],
   "note": "All values but NaN; refuted for NaN."
  },
  {
   "property": "C47",
   "status": "partial",
   "theorems": [
    "C47_aligned",
    "C47_added",
    "C47_accepted",
    "C47_inserted",
    "C47_insert_accepted",
    "C47_appended",
    "C47_failed_partial",
    "C47_failed_add_refuted",
    "C47_failed_insert_refuted",
    "C47_torn_read_refuted"
   ],
   "note": "All histories and exact acceptance conditions; a failed call on a table of two row types leaves it torn (refuted)."
  },
  {
   "property": "C48",
   "status": "partial",
   "theorems": [
    "C48_filter",
    "C48_split",
    "C48_head",
    "C48_tail_partial",
    "C48_tail_zero_refuted",
    "C48_head_tail_itself_refuted",
    "C48_concat",
    "C48_concat_other",
    "C48_empty_mask_refuted"
   ],
   "note": "All tables; Tail(0), the aliasing of Head/Tail and unchecked masks refuted."
  },
  {
   "property": "C49",
   "status": "partial",
   "theorems": [
    "C49_group_by_keys",
    "C49_group_by_keys_bad",
    "C49_group_by_columns_partial",
    "C49_order_refuted",
    "C49_bit_refuted"
   ],
   "note": "By keys in full; by columns up to the place of the first row (refuted), Bit columns refuted."
  },
  {
   "property": "C50",
   "status": "proved",
   "theorems": [
    "C50_mask",
    "C50_filter"
   ],
   "note": "All columns and k."
  },
  {
   "property": "C51",
   "status": "partial",
   "theorems": [
    "C51_one_column_partial",
    "C51_columns",
    "C51_columns_refuted",
    "C51_no_columns_refuted",
    "C51_distinct_merge",
    "C51_merge_partial",
    "C51_merge_other",
    "C51_merge_after_read_refuted"
   ],
   "note": "One column in full; several columns refuted as stated, with the exact behaviour proved; distinct-and-merge in full."
  },
  {
   "property": "C52",
   "status": "partial",
   "theorems": [
    "C52_history_partial",
    "C52_get_partial",
    "C52_get_after_unload_refuted",
    "C52_get_after_add_refuted",
    "C52_order_by_column_refuted",
    "C52_order_by_unread_refuted",
    "C52_set_wrong_size",
    "C52_set_written_back_partial",
    "C52_set_lost_refuted",
    "C52_set_overwritten_refuted"
   ],
   "note": "All histories of the listed operations; Set, OrderBy(column), Get after changes refuted."
  },
  {
   "property": "C53",
   "status": "proved",
   "theorems": [
    "C53_returns",
    "C53_only",
    "C53_each_once",
    "C53_forever",
    "C53_mask"
   ],
   "note": "All callbacks, as a relation in both directions."
  },
  {
   "property": "C54",
   "status": "partial",
   "theorems": [
    "C54_by_value_iff_on_stack",
    "C54_registered_function_partial",
    "C54_registered_pointer_to_view_refuted",
    "C54_udf_partial",
    "C54_udf_string_view_refuted",
    "C54_udf_pointer_to_view_refuted",
    "C54_member_function_partial",
    "C54_member_function_refuted"
   ],
   "note": "All parameter lists without pointers to views; the back end is the System V specification in Abi_Spec.v, assumed of LLVM. Refuted for pointers to views, member functions with views on the stack, and i128 alignment 16."
  },
  {
   "property": "C55",
   "status": "partial",
   "theorems": [
    "C55_first_registration_wins",
    "C55_operand_count",
    "C55_lookup_pointer_partial",
    "C55_lookup_pointer_refuted"
   ],
   "note": "All histories; stability of the returned pointer refuted once the table grows."
  },
  {
   "property": "C56",
   "status": "partial",
   "theorems": [
    "C56_operator_name_partial",
    "C56_operator_has_name",
    "C56_function_name_partial",
    "C56_two_types_partial",
    "C56_two_types_refuted",
    "C56_containers_refuted",
    "C56_unnamed_types_refuted",
    "C56_suffix_refuted",
    "C56_cached_name_partial",
    "C56_cached_name_refuted",
    "C56_member_name_partial",
    "C56_member_name_refuted"
   ],
   "note": "Built-in types and vectors of them; containers, unnamed classes, mixed operands and nested cached types refuted."
  },
  {
   "property": "C57",
   "status": "partial",
   "theorems": [
    "C57_error_line_partial",
    "C57_error_line_refuted"
   ],
   "note": "Exact characterisation of the positions with a right line; all other positions refuted."
  },
  {
   "property": "C58",
   "status": "partial",
   "theorems": [
    "C58_jagged_get_is_off_by_one_refuted",
    "C58_fixed_size_get_partial",
    "C58_fixed_size_add"
   ],
   "note": "Fixed-size collection in full below the size limits; the jagged collection is off by one (refuted for every collection)."
  },
  {
   "property": "C59",
   "status": "partial",
   "theorems": [
    "C59_elements_passed",
    "C59_vector_history_partial",
    "C59_get_outside",
    "C59_find_far_refuted",
    "C59_null_vector_refuted",
    "C59_find_object_refuted",
    "C59_map_history",
    "C59_null_map",
    "C59_missing_values",
    "C59_set_history"
   ],
   "note": "All histories of vector, map and set methods on numbers and strings; null vectors, far positions and objects refuted."
  },
  {
   "property": "C60",
   "status": "partial",
   "theorems": [
    "C60_returned_values_are_computed_partial",
    "C60_path_without_return_refuted",
    "C60_variable_of_another_path_refuted"
   ],
   "note": "Exact sufficient condition; refuted without it."
  },
  {
   "property": "C61",
   "status": "partial",
   "theorems": [
    "C61_filter",
    "C61_added",
    "C61_succeeds",
    "C61_names_differ",
    "C61_sound_partial",
    "C61_failed_refuted"
   ],
   "note": "All schemas; failed calls leave a dangling column (refuted)."
  },
  {
   "property": "C62",
   "status": "partial",
   "theorems": [
    "C62_equal_types_hash_equally_partial",
    "C62_array_element_hash_refuted"
   ],
   "note": "All array-free types; refuted for the element type of every array."
  },
  {
   "property": "C63",
   "status": "partial",
   "theorems": [
    "C63_vector_has_the_given_size_partial",
    "C63_large_vectors_truncated_refuted",
    "C63_bit_vector_bytes"
   ],
   "note": "All sizes below 2^30; refuted above."
  },
  {
   "property": "C64",
   "status": "partial",
   "theorems": [
    "C64_avg_partial",
    "C64_avg_empty",
    "C64_avg_below_minimum_refuted"
   ],
   "note": "If the sum of absolute values fits; refuted otherwise."
  },
  {
   "property": "C65",
   "status": "partial",
   "theorems": [
    "C65_match_partial",
    "C65_match_zero_refuted"
   ],
   "note": "All sizes and lane counts; value 0 sets bits past the end (refuted)."
  },
  {
   "property": "C66",
   "status": "partial",
   "theorems": [
    "C66_contract",
    "C66_sort",
    "C66_topk_partial",
    "C66_select_partial",
    "C66_argsort",
    "C66_argselect_partial",
    "C66_sort_kv",
    "C66_topk_kv_partial",
    "C66_select_kv_partial",
    "C66_readonly",
    "C66_refused_pairs",
    "C66_k_unchecked_refuted",
    "C66_argselect_zero_refuted"
   ],
   "note": "For every library within the stated contract of x86simdsort (NaNs not modelled); k outside the vector refuted. Lacks only the unchecked k."
  },
  {
   "property": "C67",
   "status": "partial",
   "theorems": [
    "C67_index_literal_partial",
    "C67_index_literal_refuted"
   ],
   "note": "Integers below 2^32; everything else refuted."
  },
  {
   "property": "C68",
   "status": "proved",
   "theorems": [
    "C68_order_by",
    "C68_topk",
    "C68_rejected"
   ],
   "note": "For every sorting library within the contract of C66."
  },
  {
   "property": "C69",
   "status": "proved",
   "theorems": [
    "C69_map",
    "C69_flat_map",
    "C69_get_row"
   ],
   "note": "All tables and functions."
  },
  {
   "property": "C70",
   "status": "partial",
   "theorems": [
    "C70_arguments_checked_partial",
    "C70_vector_arguments_checked_partial",
    "C70_void_pointer_refuted",
    "C70_pointer_to_vector_refuted"
   ],
   "note": "All types without void inside and without pointers to vectors; those refuted."
  },
  {
   "property": "C72",
   "status": "proved",
   "theorems": [
    "C72_first_name_wins",
    "C72_round_trip"
   ],
   "note": "All histories."
  },
  {
   "property": "C71",
   "status": "partial",
   "theorems": [
    "C71_loaded_function_runs",
    "C71_moved_from_refuted"
   ],
   "note": "All programs; only a moved-from function object is refuted."
  },
  {
   "property": "C73",
   "status": "partial",
   "theorems": [
    "C73_contracts",
    "C73_size_mismatch",
    "C73_sum_exact",
    "C73_avg_exact",
    "C73_avg_empty",
    "C73_dot_exact_partial",
    "C73_dot_short_refuted",
    "C73_l2_exact",
    "C73_cosine_exact",
    "C73_sum_error",
    "C73_dot_error_partial",
    "C73_l2_error",
    "C73_cosine_error",
    "C73_nan"
   ],
   "note": "All formats, widths and orders of additions; exact on integers, rounding-error bounds on all finite values; dot of vectors shorter than a register reads past the end (refuted)."
  },
  {
   "property": "C74",
   "status": "partial",
   "theorems": [
    "C74_first_wins_partial",
    "C74_reported_partial",
    "C74_listing_partial",
    "C74_containers_refuted"
   ],
   "note": "All histories, for types whose description fits in one word; containers of pointers or containers share their members (refuted)."
  },
  {
   "property": "C75",
   "status": "partial",
   "theorems": [
    "C75_chain_partial",
    "C75_assign_partial",
    "C75_accepted_partial",
    "C75_never_undefined",
    "C75_error_iff_partial",
    "C75_assign_result",
    "C75_assign_type",
    "C75_late_brackets_refuted",
    "C75_bool_field_refuted",
    "C75_alias_refuted"
   ],
   "note": "All chains and registrations of plain types without bool fields, brackets before the first field or method; accepted chains take exactly the steps of the members registered, chains whose steps can be taken are accepted, the others are refused with an error, never undefined; assigning to results and to other types is an error. Brackets after a field, bool fields and variables that take a field are refuted."
  },
  {
   "property": "C76",
   "status": "partial",
   "theorems": [
    "C76_shared_partial",
    "C76_usage_partial",
    "C76_stale_refuted"
   ],
   "note": "All interleavings of any number of threads and objects, if no object is created at an address where a thread still has the slot of a destroyed object; usage if no request has failed. Without that condition the use of a deleted Arena is refuted. Steps are atomic at the granularity of the mutex and the slot."
  },
  {
   "property": "C77",
   "status": "partial",
   "theorems": [
    "C77_unary_kernel",
    "C77_binary_kernel",
    "C77_ternary_kernel",
    "C77_one_operand",
    "C77_round",
    "C77_round_refuted",
    "C77_unit_partial",
    "C77_clamp_partial",
    "C77_clamp_crossed_refuted",
    "C77_clamp_nan_refuted",
    "C77_fma_partial",
    "C77_fma_exact_partial",
    "C77_fma_value",
    "C77_fused_refuted",
    "C77_abs_diff",
    "C77_clamp_int",
    "C77_fma_int",
    "C77_coverage_refuted",
    "C77_calls_partial",
    "C77_scalar_first_refuted",
    "C77_scalar_first_fma_refuted"
   ],
   "note": "Kernels are element-wise for every register width. One operand: equal on all values except round of halfway cases (exact characterisation; refuted there). clamp: same number when the bounds are in order and nothing is NaN; refuted otherwise. fma family: equal if both round once or twice, or if the product is exact; refuted otherwise. Integers: complete. Types accepted: exact lists of the differences (refuted). Choice of the implementation independent of other calls if the first argument is a vector; refuted otherwise. Transcendental functions are not modelled (no exact meaning is documented)."
  },
  {
   "property": "C78",
   "status": "partial",
   "theorems": [
    "C78_path",
    "C78_path_only",
    "C78_path_kind",
    "C78_path_missing_refuted",
    "C78_std_key_refuted",
    "C78_compare_partial",
    "C78_compare_rounded",
    "C78_compare_rounds_refuted",
    "C78_compare_wraps_refuted",
    "C78_compare_truncates_refuted",
    "C78_compare_truncated",
    "C78_compare_range_refuted",
    "C78_compare_kind",
    "C78_compare_bool_number_refuted",
    "C78_compare_string_partial",
    "C78_compare_string_kind",
    "C78_compare_bool_refuted",
    "C78_compare_documents_refuted",
    "C78_compare_defined",
    "C78_compare_undefined_refuted",
    "C78_compare_other_kinds",
    "C78_arithmetic",
    "C78_return_refuted",
    "C78_return_partial",
    "C78_return_bool",
    "C78_return_string",
    "C78_return_refused"
   ],
   "note": "Accesses: complete for existing paths, converse, wrong kinds; missing members and indices outside are undefined behaviour (refuted). Comparisons: exact for numbers representable in the type compared with; exact account of rounding and truncation otherwise (refuted: wrap, truncation, rounding, true == 1, undefined conversion). Strings below 2^31 bytes. Comparisons with booleans and between documents pass the checks and fail later (refuted); so do return conversions unless a comparison declared the function (refuted, positive part beside, for numbers, bool and strings). Every comparison is an answer or an error except of a real outside the integer type compared with. nlohmann::json by contract."
  },
  {
   "property": "C79",
   "status": "partial",
   "theorems": [
    "C79_each_operation_is_rounded_once",
    "C79_comparison",
    "C79_integer_equals_its_rounding_refuted",
    "C79_always_a_value",
    "C79_overflow",
    "C79_division_by_zero",
    "C79_remainder_by_zero",
    "C79_remainder_of_a_multiple",
    "C79_extremum_of_zeros",
    "C79_whole_numbers_keep_the_sign",
    "C79_root_of_a_negative",
    "C79_fma_with_infinity",
    "C79_fma_with_nan",
    "C79_nan_spreads",
    "C79_no_integer_for_the_result_refuted",
    "C79_no_integer_for_nan_refuted",
    "C79_pi_and_e",
    "C79_numbers_of_the_types",
    "C79_rounding_is_to_nearest",
    "C79_wide_integer_in_narrow_float_refuted"
   ],
   "note": "Complete for the expressions listed, with literals as the tokens they stand for (C33, C37); pi and e included (each the nearest double of its number); remainder, maximum, minimum, floor, ceil, trunc, round and rint of floating numbers are exact, sqrt and fma rounded once; power and the transcendental functions are left out (no exact meaning is documented). LLVM floating instructions by the Language Reference, with the fast_math option off (codegen.cc:93, the default). Refuted: integers and floating numbers compare after the integer has been rounded, so they compare wrongly for every integer the floating type does not have, in particular 64-bit integers in 32-bit floats; returning a floating number outside an integer result type, or NaN, is undefined."
  },
  {
   "property": "C80",
   "status": "partial",
   "theorems": [
    "C80_functions_named_like_registered_ones_refuted",
    "C80_well_typed_functions_are_accepted",
    "C80_accepted_iff_well_typed_partial",
    "C80_accepted_functions_run",
    "C80_compiling_never_crashes_partial",
    "C80_sources_partial",
    "C80_accepted_sources_run",
    "C80_result_types_of_later_functions_refuted",
    "C80_branches_of_different_types_refuted",
    "C80_variable_in_its_initialiser_refuted",
    "C80_void_operand_refuted",
    "C80_number_of_operands_refuted",
    "C80_negative_long_double_refuted"
   ],
   "note": "Well-typed functions are accepted: complete for scalar functions. Partial: the converse leaves out ?: with branches of different types; freedom from crashes assumes that no callable function returns void, that literals fit their types, and no declaration in its own initialiser; several functions in a source with one result type. Refuted: order of the branches of ?:, auto x = x + 1 and void operands (undefined), number of operands of sqrt, max etc., negative long double, results of functions after the first."
  },
  {
   "property": "C81",
   "status": "partial",
   "theorems": [
    "C81_answers_do_not_depend_on_history_partial",
    "C81_sources",
    "C81_functions_without_calls",
    "C81_after_a_source_of_several_functions_refuted"
   ],
   "note": "Complete for histories in which every source has at most one function, for sources as the next request, and for functions that call at most themselves; scalar functions only. Refuted for histories with a source of several functions: the cursor of the parse context is not reset, so library and registered functions used afterwards are not declared and the function is refused."
  },
  {
   "property": "C82",
   "status": "partial",
   "theorems": [
    "C82_calls_do_what_the_source_says",
    "C82_no_result_without_a_reason",
    "C82_recursion_inside_an_expression_refuted"
   ],
   "note": "Returned values and effects, both directions, for scalar functions as in C41 whose names are not those of registered functions. Not stated: that an undefined operation of the source is undefined in the code when a callee does not return (calls are made before deferred operators). Found: a recursive call inside ?:, && or || is always made, so such functions never return."
  },
  {
   "property": "C83",
   "status": "partial",
   "theorems": [
    "C83_what_is_undefined",
    "C83_reading_changes_nothing",
    "C83_setting_a_number",
    "C83_setting_a_string",
    "C83_maps",
    "C83_elements",
    "C83_find",
    "C83_flatbuffers_vectors",
    "C83_null",
    "C83_null_string_setter_refuted",
    "C83_index_outside_refuted",
    "C83_unset_sub_messages_refuted"
   ],
   "note": "Proved: reading, setting, maps, find, FlatBuffers vectors, null pointers, and exactly which calls are undefined. Refuted: an index outside a repeated field and setting a string of a null message are undefined; setting a field of a sub-message that is not set changes the default instance, which all messages share. The generated classes are a documented contract; how long strings that were read stay valid is not modelled."
  },
  {
   "property": "C84",
   "status": "partial",
   "theorems": [
    "C84_accepted_texts_run",
    "C84_texts_are_accepted_partial",
    "C84_accepted_texts_are_programs_partial"
   ],
   "note": "Proved: the code of an accepted text returns exactly what the program of the grammar means, end to end, for scalar functions. Well typed texts of one result type are accepted, and without ?: only these (the exceptions are the refuted theorems of C80). Accepted texts are programs of the grammar, if break and continue have their semicolons (C36). Results only: runs that do not return are not told apart."
  },
  {
   "property": "C85",
   "status": "partial",
   "theorems": [
    "C85_ranges_are_apart_inside_and_aligned",
    "C85_requests_are_met_or_change_nothing",
    "C85_usage_is_exact",
    "C85_little_is_wasted",
    "C85_blocks_are_deleted_once",
    "C85_huge_aligned_requests_refuted"
   ],
   "note": "Proved for requests of up to 2^63-1 bytes; refuted: an aligned request of nearly 2^64 bytes wraps around and returns a few bytes."
  },
  {
   "property": "C86",
   "status": "partial",
   "theorems": [
    "C86_life_of_a_pool",
    "C86_objects_are_destroyed_once",
    "C86_no_undefined_behaviour",
    "C86_elements_of_arena_vectors_partial",
    "C86_memory_of_vectors",
    "C86_elements_of_other_vectors_refuted"
   ],
   "note": "Proved for pools and for vectors with an arena; refuted: a default constructed vector never destroys its elements (its memory is returned)."
  },
  {
   "property": "C87",
   "status": "partial",
   "theorems": [
    "C87_columns_of_protobuf_messages",
    "C87_columns_of_flatbuffers_tables",
    "C87_columns_of_structs",
    "C87_protobuf_values",
    "C87_repeated_protobuf_fields_partial",
    "C87_repeated_protobuf_fields_refuted",
    "C87_flatbuffers_values_partial",
    "C87_flatbuffers_defaults",
    "C87_flatbuffers_defaults_refuted",
    "C87_flatbuffers_missing_strings_refuted",
    "C87_struct_values_partial",
    "C87_struct_values_refuted"
   ],
   "note": "Columns and types for all definitions; values of singular protobuf fields, of FlatBuffers fields that are stored and of the struct members listed as kept; refuted: repeated protobuf fields dangle, FlatBuffers defaults are read as 0 and missing strings and vectors are undefined behaviour, several kinds of struct members lose their values."
  },
  {
   "property": "C88",
   "status": "partial",
   "theorems": [
    "C88_strings_are_values_in_an_arena",
    "C88_strings_stay_in_their_arena_partial",
    "C88_moved_into_an_arena_refuted",
    "C88_assigned_strings_refuted",
    "C88_the_arena_of_a_long_text"
   ],
   "note": "Values and no undefined step for all programs, with strings in the arena of the string they were given the text of; staying in the own arena for programs that move and assign within one arena; refuted for construction from a moved string of another arena and for assignment between arenas. std::basic_string is the one of libstdc++, by contract."
  },
  {
   "property": "C89",
   "status": "partial",
   "theorems": [
    "C89_normal_return_means_all_done",
    "C89_nothing_throws",
    "C89_exceptions_reach_the_caller_partial",
    "C89_exceptions_reach_the_caller_refuted",
    "C89_no_use_after_leaving_partial",
    "C89_no_use_after_leaving_refuted",
    "C89_first_sub_range_not_taken"
   ],
   "note": "Normal return means all done, whatever throws; exceptions reach the caller when the loop runs on the calling thread; refuted with more workers: the process ends (boost threads) or Run waits for ever (an executor that catches); an executor that throws for a later sub-range leaves threads using the destroyed barrier."
  },
  {
   "property": "C90",
   "status": "partial",
   "theorems": [
    "C90_history_partial",
    "C90_field_partial",
    "C90_unknown_field",
    "C90_bool_refuted",
    "C90_chain_partial",
    "C90_accepted_partial",
    "C90_columns",
    "C90_other_columns_refuted",
    "C90_group_by_refuted",
    "C90_order_by_refuted",
    "C90_other_schema_refuted",
    "C90_never_undefined",
    "C90_error_iff_partial"
   ],
   "note": "Reads, assignments, histories, and chains (taken exactly when their steps can be, refused with an error otherwise, never undefined), without bool and long double fields and within the limits of C75; refuted: bool fields (value is a pointer), objects of another schema, group_by and order_by by name in UDFs, columns of types without get_column."
  },
  {
   "property": "C91",
   "status": "partial",
   "theorems": [
    "C91_history_is_defined_partial",
    "C91_loaded_column_has_the_rows_partial",
    "C91_loading_writes_nowhere_else",
    "C91_memory_is_returned_once",
    "C91_empty_column",
    "C91_set_column_has_the_elements",
    "C91_read_vector_changes_refuted",
    "C91_read_vector_dangles_refuted",
    "C91_set_to_itself_refuted",
    "C91_readonly_vector_is_overwritten_refuted"
   ],
   "note": "Proved for every history in which Set is given vectors in the memory of the user (which stays), one column, fields as bytes. Refuted: a vector read from a column is overwritten by the next load, or left in deleted memory if that needs more bytes; Set of a column to its own vector deletes the elements; loading overwrites a read-only vector of the user that the column was Set to."
  }
 ]
}