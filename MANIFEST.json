{
 "claims": [
  {
   "property": "C01",
   "status": "proved",
   "theorems": [
    "C01_box_unbox",
    "C01_box_wraps",
    "C01_box_injective",
    "C01_unbox_box"
   ],
   "note": ""
  },
  {
   "property": "C02",
   "status": "proved",
   "theorems": [
    "C02_bool_test_exact",
    "C02_kinds_disjoint",
    "C02_type_reports_kind",
    "C02_type_of_moved_object",
    "C02_resolve_moved_object",
    "C02_ptr_and_int_tests_exact",
    "C02_bool_test_exact_refuted"
   ],
   "note": "The statement describes the actual behaviour, including where it falls short of what one would expect; the shortfalls are proved too, as refutations of the stronger claims: C02_bool_test_exact_refuted."
  },
  {
   "property": "C03",
   "status": "proved",
   "theorems": [
    "C03_only_nil_and_false_are_falsy",
    "C03_integers_truthy",
    "C03_not"
   ],
   "note": ""
  },
  {
   "property": "C04",
   "status": "proved",
   "theorems": [
    "C04_vm_add_sub_mul_exact_or_promote",
    "C04_vm_result_never_wrapped"
   ],
   "note": ""
  },
  {
   "property": "C05",
   "status": "proved",
   "theorems": [
    "C05_send_exact_in_range",
    "C05_send_add_exact_refuted",
    "C05_send_mul_defined_refuted",
    "C05_send_exact",
    "C05_send_agrees_with_operator_iff"
   ],
   "note": "The statement describes the actual behaviour, including where it falls short of what one would expect; the shortfalls are proved too, as refutations of the stronger claims: C05_send_add_exact_refuted, C05_send_mul_defined_refuted."
  },
  {
   "property": "C06",
   "status": "proved",
   "theorems": [
    "C06_div_rem",
    "C06_div_exact_refuted",
    "C06_div_by_zero_refuted",
    "C06_div_rem_exact"
   ],
   "note": "The statement describes the actual behaviour, including where it falls short of what one would expect; the shortfalls are proved too, as refutations of the stronger claims: C06_div_by_zero_refuted, C06_div_exact_refuted."
  },
  {
   "property": "C07",
   "status": "proved",
   "theorems": [
    "C07_order_same_sign",
    "C07_order_mixed_sign_refuted",
    "C07_equality",
    "C07_cmp_method",
    "C07_cmp_operator",
    "C07_cmp_operator_sign_refuted",
    "C07_order_exact",
    "C07_order_right_iff_same_sign",
    "C07_cmp_operator_exact"
   ],
   "note": "The statement describes the actual behaviour, including where it falls short of what one would expect; the shortfalls are proved too, as refutations of the stronger claims: C07_cmp_operator_sign_refuted, C07_order_mixed_sign_refuted."
  },
  {
   "property": "C08",
   "status": "proved",
   "theorems": [
    "C08_times",
    "C08_to",
    "C08_step_positive",
    "C08_step_zero_refuted",
    "C08_to_full_range",
    "C08_step_negative"
   ],
   "note": "The statement describes the actual behaviour, including where it falls short of what one would expect; the shortfalls are proved too, as refutations of the stronger claims: C08_step_zero_refuted."
  },
  {
   "property": "C09",
   "status": "proved",
   "theorems": [
    "C09_literal_roundtrip",
    "C09_big_literal_refuted",
    "C09_string_number_roundtrip",
    "C09_string_number_refuted",
    "C09_signed_digits",
    "C09_hex_literal_value",
    "C09_digits_exact"
   ],
   "note": "The statement describes the actual behaviour, including where it falls short of what one would expect; the shortfalls are proved too, as refutations of the stronger claims: C09_big_literal_refuted, C09_string_number_refuted."
  },
  {
   "property": "C10",
   "status": "proved",
   "theorems": [
    "C10_history_general",
    "C10_tuple_is_a_list",
    "C10_pop_empty_in_bounds_refuted",
    "C10_shift_in_bounds_refuted",
    "C10_push_on_zero_capacity_refuted",
    "C10_take_from_empty"
   ],
   "note": "The statement describes the actual behaviour, including where it falls short of what one would expect; the shortfalls are proved too, as refutations of the stronger claims: C10_pop_empty_in_bounds_refuted, C10_push_on_zero_capacity_refuted, C10_shift_in_bounds_refuted."
  },
  {
   "property": "C11",
   "status": "proved",
   "theorems": [
    "C11_at",
    "C11_put",
    "C11_at_negative_refuted",
    "C11_put_negative_refuted",
    "C11_at_exact",
    "C11_put_exact"
   ],
   "note": "The statement describes the actual behaviour, including where it falls short of what one would expect; the shortfalls are proved too, as refutations of the stronger claims: C11_at_negative_refuted, C11_put_negative_refuted."
  },
  {
   "property": "C12",
   "status": "proved",
   "theorems": [
    "C12_delete",
    "C12_remove",
    "C12_absent_index_refuted",
    "C12_delete_exact",
    "C12_remove_exact"
   ],
   "note": "The statement describes the actual behaviour, including where it falls short of what one would expect; the shortfalls are proved too, as refutations of the stronger claims: C12_absent_index_refuted."
  },
  {
   "property": "C13",
   "status": "proved",
   "theorems": [
    "C13_slice",
    "C13_slice_overshoot",
    "C13_slice_to_end",
    "C13_overshoot_refuted",
    "C13_negative_start_refuted",
    "C13_slice_exact",
    "C13_slice_to_end_exact"
   ],
   "note": "The statement describes the actual behaviour, including where it falls short of what one would expect; the shortfalls are proved too, as refutations of the stronger claims: C13_negative_start_refuted, C13_overshoot_refuted."
  },
  {
   "property": "C14",
   "status": "proved",
   "theorems": [
    "C14_reverse",
    "C14_nreverse",
    "C14_involution_and_multiset",
    "C14_nreverse_twice"
   ],
   "note": ""
  },
  {
   "property": "C15",
   "status": "proved",
   "theorems": [
    "C15_each",
    "C15_map",
    "C15_filter",
    "C15_filter_pure",
    "C15_reduce",
    "C15_find",
    "C15_push_unless",
    "C15_first_last"
   ],
   "note": ""
  },
  {
   "property": "C16",
   "status": "proved",
   "theorems": [
    "C16_bsearch",
    "C16_bsearch_empty_refuted"
   ],
   "note": "The statement describes the actual behaviour, including where it falls short of what one would expect; the shortfalls are proved too, as refutations of the stronger claims: C16_bsearch_empty_refuted."
  },
  {
   "property": "C17",
   "status": "proved",
   "theorems": [
    "C17_sort_permutation",
    "C17_ins_sort_permutation",
    "C17_sort_empty_refuted"
   ],
   "note": "The statement describes the actual behaviour, including where it falls short of what one would expect; the shortfalls are proved too, as refutations of the stronger claims: C17_sort_empty_refuted."
  },
  {
   "property": "C18",
   "status": "proved",
   "theorems": [
    "C18_sort_true_false_by_word",
    "C18_ins_sort_true_false_by_word",
    "C18_sort_ints_same_sign",
    "C18_ins_sort_block_small",
    "C18_sort_block_descending",
    "C18_ins_sort_block_big",
    "C18_sort_mixed_sign_refuted",
    "C18_sort_default_refuted",
    "C18_ins_sort_direction_refuted",
    "C18_sort_ints_exact",
    "C18_word_order_is_the_integer_order_iff",
    "C18_ins_sort_default_small"
   ],
   "note": "The statement describes the actual behaviour, including where it falls short of what one would expect; the shortfalls are proved too, as refutations of the stronger claims: C18_ins_sort_direction_refuted, C18_sort_default_refuted, C18_sort_mixed_sign_refuted."
  },
  {
   "property": "C19",
   "status": "proved",
   "theorems": [
    "C19_table_is_a_finite_map",
    "C19_read_after_put",
    "C19_read_after_remove",
    "C19_other_keys_unaffected"
   ],
   "note": ""
  },
  {
   "property": "C20",
   "status": "proved",
   "theorems": [
    "C20_enumeration",
    "C20_each_runs_the_block_once_per_entry",
    "C20_map"
   ],
   "note": ""
  },
  {
   "property": "C21",
   "status": "proved",
   "theorems": [
    "C21_probing_terminates"
   ],
   "note": ""
  },
  {
   "property": "C22",
   "status": "proved",
   "theorems": [
    "C22_clone_has_the_same_mapping",
    "C22_clone_is_independent",
    "C22_slice_keeps_exactly_the_listed_keys"
   ],
   "note": ""
  },
  {
   "property": "C23",
   "status": "proved",
   "theorems": [
    "C23_filter_keeps_a_rejected_entry_refuted",
    "C23_filter_loses_an_accepted_entry_refuted",
    "C23_filter_exactly",
    "C23_filter_when_layout_is_kept",
    "C23_filter_out_of_bounds_refuted"
   ],
   "note": "The statement describes the actual behaviour, including where it falls short of what one would expect; the shortfalls are proved too, as refutations of the stronger claims: C23_filter_keeps_a_rejected_entry_refuted, C23_filter_loses_an_accepted_entry_refuted, C23_filter_out_of_bounds_refuted."
  },
  {
   "property": "C24",
   "status": "proved",
   "theorems": [
    "C24_storage_is_disjoint_and_inside",
    "C24_growing_keeps_offsets",
    "C24_flag_bits_are_independent",
    "C24_iseither_is_the_disjunction",
    "C24_fresh_flags_are_empty"
   ],
   "note": ""
  },
  {
   "property": "C25",
   "status": "proved",
   "theorems": [
    "C25_cast_maps_each_index_to_its_element",
    "C25_set_on_a_tuple_adds_the_entry"
   ],
   "note": ""
  },
  {
   "property": "C26",
   "status": "proved",
   "theorems": [
    "C26_minor_collection_forgets_live_strings_refuted",
    "C26_interning_is_canonical",
    "C26_embedded_nul_refuted",
    "C26_format_is_not_interned_refuted",
    "C26_same_object_iff_same_content",
    "C26_forgotten_string_is_made_anew",
    "C26_hash_reads_the_string"
   ],
   "note": "The statement describes the actual behaviour, including where it falls short of what one would expect; the shortfalls are proved too, as refutations of the stronger claims: C26_embedded_nul_refuted, C26_format_is_not_interned_refuted, C26_minor_collection_forgets_live_strings_refuted."
  },
  {
   "property": "C27",
   "status": "proved",
   "theorems": [
    "C27_counter_counts_non_continuation_bytes",
    "C27_length_is_the_number_of_code_points"
   ],
   "note": ""
  },
  {
   "property": "C28",
   "status": "proved",
   "theorems": [
    "C28_at_is_the_code_point",
    "C28_slice_is_the_sub_text",
    "C28_slice_without_end",
    "C28_slice_end_before_start_refuted",
    "C28_slice_mixed_signs_refuted",
    "C28_slice_negative_start_refuted",
    "C28_at_end_reads_past_the_string_refuted",
    "C28_slice_exact",
    "C28_slice_without_end_exact"
   ],
   "note": "The statement describes the actual behaviour, including where it falls short of what one would expect; the shortfalls are proved too, as refutations of the stronger claims: C28_at_end_reads_past_the_string_refuted, C28_slice_end_before_start_refuted, C28_slice_mixed_signs_refuted, C28_slice_negative_start_refuted."
  },
  {
   "property": "C29",
   "status": "proved",
   "theorems": [
    "C29_escape_U_encodes",
    "C29_escape_u_encodes",
    "C29_escape_rejects_non_scalars",
    "C29_escape_boundaries_refuted",
    "C29_escape_exact"
   ],
   "note": "The statement describes the actual behaviour, including where it falls short of what one would expect; the shortfalls are proved too, as refutations of the stronger claims: C29_escape_boundaries_refuted."
  },
  {
   "property": "C30",
   "status": "proved",
   "theorems": [
    "C30_buffers_hold_what_was_written"
   ],
   "note": ""
  },
  {
   "property": "C31",
   "status": "proved",
   "theorems": [
    "C31_clone_copies_the_sizes_only",
    "C31_clone_does_not_copy_refuted"
   ],
   "note": "The statement describes the actual behaviour, including where it falls short of what one would expect; the shortfalls are proved too, as refutations of the stronger claims: C31_clone_does_not_copy_refuted."
  },
  {
   "property": "C32",
   "status": "proved",
   "theorems": [
    "C32_encode_decode",
    "C32_encode_injective",
    "C32_encode_bytes",
    "C32_truncation",
    "C32_out_of_range_refuted"
   ],
   "note": "The statement describes the actual behaviour, including where it falls short of what one would expect; the shortfalls are proved too, as refutations of the stronger claims: C32_out_of_range_refuted."
  },
  {
   "property": "C33",
   "status": "proved",
   "theorems": [
    "C33_roundtrip",
    "C33_roundtrip_no_floats",
    "C33_large_function_refuted",
    "C33_many_constants_refuted",
    "C33_float_runs_on_refuted",
    "C33_other_constant_refuted"
   ],
   "note": "The statement describes the actual behaviour, including where it falls short of what one would expect; the shortfalls are proved too, as refutations of the stronger claims: C33_float_runs_on_refuted, C33_large_function_refuted, C33_many_constants_refuted, C33_other_constant_refuted."
  },
  {
   "property": "C34",
   "status": "proved",
   "theorems": [
    "C34_reject",
    "C34_accept",
    "C34_dumps_accepted",
    "C34_version_refuted",
    "C34_truncated_refuted"
   ],
   "note": "The statement describes the actual behaviour, including where it falls short of what one would expect; the shortfalls are proved too, as refutations of the stronger claims: C34_truncated_refuted, C34_version_refuted."
  },
  {
   "property": "C35",
   "status": "proved",
   "theorems": [
    "C35_operations_succeed",
    "C35_dispatch_nearest",
    "C35_definition_effect",
    "C35_value_method",
    "C35_delegated_refuted",
    "C35_can",
    "C35_function_method"
   ],
   "note": "The statement describes the actual behaviour, including where it falls short of what one would expect; the shortfalls are proved too, as refutations of the stronger claims: C35_delegated_refuted."
  },
  {
   "property": "C36",
   "status": "proved",
   "theorems": [
    "C36_layout_of_class",
    "C36_new_class",
    "C36_inherits",
    "C36_duplicates_refuted"
   ],
   "note": "The statement describes the actual behaviour, including where it falls short of what one would expect; the shortfalls are proved too, as refutations of the stronger claims: C36_duplicates_refuted."
  },
  {
   "property": "C37",
   "status": "proved",
   "theorems": [
    "C37_read",
    "C37_undeclared",
    "C37_store",
    "C37_fresh",
    "C37_history",
    "C37_interpreted_refuted"
   ],
   "note": "The statement describes the actual behaviour, including where it falls short of what one would expect; the shortfalls are proved too, as refutations of the stronger claims: C37_interpreted_refuted."
  },
  {
   "property": "C38",
   "status": "proved",
   "theorems": [
    "C38_arity",
    "C38_minargs",
    "C38_names",
    "C38_accepts",
    "C38_empty_call_refuted",
    "C38_defaults",
    "C38_untyped_optional_refuted",
    "C38_colon_default_refuted",
    "C38_named",
    "C38_named_refuted",
    "C38_compiled",
    "C38_compiled_refuted"
   ],
   "note": "The statement describes the actual behaviour, including where it falls short of what one would expect; the shortfalls are proved too, as refutations of the stronger claims: C38_colon_default_refuted, C38_compiled_refuted, C38_empty_call_refuted, C38_named_refuted, C38_untyped_optional_refuted."
  },
  {
   "property": "C39",
   "status": "proved",
   "theorems": [
    "C39_minor_collection_has_room",
    "C39_minor_collection_preserves_the_reachable_graph",
    "C39_major_collection_preserves_the_reachable_graph",
    "C39_collections_succeed_in_every_history"
   ],
   "note": ""
  },
  {
   "property": "C40",
   "status": "proved",
   "theorems": [
    "C40_blocks_are_aligned_disjoint_and_in_the_nursery",
    "C40_block_after_a_collection_is_in_the_new_nursery",
    "C40_huge_request_runs_past_the_nursery_refuted",
    "C40_request_of_2_gigabytes_moves_backwards_refuted"
   ],
   "note": "The statement describes the actual behaviour, including where it falls short of what one would expect; the shortfalls are proved too, as refutations of the stronger claims: C40_huge_request_runs_past_the_nursery_refuted, C40_request_of_2_gigabytes_moves_backwards_refuted."
  },
  {
   "property": "C41",
   "status": "proved",
   "theorems": [
    "C41_growth_is_transparent",
    "C41_any_number_of_growths"
   ],
   "note": ""
  },
  {
   "property": "C42",
   "status": "proved",
   "theorems": [
    "C42_old_objects_with_young_references_are_listed"
   ],
   "note": ""
  },
  {
   "property": "C43",
   "status": "proved",
   "theorems": [
    "C43_copied_size_is_the_block",
    "C43_error_objects_are_cut_refuted",
    "C43_continuations_are_cut_refuted",
    "C43_allocate_is_overread_refuted",
    "C43_instances_of_a_grown_class_are_overread_refuted",
    "C43_instances"
   ],
   "note": "The statement describes the actual behaviour, including where it falls short of what one would expect; the shortfalls are proved too, as refutations of the stronger claims: C43_allocate_is_overread_refuted, C43_continuations_are_cut_refuted, C43_error_objects_are_cut_refuted, C43_instances_of_a_grown_class_are_overread_refuted."
  },
  {
   "property": "C44",
   "status": "proved",
   "theorems": [
    "C44_sequence_exists",
    "C44_follows_recurrence",
    "C44_unseeded",
    "C44_deterministic",
    "C44_range",
    "C44_number_rand_refuted"
   ],
   "note": "The statement describes the actual behaviour, including where it falls short of what one would expect; the shortfalls are proved too, as refutations of the stronger claims: C44_number_rand_refuted."
  },
  {
   "property": "C45",
   "status": "proved",
   "theorems": [
    "C45_straight_line_programs",
    "C45_large_index_refuted"
   ],
   "note": "The statement describes the actual behaviour, including where it falls short of what one would expect; the shortfall is proved too, as a refutation of the stronger claim: C45_large_index_refuted."
  },
  {
   "property": "C46",
   "status": "proved",
   "theorems": [
    "C46_control_flow",
    "C46_code_is_well_formed",
    "C46_else_after_nested_if_refuted",
    "C46_long_jump_refuted",
    "C46_every_program_compiles",
    "C46_many_breaks_refuted"
   ],
   "note": "The statement describes the actual behaviour, including where it falls short of what one would expect; the shortfalls are proved too, as refutations of the stronger claims: C46_else_after_nested_if_refuted, C46_long_jump_refuted, C46_many_breaks_refuted."
  },
  {
   "property": "C47",
   "status": "proved",
   "theorems": [
    "C47_programs_with_functions",
    "C47_fresh_locals_refuted",
    "C47_deep_recursion_refuted",
    "C47_captured_index_refuted",
    "C47_default_arguments_refuted",
    "C47_compile_and_run"
   ],
   "note": "The statement describes the actual behaviour, including where it falls short of what one would expect; the shortfalls are proved too, as refutations of the stronger claims: C47_deep_recursion_refuted, C47_default_arguments_refuted, C47_fresh_locals_refuted, C47_captured_index_refuted."
  },
  {
   "property": "C48",
   "status": "proved",
   "theorems": [
    "C48_literal_exact",
    "C48_inline_iff",
    "C48_inline_immediates",
    "C48_large_table_refuted"
   ],
   "note": "The statement describes the actual behaviour, including where it falls short of what one would expect; the shortfalls are proved too, as refutations of the stronger claims: C48_large_table_refuted."
  },
  {
   "property": "C49",
   "status": "proved",
   "theorems": [
    "C49_emissions",
    "C49_reuse",
    "C49_instructions",
    "C49_patch_b",
    "C49_patch_a"
   ],
   "note": ""
  },
  {
   "property": "C50",
   "status": "proved",
   "theorems": [
    "C50_complement",
    "C50_shift_right",
    "C50_shift_left_in_range",
    "C50_shift_count_refuted",
    "C50_shift_left_exact"
   ],
   "note": "The statement describes the actual behaviour, including where it falls short of what one would expect; the shortfalls are proved too, as refutations of the stronger claims: C50_shift_count_refuted."
  },
  {
   "property": "C51",
   "status": "proved",
   "theorems": [
    "C51_abs",
    "C51_abs_nonnegative_refuted",
    "C51_abs_exact"
   ],
   "note": "The statement describes the actual behaviour, including where it falls short of what one would expect; the shortfalls are proved too, as refutations of the stronger claims: C51_abs_nonnegative_refuted."
  },
  {
   "property": "C53",
   "status": "proved",
   "theorems": [
    "C53_ord_of_the_last_character",
    "C53_ord_of_one_character",
    "C53_ord_of_short_ascii",
    "C53_ord_of_longer_text_refuted",
    "C53_ord_negative_refuted"
   ],
   "note": "The statement describes the actual behaviour, including where it falls short of what one would expect; the shortfalls are proved too, as refutations of the stronger claims: C53_ord_negative_refuted, C53_ord_of_longer_text_refuted."
  },
  {
   "property": "C54",
   "status": "proved",
   "theorems": [
    "C54_byte_access_is_bounds_checked"
   ],
   "note": ""
  },
  {
   "property": "C55",
   "status": "proved",
   "theorems": [
    "C55_reading_exponents",
    "C55_text_and_reading_exact",
    "C55_roundtrip_whenever_it_fits",
    "C55_roundtrip",
    "C55_small_refuted",
    "C55_large_refuted",
    "C55_length_ignored_refuted",
    "C55_ties_print_even"
   ],
   "note": "The statement describes the actual behaviour, including where it falls short of what one would expect; the shortfalls are proved too, as refutations of the stronger claims: C55_large_refuted, C55_length_ignored_refuted, C55_small_refuted."
  },
  {
   "property": "C56",
   "status": "proved",
   "theorems": [
    "C56_generated_lookup",
    "C56_every_field_found",
    "C56_collision_refuted"
   ],
   "note": "The statement describes the actual behaviour, including where it falls short of what one would expect; the shortfalls are proved too, as refutations of the stronger claims: C56_collision_refuted."
  },
  {
   "property": "C57",
   "status": "proved",
   "theorems": [
    "C57_isa",
    "C57_subclass",
    "C57_immediate_refuted",
    "C57_kind",
    "C57_builtin_hierarchy"
   ],
   "note": "The statement describes the actual behaviour, including where it falls short of what one would expect; the shortfalls are proved too, as refutations of the stronger claims: C57_immediate_refuted."
  },
  {
   "property": "C52",
   "status": "proved",
   "theorems": [
    "C52_lookup_survives_a_collection",
    "C52_a_key_that_grows_is_lost_refuted"
   ],
   "note": "The statement describes the actual behaviour, including where it falls short of what one would expect; the shortfalls are proved too, as refutations of the stronger claims: C52_a_key_that_grows_is_lost_refuted."
  },
  {
   "property": "C58",
   "status": "proved",
   "theorems": [
    "C58_put_announces_the_stub_refuted",
    "C58_put_through_a_stub_dangles_refuted",
    "C58_put_on_the_tuple_itself",
    "C58_put_lists_the_object_it_is_given"
   ],
   "note": "The statement describes the actual behaviour, including where it falls short of what one would expect; the shortfalls are proved too, as refutations of the stronger claims: C58_put_announces_the_stub_refuted, C58_put_through_a_stub_dangles_refuted."
  },
  {
   "property": "C59",
   "status": "proved",
   "theorems": [
    "C59_limit",
    "C59_same_result",
    "C59_source_to_machine",
    "C59_integers_exact",
    "C59_division_refuted",
    "C59_comparison_refuted",
    "C59_overflow_refuted",
    "C59_wide_register_refuted",
    "C59_call_register_refuted",
    "C59_unset_variable_refuted"
   ],
   "note": "The statement describes the actual behaviour, including where it falls short of what one would expect; the shortfalls are proved too, as refutations of the stronger claims: C59_division_refuted, C59_comparison_refuted, C59_overflow_refuted, C59_wide_register_refuted, C59_call_register_refuted, C59_unset_variable_refuted."
  },
  {
   "property": "C60",
   "status": "proved",
   "theorems": [
    "C60_parse_builds_the_tree",
    "C60_whole_text",
    "C60_unambiguous",
    "C60_text_to_value",
    "C60_print_then_parse"
   ],
   "note": ""
  },
  {
   "property": "C61",
   "status": "proved",
   "theorems": [
    "C61_parser_halts",
    "C61_signature_parser_halts",
    "C61_one_answer",
    "C61_any_fuel"
   ],
   "note": ""
  },
  {
   "property": "C62",
   "status": "proved",
   "theorems": [
    "C62_cmp_answers",
    "C62_string_order",
    "C62_strings",
    "C62_integers",
    "C62_tuples_first_only"
   ],
   "note": ""
  },
  {
   "property": "C63",
   "status": "proved",
   "theorems": [
    "C63_tuple_string",
    "C63_licks_string",
    "C63_join",
    "C63_string_reads_back"
   ],
   "note": ""
  },
  {
   "property": "C64",
   "status": "proved",
   "theorems": [
    "C64_buffering_does_not_matter",
    "C64_signature_buffering_does_not_matter",
    "C64_short_program",
    "C64_no_stale_text",
    "C64_long_text_overflows"
   ],
   "note": ""
  },
  {
   "property": "C65",
   "status": "proved",
   "theorems": [
    "C65_here_returns_a_continuation",
    "C65_yield_returns_from_here_again",
    "C65_other_stack_is_refused",
    "C65_registers_of_here_itself_are_saved_refuted"
   ],
   "note": "The statement describes the actual behaviour, including where it falls short of what one would expect; the shortfalls are proved too, as refutations of the stronger claims: C65_registers_of_here_itself_are_saved_refuted."
  },
  {
   "property": "C66",
   "status": "proved",
   "theorems": [
    "C66_first_regular_file",
    "C66_dot_in_the_name_refuted",
    "C66_added_directory_is_last",
    "C66_added_directory_is_searched",
    "C66_by_extension",
    "C66_no_extension_refuted",
    "C66_load",
    "C66_load_with_extension",
    "C66_compiled_file_is_not_run",
    "C66_text_is_run",
    "C66_load_runs_the_program",
    "C66_initializer",
    "C66_initializer_any_directory_refuted",
    "C66_package_file_refuted",
    "C66_plain_file_refuted"
   ],
   "note": "The statement describes the actual behaviour, including where it falls short of what one would expect; the shortfalls are proved too, as refutations of the stronger claims: C66_dot_in_the_name_refuted, C66_no_extension_refuted, C66_package_file_refuted, C66_plain_file_refuted, C66_initializer_any_directory_refuted."
  },
  {
   "property": "C67",
   "status": "proved",
   "theorems": [
    "C67_tree_of_a_program",
    "C67_saved_program_is_the_program",
    "C67_run_the_saved_program"
   ],
   "note": ""
  },
  {
   "property": "C68",
   "status": "proved",
   "theorems": [
    "C68_text_compiles",
    "C68_interpreted",
    "C68_saved_and_loaded",
    "C68_machine_code"
   ],
   "note": ""
  },
  {
   "property": "C69",
   "status": "proved",
   "theorems": [
    "C69_call",
    "C69_required_exact",
    "C69_optional_exact",
    "C69_letters",
    "C69_negative_refuted",
    "C69_old_object_refuted",
    "C69_integer_refuted",
    "C69_receiver_refuted",
    "C69_short_call_refuted",
    "C69_dots_refuted"
   ],
   "note": "The statement describes the actual behaviour, including where it falls short of what one would expect; the shortfalls are proved too, for every function, as refutations of the stronger claims: C69_negative_refuted, C69_old_object_refuted, C69_integer_refuted, C69_receiver_refuted, C69_short_call_refuted, C69_dots_refuted."
  },
  {
   "property": "C70",
   "status": "proved",
   "theorems": [
    "C70_arithmetic",
    "C70_correctly_rounded",
    "C70_promotion",
    "C70_order",
    "C70_nan",
    "C70_order_large_refuted",
    "C70_equal",
    "C70_equal_mixed_refuted",
    "C70_cmp",
    "C70_cmp_nan_refuted",
    "C70_double",
    "C70_integer",
    "C70_integer_refuted",
    "C70_abs",
    "C70_sqrt",
    "C70_rem",
    "C70_rem_whole"
   ],
   "note": "The statement describes the actual behaviour, including where it falls short of what one would expect; the shortfalls are proved too, as refutations of the stronger claims: C70_order_large_refuted, C70_equal_mixed_refuted, C70_cmp_nan_refuted, C70_integer_refuted. Uses the standard library's axioms of the real numbers (listed in DESIGN.md)."
  },
  {
   "property": "C71",
   "status": "proved",
   "theorems": [
    "C71_operator",
    "C71_method",
    "C71_large_refuted",
    "C71_double_refuted"
   ],
   "note": "The statement describes the actual behaviour, including where it falls short of what one would expect; the shortfalls are proved too, as refutations of the stronger claims: C71_large_refuted, C71_double_refuted. The C function pow is a parameter with the stated assumption pow_ok. Uses the standard library's axioms of the real numbers (listed in DESIGN.md)."
  },
  {
   "property": "C72",
   "status": "proved",
   "theorems": [
    "C72_signature_text",
    "C72_one_answer",
    "C72_string_default_refuted",
    "C72_text_arity"
   ],
   "note": "The statement describes the actual behaviour, including where it falls short of what one would expect; the shortfall is proved too, as a refutation of the stronger claim: C72_string_default_refuted."
  },
  {
   "property": "C73",
   "status": "proved",
   "theorems": [
    "C73_read_to_the_end",
    "C73_nil_is_the_end",
    "C73_write_string",
    "C73_close",
    "C73_open",
    "C73_bad_mode",
    "C73_written_is_read_back",
    "C73_append",
    "C73_integer_bytes_refuted",
    "C73_boolean_and_double_bytes",
    "C73_print",
    "C73_buffer_bytes_refuted"
   ],
   "note": "The statement describes the actual behaviour, including where it falls short of what one would expect; the shortfalls are proved too, as refutations of the stronger claims: C73_integer_bytes_refuted, C73_buffer_bytes_refuted."
  },
  {
   "property": "C74",
   "status": "proved",
   "theorems": [
    "C74_lines",
    "C74_one_reading",
    "C74_nul_refuted",
    "C74_env",
    "C74_env_entries",
    "C74_env_without_equals_refuted"
   ],
   "note": "The statement describes the actual behaviour, including where it falls short of what one would expect; the shortfalls are proved too, as refutations of the stronger claims: C74_nul_refuted, C74_env_without_equals_refuted."
  },
  {
   "property": "C75",
   "status": "proved",
   "theorems": [
    "C75_string_is_a_text",
    "C75_read_back",
    "C75_closure_string",
    "C75_not_read_back_refuted"
   ],
   "note": "The statement describes the actual behaviour, including where it falls short of what one would expect; the shortfalls are proved too, as refutations of the stronger claims: C75_not_read_back_refuted."
  },
  {
   "property": "C76",
   "status": "proved",
   "theorems": [
    "C76_shift",
    "C76_right_in_range",
    "C76_wrong_refuted"
   ],
   "note": "The statement describes the actual behaviour, including where it falls short of what one would expect; the shortfalls are proved too, as refutations of the stronger claims: C76_wrong_refuted."
  },
  {
   "property": "C77",
   "status": "proved",
   "theorems": [
    "C77_one_variable",
    "C77_history",
    "C77_shared",
    "C77_separates_refuted",
    "C77_captured_words",
    "C77_first_assignment",
    "C77_memory_met",
    "C77_example"
   ],
   "note": "The statement describes the actual behaviour, including where it falls short of what one would expect; the shortfalls are proved too, as refutations of the stronger claims: C77_separates_refuted."
  },
  {
   "property": "C78",
   "status": "proved",
   "theorems": [
    "C78_script",
    "C78_dashes",
    "C78_code",
    "C78_code_next",
    "C78_no_file",
    "C78_argv",
    "C78_short_refuted",
    "C78_example"
   ],
   "note": "The statement describes the actual behaviour, including where it falls short of what one would expect; the shortfalls are proved too, as refutations of the stronger claims: C78_short_refuted."
  },
  {
   "property": "C79",
   "status": "proved",
   "theorems": [
    "C79_whole_file",
    "C79_beginning",
    "C79_absent",
    "C79_runs",
    "C79_outpath",
    "C79_targets",
    "C79_other_targets",
    "C79_long_name_refuted"
   ],
   "note": "The statement describes the actual behaviour, including where it falls short of what one would expect; the shortfalls are proved too, as refutations of the stronger claims: C79_long_name_refuted."
  },
  {
   "property": "C80",
   "status": "proved",
   "theorems": [
    "C80_call",
    "C80_unknown",
    "C80_compiled",
    "C80_machine",
    "C80_machine_far_refuted",
    "C80_unknown_refuted",
    "C80_default_refuted"
   ],
   "note": "The statement describes the actual behaviour, including where it falls short of what one would expect; the shortfalls are proved too, as refutations of the stronger claims: C80_unknown_refuted, C80_default_refuted."
  },
  {
   "property": "C81",
   "status": "proved",
   "theorems": [
    "C81_concat",
    "C81_exact",
    "C81_associative",
    "C81_empty",
    "C81_same_iff",
    "C81_nul_refuted",
    "C81_not_a_string"
   ],
   "note": "The statement describes the actual behaviour, including where it falls short of what one would expect; the shortfalls are proved too, as refutations of the stronger claims: C81_nul_refuted."
  },
  {
   "property": "C82",
   "status": "proved",
   "theorems": [
    "C82_text",
    "C82_short",
    "C82_long",
    "C82_case",
    "C82_nils_refuted",
    "C82_address_refuted"
   ],
   "note": "The statement describes the actual behaviour, including where it falls short of what one would expect; the shortfalls are proved too, as refutations of the stronger claims: C82_nils_refuted, C82_address_refuted."
  }
 ]
}