{
 "C02": {
  "status": "proved",
  "note": "The statement describes the actual behaviour, including where it falls short of what one would expect; the shortfalls are proved too, as refutations of the stronger claims: C02_bool_test_exact_refuted."
 },
 "C05": {
  "status": "proved",
  "note": "The statement describes the actual behaviour, including where it falls short of what one would expect; the shortfalls are proved too, as refutations of the stronger claims: C05_send_add_exact_refuted, C05_send_mul_defined_refuted."
 },
 "C06": {
  "status": "proved",
  "note": "The statement describes the actual behaviour, including where it falls short of what one would expect; the shortfalls are proved too, as refutations of the stronger claims: C06_div_by_zero_refuted, C06_div_exact_refuted."
 },
 "C07": {
  "status": "proved",
  "note": "The statement describes the actual behaviour, including where it falls short of what one would expect; the shortfalls are proved too, as refutations of the stronger claims: C07_cmp_operator_sign_refuted, C07_order_mixed_sign_refuted."
 },
 "C08": {
  "status": "proved",
  "note": "The statement describes the actual behaviour, including where it falls short of what one would expect; the shortfalls are proved too, as refutations of the stronger claims: C08_step_zero_refuted."
 },
 "C09": {
  "status": "proved",
  "note": "The statement describes the actual behaviour, including where it falls short of what one would expect; the shortfalls are proved too, as refutations of the stronger claims: C09_big_literal_refuted, C09_string_number_refuted."
 },
 "C10": {
  "status": "proved",
  "note": "The statement describes the actual behaviour, including where it falls short of what one would expect; the shortfalls are proved too, as refutations of the stronger claims: C10_pop_empty_in_bounds_refuted, C10_push_on_zero_capacity_refuted, C10_shift_in_bounds_refuted."
 },
 "C11": {
  "status": "proved",
  "note": "The statement describes the actual behaviour, including where it falls short of what one would expect; the shortfalls are proved too, as refutations of the stronger claims: C11_at_negative_refuted, C11_put_negative_refuted."
 },
 "C12": {
  "status": "proved",
  "note": "The statement describes the actual behaviour, including where it falls short of what one would expect; the shortfalls are proved too, as refutations of the stronger claims: C12_absent_index_refuted."
 },
 "C13": {
  "status": "proved",
  "note": "The statement describes the actual behaviour, including where it falls short of what one would expect; the shortfalls are proved too, as refutations of the stronger claims: C13_negative_start_refuted, C13_overshoot_refuted."
 },
 "C16": {
  "status": "proved",
  "note": "The statement describes the actual behaviour, including where it falls short of what one would expect; the shortfalls are proved too, as refutations of the stronger claims: C16_bsearch_empty_refuted."
 },
 "C17": {
  "status": "proved",
  "note": "The statement describes the actual behaviour, including where it falls short of what one would expect; the shortfalls are proved too, as refutations of the stronger claims: C17_sort_empty_refuted."
 },
 "C18": {
  "status": "proved",
  "note": "The statement describes the actual behaviour, including where it falls short of what one would expect; the shortfalls are proved too, as refutations of the stronger claims: C18_ins_sort_direction_refuted, C18_sort_default_refuted, C18_sort_mixed_sign_refuted."
 },
 "C28": {
  "status": "proved",
  "note": "The statement describes the actual behaviour, including where it falls short of what one would expect; the shortfalls are proved too, as refutations of the stronger claims: C28_at_end_reads_past_the_string_refuted, C28_slice_end_before_start_refuted, C28_slice_mixed_signs_refuted, C28_slice_negative_start_refuted."
 },
 "C29": {
  "status": "proved",
  "note": "The statement describes the actual behaviour, including where it falls short of what one would expect; the shortfalls are proved too, as refutations of the stronger claims: C29_escape_boundaries_refuted."
 },
 "C32": {
  "status": "proved",
  "note": "The statement describes the actual behaviour, including where it falls short of what one would expect; the shortfalls are proved too, as refutations of the stronger claims: C32_out_of_range_refuted."
 },
 "C33": {
  "status": "proved",
  "note": "The statement describes the actual behaviour, including where it falls short of what one would expect; the shortfalls are proved too, as refutations of the stronger claims: C33_float_runs_on_refuted, C33_large_function_refuted, C33_many_constants_refuted, C33_other_constant_refuted."
 },
 "C34": {
  "status": "proved",
  "note": "The statement describes the actual behaviour, including where it falls short of what one would expect; the shortfalls are proved too, as refutations of the stronger claims: C34_truncated_refuted, C34_version_refuted."
 },
 "C35": {
  "status": "proved",
  "note": "The statement describes the actual behaviour, including where it falls short of what one would expect; the shortfalls are proved too, as refutations of the stronger claims: C35_delegated_refuted."
 },
 "C36": {
  "status": "proved",
  "note": "The statement describes the actual behaviour, including where it falls short of what one would expect; the shortfalls are proved too, as refutations of the stronger claims: C36_duplicates_refuted."
 },
 "C37": {
  "status": "proved",
  "note": "The statement describes the actual behaviour, including where it falls short of what one would expect; the shortfalls are proved too, as refutations of the stronger claims: C37_interpreted_refuted."
 },
 "C38": {
  "status": "proved",
  "note": "The statement describes the actual behaviour, including where it falls short of what one would expect; the shortfalls are proved too, as refutations of the stronger claims: C38_colon_default_refuted, C38_compiled_refuted, C38_empty_call_refuted, C38_named_refuted, C38_untyped_optional_refuted."
 },
 "C40": {
  "status": "proved",
  "note": "The statement describes the actual behaviour, including where it falls short of what one would expect; the shortfalls are proved too, as refutations of the stronger claims: C40_huge_request_runs_past_the_nursery_refuted, C40_request_of_2_gigabytes_moves_backwards_refuted."
 },
 "C44": {
  "status": "proved",
  "note": "The statement describes the actual behaviour, including where it falls short of what one would expect; the shortfalls are proved too, as refutations of the stronger claims: C44_number_rand_refuted."
 },
 "C46": {
  "status": "proved",
  "note": "The statement describes the actual behaviour, including where it falls short of what one would expect; the shortfalls are proved too, as refutations of the stronger claims: C46_else_after_nested_if_refuted, C46_long_jump_refuted, C46_many_breaks_refuted."
 },
 "C47": {
  "status": "proved",
  "note": "The statement describes the actual behaviour, including where it falls short of what one would expect; the shortfalls are proved too, as refutations of the stronger claims: C47_deep_recursion_refuted, C47_default_arguments_refuted, C47_fresh_locals_refuted, C47_captured_index_refuted."
 },
 "C48": {
  "status": "proved",
  "note": "The statement describes the actual behaviour, including where it falls short of what one would expect; the shortfalls are proved too, as refutations of the stronger claims: C48_large_table_refuted."
 },
 "C50": {
  "status": "proved",
  "note": "The statement describes the actual behaviour, including where it falls short of what one would expect; the shortfalls are proved too, as refutations of the stronger claims: C50_shift_count_refuted."
 },
 "C51": {
  "status": "proved",
  "note": "The statement describes the actual behaviour, including where it falls short of what one would expect; the shortfalls are proved too, as refutations of the stronger claims: C51_abs_nonnegative_refuted."
 },
 "C52": {
  "status": "proved",
  "note": "The statement describes the actual behaviour, including where it falls short of what one would expect; the shortfalls are proved too, as refutations of the stronger claims: C52_a_key_that_grows_is_lost_refuted."
 },
 "C53": {
  "status": "proved",
  "note": "The statement describes the actual behaviour, including where it falls short of what one would expect; the shortfalls are proved too, as refutations of the stronger claims: C53_ord_negative_refuted, C53_ord_of_longer_text_refuted."
 },
 "C56": {
  "status": "proved",
  "note": "The statement describes the actual behaviour, including where it falls short of what one would expect; the shortfalls are proved too, as refutations of the stronger claims: C56_collision_refuted."
 },
 "C57": {
  "status": "proved",
  "note": "The statement describes the actual behaviour, including where it falls short of what one would expect; the shortfalls are proved too, as refutations of the stronger claims: C57_immediate_refuted."
 },
 "C59": {
  "status": "proved",
  "note": "The statement describes the actual behaviour, including where it falls short of what one would expect; the shortfalls are proved too, as refutations of the stronger claims: C59_division_refuted, C59_comparison_refuted, C59_overflow_refuted, C59_wide_register_refuted, C59_call_register_refuted, C59_unset_variable_refuted."
 },
 "C23": {
  "status": "proved",
  "note": "The statement describes the actual behaviour, including where it falls short of what one would expect; the shortfalls are proved too, as refutations of the stronger claims: C23_filter_keeps_a_rejected_entry_refuted, C23_filter_loses_an_accepted_entry_refuted, C23_filter_out_of_bounds_refuted."
 },
 "C26": {
  "status": "proved",
  "note": "The statement describes the actual behaviour, including where it falls short of what one would expect; the shortfalls are proved too, as refutations of the stronger claims: C26_embedded_nul_refuted, C26_format_is_not_interned_refuted, C26_minor_collection_forgets_live_strings_refuted."
 },
 "C31": {
  "status": "proved",
  "note": "The statement describes the actual behaviour, including where it falls short of what one would expect; the shortfalls are proved too, as refutations of the stronger claims: C31_clone_does_not_copy_refuted."
 },
 "C43": {
  "status": "proved",
  "note": "The statement describes the actual behaviour, including where it falls short of what one would expect; the shortfalls are proved too, as refutations of the stronger claims: C43_allocate_is_overread_refuted, C43_continuations_are_cut_refuted, C43_error_objects_are_cut_refuted, C43_instances_of_a_grown_class_are_overread_refuted."
 },
 "C55": {
  "status": "proved",
  "note": "The statement describes the actual behaviour, including where it falls short of what one would expect; the shortfalls are proved too, as refutations of the stronger claims: C55_large_refuted, C55_length_ignored_refuted, C55_small_refuted."
 },
 "C58": {
  "status": "proved",
  "note": "The statement describes the actual behaviour, including where it falls short of what one would expect; the shortfalls are proved too, as refutations of the stronger claims: C58_put_announces_the_stub_refuted, C58_put_through_a_stub_dangles_refuted."
 },
 "C65": {
  "status": "proved",
  "note": "The statement describes the actual behaviour, including where it falls short of what one would expect; the shortfalls are proved too, as refutations of the stronger claims: C65_registers_of_here_itself_are_saved_refuted."
 },
 "C66": {
  "status": "proved",
  "note": "The statement describes the actual behaviour, including where it falls short of what one would expect; the shortfalls are proved too, as refutations of the stronger claims: C66_dot_in_the_name_refuted, C66_no_extension_refuted, C66_package_file_refuted, C66_plain_file_refuted, C66_initializer_any_directory_refuted."
 },
 "C69": {
  "status": "proved",
  "note": "The statement describes the actual behaviour, including where it falls short of what one would expect; the shortfalls are proved too, for every function, as refutations of the stronger claims: C69_negative_refuted, C69_old_object_refuted, C69_integer_refuted, C69_receiver_refuted, C69_short_call_refuted, C69_dots_refuted."
 },
 "C70": {
  "status": "proved",
  "note": "The statement describes the actual behaviour, including where it falls short of what one would expect; the shortfalls are proved too, as refutations of the stronger claims: C70_order_large_refuted, C70_equal_mixed_refuted, C70_cmp_nan_refuted, C70_integer_refuted. Uses the standard library's axioms of the real numbers (listed in DESIGN.md)."
 },
 "C71": {
  "status": "proved",
  "note": "The statement describes the actual behaviour, including where it falls short of what one would expect; the shortfalls are proved too, as refutations of the stronger claims: C71_large_refuted, C71_double_refuted. The C function pow is a parameter with the stated assumption pow_ok. Uses the standard library's axioms of the real numbers (listed in DESIGN.md)."
 },
 "C72": {
  "status": "proved",
  "note": "The statement describes the actual behaviour, including where it falls short of what one would expect; the shortfall is proved too, as a refutation of the stronger claim: C72_string_default_refuted."
 },
 "C73": {
  "status": "proved",
  "note": "The statement describes the actual behaviour, including where it falls short of what one would expect; the shortfalls are proved too, as refutations of the stronger claims: C73_integer_bytes_refuted, C73_buffer_bytes_refuted."
 },
 "C74": {
  "status": "proved",
  "note": "The statement describes the actual behaviour, including where it falls short of what one would expect; the shortfalls are proved too, as refutations of the stronger claims: C74_nul_refuted, C74_env_without_equals_refuted."
 },
 "C75": {
  "status": "proved",
  "note": "The statement describes the actual behaviour, including where it falls short of what one would expect; the shortfalls are proved too, as refutations of the stronger claims: C75_not_read_back_refuted."
 },
 "C76": {
  "status": "proved",
  "note": "The statement describes the actual behaviour, including where it falls short of what one would expect; the shortfalls are proved too, as refutations of the stronger claims: C76_wrong_refuted."
 },
 "C77": {
  "status": "proved",
  "note": "The statement describes the actual behaviour, including where it falls short of what one would expect; the shortfalls are proved too, as refutations of the stronger claims: C77_separates_refuted."
 },
 "C78": {
  "status": "proved",
  "note": "The statement describes the actual behaviour, including where it falls short of what one would expect; the shortfalls are proved too, as refutations of the stronger claims: C78_short_refuted."
 },
 "C79": {
  "status": "proved",
  "note": "The statement describes the actual behaviour, including where it falls short of what one would expect; the shortfalls are proved too, as refutations of the stronger claims: C79_long_name_refuted."
 },
 "C45": {
  "status": "proved",
  "note": "The statement describes the actual behaviour, including where it falls short of what one would expect; the shortfall is proved too, as a refutation of the stronger claim: C45_large_index_refuted."
 },
 "C80": {
  "status": "proved",
  "note": "The statement describes the actual behaviour, including where it falls short of what one would expect; the shortfalls are proved too, as refutations of the stronger claims: C80_unknown_refuted, C80_default_refuted."
 },
 "C81": {
  "status": "proved",
  "note": "The statement describes the actual behaviour, including where it falls short of what one would expect; the shortfalls are proved too, as refutations of the stronger claims: C81_nul_refuted."
 },
 "C82": {
  "status": "proved",
  "note": "The statement describes the actual behaviour, including where it falls short of what one would expect; the shortfalls are proved too, as refutations of the stronger claims: C82_nils_refuted, C82_address_refuted."
 }
}