{
 "claims": [
  {
   "property": "C01",
   "status": "proved",
   "theorems": [
    "C01_blocks_1d_partition"
   ],
   "note": ""
  },
  {
   "property": "C02",
   "status": "proved",
   "theorems": [
    "C02_blocks_2d_partition",
    "C02_raster_cells_once"
   ],
   "note": ""
  },
  {
   "property": "C03",
   "status": "proved",
   "theorems": [
    "C03_block_count",
    "C03_documented_bound_refuted"
   ],
   "note": "The documented bound (nr_threads or at most one more) is refuted; exact bounds are proved."
  },
  {
   "property": "C04",
   "status": "proved",
   "theorems": [
    "C04_range_queries",
    "C04_ranges_queries",
    "C04_ranges_equality"
   ],
   "note": ""
  },
  {
   "property": "C05",
   "status": "proved",
   "theorems": [
    "C05_binary_1d_1d",
    "C05_binary_2d_2d",
    "C05_binary_1d_0d",
    "C05_binary_0d_1d",
    "C05_binary_2d_0d",
    "C05_binary_0d_2d",
    "C05_binary_0d_0d"
   ],
   "note": ""
  },
  {
   "property": "C06",
   "status": "proved",
   "theorems": [
    "C06_unary_1d",
    "C06_unary_2d",
    "C06_unary_0d"
   ],
   "note": ""
  },
  {
   "property": "C07",
   "status": "proved",
   "theorems": [
    "C07_nullary_1d",
    "C07_nullary_2d",
    "C07_disaggregate_1d",
    "C07_disaggregate_2d",
    "C07_fill_1d",
    "C07_fill_2d",
    "C07_defined_1d",
    "C07_defined_2d"
   ],
   "note": ""
  },
  {
   "property": "C08",
   "status": "proved",
   "theorems": [
    "C08_n_ary_left_fold",
    "C08_general_refuted"
   ],
   "note": "The general claim is refuted by witnesses; the left fold is proved under the conditions in the statement."
  },
  {
   "property": "C09",
   "status": "proved",
   "theorems": [
    "C09_frame_1d",
    "C09_frame_2d"
   ],
   "note": ""
  },
  {
   "property": "C10",
   "status": "proved",
   "theorems": [
    "C10_parallel_1d",
    "C10_parallel_2d"
   ],
   "note": ""
  },
  {
   "property": "C11",
   "status": "proved",
   "theorems": [
    "C11_in_place_1d",
    "C11_in_place_2d",
    "C11_in_place_unchecked",
    "C11_overflow_missed_refuted"
   ],
   "note": "Refutation of the overflow check in place is part of the claim."
  },
  {
   "property": "C12",
   "status": "proved",
   "theorems": [
    "C12_second_argument_converted",
    "C12_second_argument_converted_0d_1d",
    "C12_representable",
    "C12_narrowed_refuted"
   ],
   "note": "Refutation for values that are not representable is part of the claim."
  },
  {
   "property": "C13",
   "status": "proved",
   "theorems": [
    "C13_add_same_signedness",
    "C13_add_mixed_signedness",
    "C13_add_never_wrong",
    "C13_mixed_exactness_refuted",
    "C13_add_defined",
    "C13_add_rasters"
   ],
   "note": "Refutation witnesses for mixed signedness are part of the claim."
  },
  {
   "property": "C14",
   "status": "proved",
   "theorems": [
    "C14_subtract_same_signedness",
    "C14_subtract_mixed_signedness",
    "C14_subtract_big_unsigned",
    "C14_subtract_defined",
    "C14_big_unsigned_refuted"
   ],
   "note": "Refutation witnesses for large uint64 operands are part of the claim."
  },
  {
   "property": "C15",
   "status": "proved",
   "theorems": [
    "C15_multiply",
    "C15_rejects_only_minimum",
    "C15_multiply_defined"
   ],
   "note": ""
  },
  {
   "property": "C16",
   "status": "proved",
   "theorems": [
    "C16_domain",
    "C16_divide",
    "C16_representable",
    "C16_minimum_by_minus_one",
    "C16_big_unsigned_refuted"
   ],
   "note": "MIN / -1 and large uint64 operands are part of the claim."
  },
  {
   "property": "C17",
   "status": "proved",
   "theorems": [
    "C17_absolute",
    "C17_minimum"
   ],
   "note": ""
  },
  {
   "property": "C18",
   "status": "proved",
   "theorems": [
    "C18_result_represents_operands",
    "C18_result_exists"
   ],
   "note": ""
  },
  {
   "property": "C19",
   "status": "proved",
   "theorems": [
    "C19_boole",
    "C19_truth",
    "C19_comparisons",
    "C19_comparison_mixed",
    "C19_equal",
    "C19_mixed_comparison_refuted"
   ],
   "note": "Refutation for mixed signedness is part of the claim."
  },
  {
   "property": "C20",
   "status": "proved",
   "theorems": [
    "C20_aggregate_1d",
    "C20_aggregate_0d",
    "C20_aggregate_2d",
    "C20_raster_as_array",
    "C20_first_value_2d_refuted",
    "C20_sum_1d",
    "C20_sum_2d",
    "C20_mean_1d"
   ],
   "note": ""
  },
  {
   "property": "C21",
   "status": "proved",
   "theorems": [
    "C21_parallel_1d",
    "C21_parallel_2d",
    "C21_min_1d",
    "C21_max_1d",
    "C21_min_2d",
    "C21_max_2d",
    "C21_sum_unchecked_1d",
    "C21_sum_1d",
    "C21_sum_2d",
    "C21_sum_sound_1d",
    "C21_sum_sound_2d",
    "C21_sum_unsigned_1d",
    "C21_sum_unsigned_2d",
    "C21_mean_1d",
    "C21_mean_2d",
    "C21_mean_unchecked_1d",
    "C21_mean_unchecked_2d",
    "C21_signed_sum_refuted",
    "C21_sum_narrowing_refuted"
   ],
   "note": ""
  },
  {
   "property": "C22",
   "status": "proved",
   "theorems": [
    "C22_merge",
    "C22_merge_defined",
    "C22_merge_mode"
   ],
   "note": ""
  },
  {
   "property": "C23",
   "status": "proved",
   "theorems": [
    "C23_count",
    "C23_sum",
    "C23_sum_modular",
    "C23_min",
    "C23_max",
    "C23_range",
    "C23_mean",
    "C23_median",
    "C23_mode",
    "C23_variance"
   ],
   "note": ""
  },
  {
   "property": "C24",
   "status": "proved",
   "theorems": [
    "C24_default_mode",
    "C24_default_mode_refuted",
    "C24_mean_count_wraps",
    "C24_mean_refuted",
    "C24_range_refuted",
    "C24_median_refuted"
   ],
   "note": ""
  },
  {
   "property": "C25",
   "status": "proved",
   "theorems": [
    "C25_checked_merge",
    "C25_count_refuted",
    "C25_plain_merge"
   ],
   "note": ""
  },
  {
   "property": "C26",
   "status": "proved",
   "theorems": [
    "C26_count_1d",
    "C26_wraps_1d",
    "C26_count_0d",
    "C26_count_2d",
    "C26_parallel_1d",
    "C26_parallel_2d",
    "C26_first_row_refuted",
    "C26_parallel_refuted",
    "C26_parallel_by_value_refuted",
    "C26_parallel_race_refuted"
   ],
   "note": ""
  },
  {
   "property": "C27",
   "status": "proved",
   "theorems": [
    "C27_at_most_once",
    "C27_queued_tasks_untouched",
    "C27_wait",
    "C27_effects",
    "C27_never_faults",
    "C27_parallel_algorithm"
   ],
   "note": ""
  },
  {
   "property": "C28",
   "status": "proved",
   "theorems": [
    "C28_client_finishes",
    "C28_calls_return",
    "C28_tasks_complete",
    "C28_after_destruction_begins",
    "C28_after_destruction",
    "C28_queued_tasks_are_dropped",
    "C28_notification_can_be_lost"
   ],
   "note": ""
  },
  {
   "property": "C29",
   "status": "proved",
   "theorems": [
    "C29_linearizable",
    "C29_nothing_lost",
    "C29_mutual_exclusion",
    "C29_calls_return"
   ],
   "note": ""
  },
  {
   "property": "C30",
   "status": "proved",
   "theorems": [
    "C30_schedule_independence"
   ],
   "note": ""
  },
  {
   "property": "C31",
   "status": "proved",
   "theorems": [
    "C31_cover_0d_0d",
    "C31_cover_2d_0d",
    "C31_cover_2d_2d"
   ],
   "note": ""
  },
  {
   "property": "C32",
   "status": "proved",
   "theorems": [
    "C32_if_then_0d_0d",
    "C32_if_then_else_0d_0d_0d",
    "C32_if_then_0d_2d",
    "C32_if_then_2d_0d",
    "C32_if_then_2d_2d",
    "C32_if_then_else_1d_0d_0d",
    "C32_if_then_else_1d_1d_0d",
    "C32_if_then_else_1d_0d_1d",
    "C32_if_then_else_1d_1d_1d",
    "C32_if_then_else_0d_2d_2d",
    "C32_if_then_else_0d_0d_2d",
    "C32_if_then_else_0d_2d_0d",
    "C32_if_then_else_2d_2d_2d",
    "C32_if_then_else_2d_2d_0d",
    "C32_if_then_else_2d_0d_2d",
    "C32_if_then_else_2d_0d_0d"
   ],
   "note": ""
  },
  {
   "property": "C33",
   "status": "proved",
   "theorems": [
    "C33_clamp_1d_1d_1d",
    "C33_clamp_1d_1d_0d",
    "C33_clamp_1d_0d_1d",
    "C33_clamp_2d_2d_2d",
    "C33_clamp_2d_2d_0d",
    "C33_clamp_2d_0d_2d",
    "C33_clamp_0d_0d_0d",
    "C33_invalid_bounds"
   ],
   "note": "Parallel clamp with a 1D value and one scalar bound binds a function of the wrong shape and cannot be instantiated, so only the sequential version is claimed there."
  },
  {
   "property": "C34",
   "status": "proved",
   "theorems": [
    "C34_merge_2d",
    "C34_unite_2d",
    "C34_intersect_2d",
    "C34_0d",
    "C34_mask_only"
   ],
   "note": ""
  },
  {
   "property": "C35",
   "status": "proved",
   "theorems": [
    "C35_copy",
    "C35_copy_empty",
    "C35_copy_sizes",
    "C35_copy_within_array",
    "C35_copy_within_array_races"
   ],
   "note": ""
  },
  {
   "property": "C36",
   "status": "proved",
   "theorems": [
    "C36_compress_1d",
    "C36_compress_2d",
    "C36_count",
    "C36_decompress_1d",
    "C36_decompress_2d",
    "C36_round_trip_1d",
    "C36_round_trip_2d"
   ],
   "note": ""
  },
  {
   "property": "C37",
   "status": "proved",
   "theorems": [
    "C37_compress_parallel_1d",
    "C37_compress_parallel_2d",
    "C37_same_as_sequential",
    "C37_tail_differs",
    "C37_small_count_refuted"
   ],
   "note": ""
  },
  {
   "property": "C38",
   "status": "proved",
   "theorems": [
    "C38_offset_1d",
    "C38_offset_2d",
    "C38_offset_fill_1d",
    "C38_offset_fill_2d",
    "C38_offset_many_elements_refuted"
   ],
   "note": ""
  },
  {
   "property": "C39",
   "status": "proved",
   "theorems": [
    "C39_policy_exists",
    "C39_values_kept",
    "C39_cast_1d",
    "C39_cast_2d",
    "C39_cast_0d",
    "C39_cast_discard_2d",
    "C39_cast_bool_2d"
   ],
   "note": ""
  },
  {
   "property": "C40",
   "status": "proved",
   "theorems": [
    "C40_regions_partition",
    "C40_border_regions",
    "C40_inner_region"
   ],
   "note": ""
  },
  {
   "property": "C41",
   "status": "proved",
   "theorems": [
    "C41_convolve",
    "C41_zero_weights_refuted",
    "C41_border_differs_from_inner"
   ],
   "note": ""
  },
  {
   "property": "C42",
   "status": "proved",
   "theorems": [
    "C42_convolve_parallel",
    "C42_too_small"
   ],
   "note": ""
  },
  {
   "property": "C43",
   "status": "proved",
   "theorems": [
    "C43_focal_average_exists",
    "C43_replaceable",
    "C43_no_data_replacement",
    "C43_out_of_image_replacement",
    "C43_sides",
    "C43_smallest_image_refuted",
    "C43_surrounded_refuted"
   ],
   "note": ""
  },
  {
   "property": "C44",
   "status": "proved",
   "theorems": [
    "C44_gradient_x",
    "C44_gradient_y",
    "C44_single_column",
    "C44_single_row"
   ],
   "note": ""
  },
  {
   "property": "C45",
   "status": "proved",
   "theorems": [
    "C45_visible_value",
    "C45_pop_restores",
    "C45_outer_scopes_kept",
    "C45_calls",
    "C45_scope_level_of",
    "C45_size"
   ],
   "note": ""
  },
  {
   "property": "C46",
   "status": "proved",
   "theorems": [
    "C46_set_operations",
    "C46_count",
    "C46_subset",
    "C46_value_type_groups",
    "C46_satisfaction",
    "C46_satisfying_types",
    "C46_value_type_names",
    "C46_value_type_parsing",
    "C46_data_type_names"
   ],
   "note": ""
  },
  {
   "property": "C47",
   "status": "proved",
   "theorems": [
    "C47_value_type",
    "C47_fixed_result",
    "C47_unary",
    "C47_unary_refuted",
    "C47_order",
    "C47_order_sets",
    "C47_allowed",
    "C47_unknown_arguments",
    "C47_data_type",
    "C47_add",
    "C47_short_refuted"
   ],
   "note": ""
  },
  {
   "property": "C48",
   "status": "proved",
   "theorems": [
    "C48_module",
    "C48_failure",
    "C48_session",
    "C48_read_once",
    "C48_prompt",
    "C48_control_flow_refuted",
    "C48_no_result_refuted",
    "C48_subscript_refuted"
   ],
   "note": ""
  },
  {
   "property": "C49",
   "status": "proved",
   "theorems": [
    "C49_types",
    "C49_symmetric",
    "C49_standard",
    "C49_library",
    "C49_library_types",
    "C49_refuted"
   ],
   "note": ""
  },
  {
   "property": "C50",
   "status": "proved",
   "theorems": [
    "C50_writes",
    "C50_writes_refuted",
    "C50_outputs",
    "C50_number",
    "C50_inputs",
    "C50_outputs_refuted",
    "C50_inputs_refuted"
   ],
   "note": ""
  },
  {
   "property": "C51",
   "status": "proved",
   "theorems": [
    "C51_links",
    "C51_targets",
    "C51_twice"
   ],
   "note": ""
  },
  {
   "property": "C52",
   "status": "proved",
   "theorems": [
    "C52_result",
    "C52_removed",
    "C52_preserves",
    "C52_within_refuted",
    "C52_chain_refuted",
    "C52_order_refuted"
   ],
   "note": ""
  },
  {
   "property": "C53",
   "status": "proved",
   "theorems": [
    "C53_data_name",
    "C53_rejected",
    "C53_normal"
   ],
   "note": ""
  },
  {
   "property": "C54",
   "status": "proved",
   "theorems": [
    "C54_split",
    "C54_join",
    "C54_strip",
    "C54_search",
    "C54_replace"
   ],
   "note": ""
  },
  {
   "property": "C55",
   "status": "proved",
   "theorems": [
    "C55_calls",
    "C55_once",
    "C55_release",
    "C55_moved_refuted",
    "C55_release_after_move_refuted"
   ],
   "note": ""
  },
  {
   "property": "C56",
   "status": "proved",
   "theorems": [
    "C56_scalar",
    "C56_construct",
    "C56_construct_list",
    "C56_construct_rows",
    "C56_construct_ragged",
    "C56_construct_scalars",
    "C56_has_masked_values",
    "C56_masking",
    "C56_mask_size",
    "C56_export",
    "C56_round_trip"
   ],
   "note": ""
  },
  {
   "property": "C57",
   "status": "proved",
   "theorems": [
    "C57_verdict",
    "C57_accepts",
    "C57_library",
    "C57_control_flow",
    "C57_every_module"
   ],
   "note": ""
  },
  {
   "property": "C58",
   "status": "proved",
   "theorems": [
    "C58_execute",
    "C58_initial",
    "C58_history",
    "C58_rejected_refuted",
    "C58_validated_refuted",
    "C58_sources_refuted",
    "C58_branch_refuted",
    "C58_library_refuted"
   ],
   "note": ""
  },
  {
   "property": "C59",
   "status": "proved",
   "theorems": [
    "C59_by_the_pool",
    "C59_slope",
    "C59_without_marking",
    "C59_flat",
    "C59_plane",
    "C59_unmasked_type_refuted",
    "C59_mark_by_value_refuted",
    "C59_stale_mark_refuted",
    "C59_out_of_range_refuted",
    "C59_two_rows_refuted"
   ],
   "note": ""
  },
  {
   "property": "C60",
   "status": "proved",
   "theorems": [
    "C60_laplacian",
    "C60_without_marking",
    "C60_differences",
    "C60_flat",
    "C60_plane",
    "C60_mark_by_value_refuted"
   ],
   "note": ""
  },
  {
   "property": "C61",
   "status": "proved",
   "theorems": [
    "C61_lax",
    "C61_between",
    "C61_extremes",
    "C61_lonely",
    "C61_mark_by_value_refuted"
   ],
   "note": ""
  },
  {
   "property": "C62",
   "status": "proved",
   "theorems": [
    "C62_add",
    "C62_subtract",
    "C62_multiply",
    "C62_divide",
    "C62_small_integers",
    "C62_not_finite",
    "C62_divide_not_finite",
    "C62_rasters",
    "C62_mixed_refuted"
   ],
   "note": ""
  },
  {
   "property": "C63",
   "status": "proved",
   "theorems": [
    "C63_compare",
    "C63_equal",
    "C63_nan",
    "C63_nan_equal",
    "C63_values",
    "C63_rounded_refuted"
   ],
   "note": ""
  },
  {
   "property": "C64",
   "status": "proved",
   "theorems": [
    "C64_sqrt",
    "C64_sqrt_exact",
    "C64_log",
    "C64_arc",
    "C64_sine",
    "C64_pow",
    "C64_tgamma",
    "C64_log_refuted",
    "C64_pow_refuted"
   ],
   "note": ""
  },
  {
   "property": "C65",
   "status": "proved",
   "theorems": [
    "C65_tan",
    "C65_marked",
    "C65_multiples",
    "C65_undefined_refuted"
   ],
   "note": ""
  },
  {
   "property": "C66",
   "status": "proved",
   "theorems": [
    "C66_factorial",
    "C66_undefined",
    "C66_marked",
    "C66_float",
    "C66_float_exact"
   ],
   "note": ""
  },
  {
   "property": "C67",
   "status": "proved",
   "theorems": [
    "C67_paths_are_runs",
    "C67_paths_are_all_runs",
    "C67_no_else_refuted",
    "C67_accepted",
    "C67_not_twice"
   ],
   "note": ""
  },
  {
   "property": "C68",
   "status": "proved",
   "theorems": [
    "C68_parses",
    "C68_reports",
    "C68_rejects",
    "C68_outcome",
    "C68_wide_refuted",
    "C68_long_refuted",
    "C68_injection_refuted",
    "C68_cut_refuted",
    "C68_dropped_refuted"
   ],
   "note": ""
  },
  {
   "property": "C69",
   "status": "proved",
   "theorems": [
    "C69_read",
    "C69_anywhere",
    "C69_survives",
    "C69_determined",
    "C69_infinite",
    "C69_value_refuted"
   ],
   "note": ""
  },
  {
   "property": "C70",
   "status": "proved",
   "theorems": [
    "C70_feature",
    "C70_contains_feature",
    "C70_attribute",
    "C70_contains_attribute",
    "C70_contains_attribute_refuted",
    "C70_add_attribute",
    "C70_add_feature",
    "C70_add_feature_refuted",
    "C70_root",
    "C70_names",
    "C70_numbers",
    "C70_numbers_refuted"
   ],
   "note": ""
  },
  {
   "property": "C71",
   "status": "proved",
   "theorems": [
    "C71_add",
    "C71_multiply",
    "C71_undefined",
    "C71_sizes",
    "C71_unsupported",
    "C71_refuted"
   ],
   "note": "Refutation witnesses for lost results are part of the claim."
  },
  {
   "property": "C72",
   "status": "proved",
   "theorems": [
    "C72_add",
    "C72_multiply",
    "C72_kept",
    "C72_refuted"
   ],
   "note": "Refutation witnesses for the conversion of the number are part of the claim."
  },
  {
   "property": "C73",
   "status": "proved",
   "theorems": [
    "C73_iadd",
    "C73_imultiply",
    "C73_types",
    "C73_sizes",
    "C73_refuted"
   ],
   "note": "Refutation of the overflow check in place is part of the claim."
  },
  {
   "property": "C74",
   "status": "proved",
   "theorems": [
    "C74_compare",
    "C74_compare_number",
    "C74_if",
    "C74_if_number",
    "C74_types",
    "C74_refuted"
   ],
   "note": "Refutation witnesses for mixed signedness and NaN are part of the claim."
  },
  {
   "property": "C75",
   "status": "proved",
   "theorems": [
    "C75_zeros",
    "C75_lists",
    "C75_unsupported",
    "C75_refuted"
   ],
   "note": "Refutation for values equal to the no-data value is part of the claim."
  },
  {
   "property": "C76",
   "status": "proved",
   "theorems": [
    "C76_read",
    "C76_colon",
    "C76_unreadable",
    "C76_round_trip",
    "C76_unwritten",
    "C76_refuted"
   ],
   "note": "Refutation witnesses (undefined conversions of no-data values, NaN, lost cells, names with colons) are part of the claim."
  },
  {
   "property": "C77",
   "status": "proved",
   "theorems": [
    "C77_write",
    "C77_read",
    "C77_read_script",
    "C77_not_written",
    "C77_history",
    "C77_refuted"
   ],
   "note": "Refutation witnesses (missing upper features, conversion to the old type, numbers lost at the path of a feature) are part of the claim. What HDF5 does is stated at the top of StoreModel.v."
  },
  {
   "property": "C78",
   "status": "proved",
   "theorems": [
    "C78_first",
    "C78_no_driver",
    "C78_overwrite",
    "C78_overwrite_other",
    "C78_write",
    "C78_not_read",
    "C78_history",
    "C78_refuted"
   ],
   "note": "What drivers of GDAL can open and how they read and write is left open (parameters of the model). Refutation witnesses (files destroyed, things not written without an error) are part of the claim."
  },
  {
   "property": "C79",
   "status": "proved",
   "theorems": [
    "C79_accepted",
    "C79_parsed",
    "C79_named",
    "C79_run",
    "C79_refuted"
   ],
   "note": "Conversion of texts to doubles is a parameter. No two results go to the same file in the model. Refutation witnesses (names of data taken as texts, files emptied before an error) are part of the claim."
  },
  {
   "property": "C80",
   "status": "proved",
   "theorems": [
    "C80_code",
    "C80_body",
    "C80_single",
    "C80_only",
    "C80_arguments",
    "C80_attribute",
    "C80_refuted"
   ],
   "note": "The skeleton of the class around the generated texts is left out. Refutation witnesses (scripts whose C++ is not C++ or does something else) are part of the claim. C80_body is the text of the body."
  },
  {
   "property": "C81",
   "status": "proved",
   "theorems": [
    "C81_written",
    "C81_exact",
    "C81_updated",
    "C81_too_large",
    "C81_where",
    "C81_name",
    "C81_opened",
    "C81_type",
    "C81_feature",
    "C81_refuted"
   ],
   "note": "What GDAL does is trusted as stated at the top of FieldModel.v. In C81_updated drivers must be able to create a mask band where there is one. Refutation witnesses are part of the claim. C81_name says which name is taken from a path, C81_opened which files are opened."
  },
  {
   "property": "C82",
   "status": "proved",
   "theorems": [
    "C82_unknown",
    "C82_wrong",
    "C82_question",
    "C82_execute",
    "C82_only_executed",
    "C82_frame",
    "C82_graph",
    "C82_cpp",
    "C82_refuted"
   ],
   "note": "C82_unknown, C82_wrong and C82_question give what is printed and returned, C82_execute and C82_only_executed which scripts are executed, C82_frame which files are left alone, C82_graph and C82_cpp what is written; C82_refuted collects the deviations. The parser, the interpreter, the visitors and descriptions of data are parameters of the model."
  },
  {
   "property": "C83",
   "status": "proved",
   "theorems": [
    "C83_edges",
    "C83_vertices",
    "C83_once",
    "C83_ends",
    "C83_clusters",
    "C83_label",
    "C83_refuted"
   ],
   "note": "C83_edges, C83_vertices, C83_once, C83_ends and C83_clusters are the graph; C83_label says how dot reads the label of a string; C83_refuted is the graph of a script with a condition, a while statement and an attribute."
  },
  {
   "property": "C84",
   "status": "proved",
   "theorems": [
    "C84_reads",
    "C84_unique",
    "C84_aborts",
    "C84_not_refuted",
    "C84_fraction_refuted",
    "C84_string_refuted",
    "C84_tab_refuted",
    "C84_function_refuted"
   ],
   "note": "C84_reads and C84_unique are the round trip, against a grammar of (part of) Python 2.7 in PrintSpec and the parser of C68; Python's limits on the depth of nesting are not in the grammar. C84_aborts says when printing fails. The refuted theorems are the scripts that are not printed well."
  },
  {
   "property": "C85",
   "status": "proved",
   "theorems": [
    "C85_vertices",
    "C85_once",
    "C85_edges",
    "C85_ends",
    "C85_order",
    "C85_clusters",
    "C85_flow",
    "C85_uses",
    "C85_aborts",
    "C85_tree_refuted",
    "C85_attribute_refuted",
    "C85_flow_refuted"
   ],
   "note": "C85_vertices, C85_once, C85_edges, C85_order, C85_ends and C85_clusters are the tree; C85_flow and C85_uses the other lines, for any successors and uses (those that threading finds in C85_flow_refuted). C85_aborts says when no graph is made. The refuted theorems are what is not shown. Colours and shapes are not modelled."
  },
  {
   "property": "C86",
   "status": "proved",
   "theorems": [
    "C86_counts",
    "C86_alive",
    "C86_freed",
    "C86_restored",
    "C86_store",
    "C86_same_refuted",
    "C86_borrowed_refuted"
   ],
   "note": "C86_counts, C86_alive, C86_freed and C86_restored hold for the calls `entitled` allows (RefSpec), which are those the class documents. C86_store is what happens outside of that; the refuted theorems are the leaks and dangling references. Python's own counting is modelled, not verified."
  },
  {
   "property": "C87",
   "status": "proved",
   "theorems": [
    "C87_syntax",
    "C87_debug",
    "C87_counts",
    "C87_column",
    "C87_other",
    "C87_none_refuted"
   ],
   "note": "C87_syntax is the good case, C87_debug says that debug builds abort in all others. C87_counts is about references, in all cases. C87_column, C87_other and C87_none_refuted say what release builds do with other errors. That Python 2.7 reports errors without a column or statement is not in /repo."
  },
  {
   "property": "C88",
   "status": "proved",
   "theorems": [
    "C88_registered",
    "C88_total",
    "C88_raster",
    "C88_shared_refuted",
    "C88_parsing",
    "C88_single",
    "C88_parser_refuted",
    "C88_many",
    "C88_files"
   ],
   "note": "C88_registered and C88_total are the clients of language/io, C88_raster that of io/gdal without the others; C88_shared_refuted is both together. C88_parsing says exactly when scripts can be parsed, C88_single when that is always. C88_parser_refuted, C88_many and C88_files are the defects."
  },
  {
   "property": "C89",
   "status": "proved",
   "theorems": [
    "C89_format",
    "C89_distinct",
    "C89_io",
    "C89_python",
    "C89_missing",
    "C89_other_refuted",
    "C89_construct",
    "C89_open",
    "C89_xml_refuted",
    "C89_validate",
    "C89_place",
    "C89_empty_refuted"
   ],
   "note": "C89_format is about all messages. C89_io, C89_python, C89_construct, C89_open and C89_validate are the errors users see; C89_python rests on C87_syntax. C89_place reads places back. C89_missing, C89_empty_refuted, C89_other_refuted and C89_xml_refuted are the defects. boost::format is modelled for the directives that occur."
  },
  {
   "property": "C90",
   "status": "proved",
   "theorems": [
    "C90_conforms",
    "C90_read",
    "C90_release",
    "C90_errors",
    "C90_closed",
    "C90_types_refuted",
    "C90_fill_refuted",
    "C90_path_refuted",
    "C90_zero_refuted"
   ],
   "note": "The _refuted theorems say where reading differs from what a user expects: scalars of other types than double, values that stand for no data, paths of more than one name or none, and conventions that end in a zero character or are not an attribute of characters."
  },
  {
   "property": "C91",
   "status": "proved",
   "theorems": [
    "C91_one",
    "C91_closed",
    "C91_move",
    "C91_twice_refuted",
    "C91_other_refuted",
    "C91_lost_refuted",
    "C91_types_refuted"
   ],
   "note": "The _refuted theorems say what goes wrong with handles of GDAL and NetCDF that are moved or assigned (closed twice, the dataset of another handle closed, never closed), and that asking for the class of an HDF5 type leaves a type open."
  },
  {
   "property": "C92",
   "status": "proved",
   "theorems": [
    "C92_values",
    "C92_own",
    "C92_write",
    "C92_kept",
    "C92_types_refuted"
   ],
   "note": "C92_types_refuted: no array is made of rasters of booleans, 8 bit signed integers or 16 bit integers."
  },
  {
   "property": "C93",
   "status": "proved",
   "theorems": [
    "C93_debug",
    "C93_release",
    "C93_errors",
    "C93_number_refuted",
    "C93_variance_refuted",
    "C93_text"
   ],
   "note": "Reading a number from text, the square root and the tests for sign are parameters of the model. The _refuted theorems cover numbers of means and variances other than one, and variances that are not positive."
  },
  {
   "property": "C94",
   "status": "proved",
   "theorems": [
    "C94_inlined",
    "C94_without",
    "C94_names_refuted",
    "C94_calls_refuted",
    "C94_parameters_refuted",
    "C94_bodies_refuted",
    "C94_uncalled_refuted",
    "C94_scripts_refuted"
   ],
   "note": "The _refuted theorems say that functions defined in scripts are not functions: they cannot be called, their names do not matter, their parameters must have types already and their bodies are executed where they are defined."
  },
  {
   "property": "C95",
   "status": "proved",
   "theorems": [
    "C95_minimum",
    "C95_maximum",
    "C95_range",
    "C95_pairs",
    "C95_minimum_refuted",
    "C95_range_refuted",
    "C95_order_refuted",
    "C95_constructed_refuted"
   ],
   "note": "The _refuted theorems are cases with NaN, infinities and zeros in which minimum, maximum and range are not what their names say."
  },
  {
   "property": "C96",
   "status": "proved",
   "theorems": [
    "C96_sum",
    "C96_sum_unchecked",
    "C96_mean",
    "C96_exact",
    "C96_variance",
    "C96_variance_merge",
    "C96_threads_refuted",
    "C96_threads_overflow_refuted",
    "C96_mean_refuted"
   ],
   "note": "The _refuted theorems are cases in which the number of threads changes the sum or whether it overflows, and in which rounding makes the mean greater than every value and the variance of equal values positive."
  },
  {
   "property": "C97",
   "status": "proved",
   "theorems": [
    "C97_rasters",
    "C97_unique",
    "C97_whole",
    "C97_again",
    "C97_order",
    "C97_opposite",
    "C97_factorial",
    "C97_half_refuted"
   ],
   "note": "C97_half_refuted: rounding is not adding a half and taking the floor."
  },
  {
   "property": "C98",
   "status": "proved",
   "theorems": [
    "C98_median_defined",
    "C98_median_nan",
    "C98_median",
    "C98_median_order",
    "C98_median_merge",
    "C98_mode",
    "C98_mode_nan",
    "C98_mode_default",
    "C98_mode_merge",
    "C98_median_refuted",
    "C98_mode_refuted",
    "C98_mode_default_refuted"
   ],
   "note": "The sort and the order in which the table of the mode is visited are parameters. The _refuted theorems: a median that overflows, a mode that does not count NaNs together, and a default constructed mode."
  },
  {
   "property": "C99",
   "status": "proved",
   "theorems": [
    "C99_rasters",
    "C99_arrays",
    "C99_scalars",
    "C99_order",
    "C99_unique",
    "C99_within",
    "C99_again",
    "C99_monotone",
    "C99_unbounded",
    "C99_sign",
    "C99_nan_refuted"
   ],
   "note": "C99_nan_refuted: NaN as element or as bound passes the checks and leaves the element alone."
  },
  {
   "property": "C100",
   "status": "proved",
   "theorems": [
    "C100_detect",
    "C100_nan",
    "C100_result",
    "C100_chain",
    "C100_nan_chain",
    "C100_nan_refuted"
   ],
   "note": "C100_nan_refuted: with NaN as the no-data value, what one operation marks is not no-data for the next."
  }
 ]
}