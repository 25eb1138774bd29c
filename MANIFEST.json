{
 "claims": [
  {
   "property": "C01",
   "status": "proved",
   "theorems": [
    "C01_status_lists"
   ],
   "note": "All sessions: parameter operations, fits, grids, optimisations, with arbitrary score and minimiser; any arithmetic, NaN included."
  },
  {
   "property": "C02",
   "status": "proved",
   "theorems": [
    "C02_rejected_assignment",
    "C02_refused_step",
    "C02_rejected_ends",
    "C02_vary_refuted"
   ],
   "note": "Any arithmetic. vary is the refuted exception."
  },
  {
   "property": "C03",
   "status": "proved",
   "theorems": [
    "C03_refuted",
    "C03_in_range_once_set"
   ],
   "note": "The unrestricted claim is refuted; what holds once a value was given is proved over the reals."
  },
  {
   "property": "C04",
   "status": "proved",
   "theorems": [
    "C04_linear_steps",
    "C04_linear_moves",
    "C04_ends_exact"
   ],
   "note": "Over the reals."
  },
  {
   "property": "C05",
   "status": "proved",
   "theorems": [
    "C05_log_steps",
    "C05_log_moves",
    "C05_ends_exact",
    "C05_signs_rejected"
   ],
   "note": "Over the reals."
  },
  {
   "property": "C06",
   "status": "proved",
   "theorems": [
    "C06_grid_order"
   ],
   "note": "Any arithmetic."
  },
  {
   "property": "C07",
   "status": "proved",
   "theorems": [
    "C07_grid_scores",
    "C07_grid_optima"
   ],
   "note": "Over the reals; score and minimiser arbitrary."
  },
  {
   "property": "C08",
   "status": "proved",
   "theorems": [
    "C08_refuted"
   ],
   "note": "Refuted: concrete session leaving a cell unfilled."
  },
  {
   "property": "C09",
   "status": "proved",
   "theorems": [
    "C09_score_from_scratch",
    "C09_evaluation_uses_hook"
   ],
   "note": "Any hook, any arithmetic."
  },
  {
   "property": "C10",
   "status": "proved",
   "theorems": [
    "C10_all_changes_announced",
    "C10_value_change_announced_once",
    "C10_fix_announced_once",
    "C10_listener_registered_once"
   ],
   "note": "Any arithmetic; every operation, and exact event sequences for value moves and fix."
  },
  {
   "property": "C11",
   "status": "proved",
   "theorems": [
    "C11_always_raises",
    "C11_refuted"
   ],
   "note": "Refuted for every state and listener: always AttributeError."
  },
  {
   "property": "C12",
   "status": "proved",
   "theorems": [
    "C12_source_order",
    "C12_dictionary_order_irrelevant",
    "C12_missing_name_drops_all"
   ],
   "note": "Any arithmetic."
  },
  {
   "property": "C13",
   "status": "proved",
   "theorems": [
    "C13_class_statement",
    "C13_instances_with_source",
    "C13_subclass_refuted",
    "C13_instances_refuted"
   ],
   "note": ""
  },
  {
   "property": "C14",
   "status": "proved",
   "theorems": [
    "C14_write_back",
    "C14_round_trip",
    "C14_atomic_refuted"
   ],
   "note": "Round trip proved; atomicity refuted."
  },
  {
   "property": "C15",
   "status": "proved",
   "theorems": [
    "C15_unbounded_bijection"
   ],
   "note": "Over the reals (no overflow)."
  },
  {
   "property": "C16",
   "status": "proved",
   "theorems": [
    "C16_shared_data_unchanged",
    "C16_others_unaffected",
    "C16_caller_list_refuted"
   ],
   "note": ""
  },
  {
   "property": "C17",
   "status": "proved",
   "theorems": [
    "C17_chisqr_and_log_like",
    "C17_chisqr_nonneg",
    "C17_chisqr_zero",
    "C17_score",
    "C17_same_optimum"
   ],
   "note": ""
  },
  {
   "property": "C18",
   "status": "proved",
   "theorems": [
    "C18_peak_list_holds_the_best",
    "C18_range_one_refuted",
    "C18_list_for_no_peaks_raises",
    "C18_limit_range_keeps_those_in_range"
   ],
   "note": "Over the reals; refuted for a dynamic range of 1."
  },
  {
   "property": "C19",
   "status": "proved",
   "theorems": [
    "C19_updates_keep_a_tiling",
    "C19_zero_points_refuted",
    "C19_reversed_lists_refuse_updates"
   ],
   "note": "Over the reals, requests of at least one point; refuted for requests of none."
  },
  {
   "property": "C20",
   "status": "proved",
   "theorems": [
    "C20_locate_finds_the_interval",
    "C20_nlocate_finds_the_point",
    "C20_outside_raises"
   ],
   "note": "Over the reals."
  },
  {
   "property": "C21",
   "status": "proved",
   "theorems": [
    "C21_basic_grid_sums",
    "C21_integral_is_the_sum_over_grids",
    "C21_refined_grid_sums"
   ],
   "note": "Over the reals; refined grids of linear type, basic grids of both types; the log sum is exact unless values lie 725 below the maximum."
  },
  {
   "property": "C22",
   "status": "proved",
   "theorems": [
    "C22_sum_is_the_integral_over_the_region",
    "C22_double_sum_is_the_integral_over_the_region",
    "C22_fraction_of_what_is_above_the_floor",
    "C22_fraction_1d",
    "C22_fraction_2d",
    "C22_fraction_is_proper_1d",
    "C22_fraction_is_proper_2d",
    "C22_flat_floor_refuted",
    "C22_uniform_raises",
    "C22_log_grid_maximum_refuted"
   ],
   "note": "Over the reals; needs that no two neighbours share the minimum, without which it is refuted (fraction 5/3)."
  },
  {
   "property": "C23",
   "status": "proved",
   "theorems": [
    "C23_crossings",
    "C23_crossings_unique",
    "C23_buffer_refuted",
    "C23_overrun_by_one",
    "C23_overrun_by_any_number",
    "C23_level_on_the_grid_refuted"
   ],
   "note": "Over the reals; the buffer clause is refuted."
  },
  {
   "property": "C24",
   "status": "proved",
   "theorems": [
    "C24_level_1d",
    "C24_level_2d",
    "C24_bounds_are_at_the_edges",
    "C24_level_found_1d",
    "C24_level_found_2d",
    "C24_level_not_found_1d",
    "C24_level_not_found_2d",
    "C24_flat_grid_refuted",
    "C24_log_bounds_refuted",
    "C24_failed_call_leaves_no_trace_refuted"
   ],
   "note": "Over the reals, any root finder that brackets; refuted for bounds on logarithmic grids, for almost flat grids and for the record after a failed call."
  },
  {
   "property": "C25",
   "status": "proved",
   "theorems": [
    "C25_probabilities",
    "C25_density",
    "C25_posterior",
    "C25_normalised"
   ],
   "note": "Over the reals; above 32 counts sigmp needs exact logs of factorials."
  },
  {
   "property": "C26",
   "status": "proved",
   "theorems": [
    "C26_block",
    "C26_value",
    "C26_complete",
    "C26_error",
    "C26_derivative",
    "C26_derivative_at_zero",
    "C26_offset"
   ],
   "note": "Over the reals; the error of the log gamma function is a parameter of the statements."
  },
  {
   "property": "C27",
   "status": "proved",
   "theorems": [
    "C27_small",
    "C27_large",
    "C27_history",
    "C27_log_increasing",
    "C27_log_repeated",
    "C27_log_refuted"
   ],
   "note": "Over the reals; the log version is refuted."
  },
  {
   "property": "C28",
   "status": "proved",
   "theorems": [
    "C28_probability",
    "C28_rejects",
    "C28_zero_returns_all",
    "C28_zero_refuted",
    "C28_not_a_copy",
    "C28_copy_refuted"
   ],
   "note": "Proved for 1..n_on and rejections; refuted for 0 and for the claim that a copy is returned."
  },
  {
   "property": "C29",
   "status": "proved",
   "theorems": [
    "C29_draws_in_proportion_to_weights",
    "C29_draws_have_positive_weight",
    "C29_arrays_have_positive_weight",
    "C29_tables_refuted"
   ],
   "note": "Over the reals, up to 2^30 items; refuted above that."
  },
  {
   "property": "C30",
   "status": "proved",
   "theorems": [
    "C30_sample_is_right",
    "C30_sample_from_tables_is_right",
    "C30_limit_refuted",
    "C30_limit_index_refuted"
   ],
   "note": "Over the reals, sizes below the limit, indices as 32-bit ints; refuted at the limit."
  },
  {
   "property": "C31",
   "status": "proved",
   "theorems": [
    "C31_equal_probability_sample",
    "C31_picks_are_shared_evenly",
    "C31_bad_sizes_are_refused"
   ],
   "note": "Any stream of picks."
  },
  {
   "property": "C32",
   "status": "proved",
   "theorems": [
    "C32_inclusion_is_proportional_to_size",
    "C32_indices_of_64_bits_refuted"
   ],
   "note": "Over the reals, numbers exactly uniform, indices as 32-bit ints; refuted for 64-bit indices."
  },
  {
   "property": "C33",
   "status": "proved",
   "theorems": [
    "C33_sample_depends_on_numpy_state_only",
    "C33_sample_moves_numpy_state_on",
    "C33_subset_of_everything",
    "C33_subset_fails_otherwise",
    "C33_subset_pps_refuted",
    "C33_samplenr_reproducible_refuted"
   ],
   "note": "Proved for sample; subset_pps and samplenr refuted."
  },
  {
   "property": "C34",
   "status": "proved",
   "theorems": [
    "C34_regions_cover_the_values",
    "C34_weights_are_areas",
    "C34_single_value_refuted",
    "C34_all_zero_raises"
   ],
   "note": "Over the reals, cutoffs from 0 to below 1; refuted for a single value, which makes an object without intervals."
  },
  {
   "property": "C35",
   "status": "proved",
   "theorems": [
    "C35_inverse_transform",
    "C35_samples_follow_the_density",
    "C35_sample",
    "C35_samples"
   ],
   "note": "Over the reals; any weights and end values."
  },
  {
   "property": "C36",
   "status": "proved",
   "theorems": [
    "C36_pdf_interpolates",
    "C36_pdf_is_the_density_of_samples",
    "C36_upper_end_refuted",
    "C36_given_abscissas_raise",
    "C36_given_abscissas_refuted"
   ],
   "note": "Even grids: proved except at the upper end of the domain, where it is refuted; refuted for abscissas given one by one."
  },
  {
   "property": "C37",
   "status": "proved",
   "theorems": [
    "C37_linear",
    "C37_logarithmic",
    "C37_linear_values",
    "C37_logarithmic_values"
   ],
   "note": "Ends and counts in any arithmetic; values over the reals."
  },
  {
   "property": "C38",
   "status": "proved",
   "theorems": [
    "C38_sum",
    "C38_order",
    "C38_squares",
    "C38_status",
    "C38_deviation",
    "C38_deviation_after_start_refuted"
   ],
   "note": "Over the reals; the deviation after a start is refuted."
  },
  {
   "property": "C39",
   "status": "proved",
   "theorems": [
    "C39_bracket",
    "C39_first",
    "C39_last_expansion_refuted"
   ],
   "note": "Over the reals; completeness fails by one expansion (refuted)."
  },
  {
   "property": "C40",
   "status": "proved",
   "theorems": [
    "C40_bracket",
    "C40_equal_starts_never_end",
    "C40_constant_never_ends"
   ],
   "note": "Over the reals; also that it never ends from equal starts and on constants."
  },
  {
   "property": "C41",
   "status": "proved",
   "theorems": [
    "C41_brent"
   ],
   "note": "Over the reals."
  },
  {
   "property": "C42",
   "status": "proved",
   "theorems": [
    "C42_powell",
    "C42_flat_direction_never_ends"
   ],
   "note": "Over the reals, points of any kind; also that a flat first direction never ends."
  },
  {
   "property": "C43",
   "status": "proved",
   "theorems": [
    "C43_backup",
    "C43_backup_succeeds",
    "C43_safe_open",
    "C43_safe_open_succeeds",
    "C43_saving",
    "C43_two_interruptions",
    "C43_three_interruptions_refuted"
   ],
   "note": "Any fate of each disk operation; refuted for three interrupted saves in a row."
  },
  {
   "property": "C44",
   "status": "proved",
   "theorems": [
    "C44_round_trip",
    "C44_own_name",
    "C44_no_name_raises",
    "C44_extension_raises",
    "C44_extension_refuted",
    "C44_array_called_file_refuted",
    "C44_attribute_called_save_refuted"
   ],
   "note": "Both kinds of store; refuted for names with the extension, for an array called file and for attributes called like the methods."
  },
  {
   "property": "C45",
   "status": "proved",
   "theorems": [
    "C45_saving_raises",
    "C45_restoring_raises",
    "C45_three_attempts",
    "C45_refuted",
    "C45_python2",
    "C45_python2_deviate_refuted"
   ],
   "note": "Refuted for Python 3; under Python 2 proved but for the cached normal deviate."
  },
  {
   "property": "C46",
   "status": "proved",
   "theorems": [
    "C46_marg_stats_history_free",
    "C46_amplitudes_history_free",
    "C46_residuals_history_free",
    "C46_residuals_refuted",
    "C46_results",
    "C46_covar_of_last",
    "C46_covar_needs_computation",
    "C46_obj_marg_stats_history_free",
    "C46_obj_amplitudes_history_free",
    "C46_obj_residuals_history_free",
    "C46_obj_residuals_refuted"
   ],
   "note": "marg_stats and amplitudes for all histories, BA and BAObj; residuals for histories without failures, refuted otherwise.  With the compiled kernel; see C66."
  },
  {
   "property": "C47",
   "status": "proved",
   "theorems": [
    "C47_analysis",
    "C47_least_squares",
    "C47_rejects_dependent",
    "C47_rejects_shape"
   ],
   "note": "Success exactly for independent rows; all outputs characterised."
  },
  {
   "property": "C48",
   "status": "proved",
   "theorems": [
    "C48_covar_inverts"
   ],
   "note": "The upper triangle is ignored."
  },
  {
   "property": "C49",
   "status": "proved",
   "theorems": [
    "C49_exact_for_quadratics",
    "C49_symmetric_and_restored"
   ],
   "note": "At a maximum or not; symmetry and restoring for every function that is evaluated without an exception."
  },
  {
   "property": "C50",
   "status": "proved",
   "theorems": [
    "C50_success_meets_target",
    "C50_exact_for_quadratics",
    "C50_one_component_changed",
    "C50_errors",
    "C50_mode_restored_on_value_error_refuted",
    "C50_mode_restored_on_runtime_error_refuted"
   ],
   "note": "Success characterised for all functions; restoring on failure refuted for both exceptions."
  },
  {
   "property": "C51",
   "status": "proved",
   "theorems": [
    "C51_third_degree_on_rectangles",
    "C51_seventh_degree_on_rectangles",
    "C51_points_inside",
    "C51_squares"
   ],
   "note": "Literals as exact decimals; rounding of doubles is not modelled."
  },
  {
   "property": "C52",
   "status": "proved",
   "theorems": [
    "C52_runs_refuted",
    "C52_every_call_raises",
    "C52_checks_agree"
   ],
   "note": "Refuted, with the general statement for every call and agreement with the checks of the Fortran."
  },
  {
   "property": "C53",
   "status": "proved",
   "theorems": [
    "C53_heights",
    "C53_heights_refuted",
    "C53_error_bars_raise"
   ],
   "note": "Refuted; the heights that are returned are proved, and that error bars are refused."
  },
  {
   "property": "C54",
   "status": "proved",
   "theorems": [
    "C54_floats",
    "C54_density_floats",
    "C54_one_element_refuted",
    "C54_integers_refuted"
   ],
   "note": "Proved for arrays of floats; refuted for integer and one-element arrays."
  },
  {
   "property": "C55",
   "status": "proved",
   "theorems": [
    "C55_linear_lists_never_get_coarser",
    "C55_linear_requests_are_met",
    "C55_log_requests_refuted"
   ],
   "note": "Linear lists proved; refuted for logarithmic lists."
  },
  {
   "property": "C56",
   "status": "proved",
   "theorems": [
    "C56_peak_of_a_gaussian",
    "C56_peak_near_the_middle_point"
   ],
   "note": "Over the reals."
  },
  {
   "property": "C57",
   "status": "proved",
   "theorems": [
    "C57_vecfunc_records_no_first_peak_refuted"
   ],
   "note": "Refuted."
  },
  {
   "property": "C58",
   "status": "proved",
   "theorems": [
    "C58_refine_without_peaks_refuted"
   ],
   "note": "Success without a dynamic range is part of C21; refuted with one."
  },
  {
   "property": "C59",
   "status": "proved",
   "theorems": [
    "C59_ranges_kept",
    "C59_array_object_has_no_yhi",
    "C59_yhi_refuted",
    "C59_sigmas_in_two_dimensions_refuted"
   ],
   "note": "Ranges proved for HPDGrid2D; refuted for HPD2D and for sigmas."
  },
  {
   "property": "C60",
   "status": "proved",
   "theorems": [
    "C60_weights_in_decreasing_order",
    "C60_indices_of_64_bits_refuted"
   ],
   "note": "Proved for 32-bit indices; refuted for 64-bit ones."
  },
  {
   "property": "C61",
   "status": "proved",
   "theorems": [
    "C61_generator_is_the_twister",
    "C61_interval",
    "C61_double",
    "C61_state_check_refuted"
   ],
   "note": "Generator, integers and doubles proved; the check of states is refuted."
  },
  {
   "property": "C62",
   "status": "proved",
   "theorems": [
    "C62_opener_gets_arguments",
    "C62_keywords_dropped",
    "C62_keywords_refuted"
   ],
   "note": "Proved where some argument is positional; refuted for keywords alone."
  },
  {
   "property": "C63",
   "status": "proved",
   "theorems": [
    "C63_nothing_new",
    "C63_new_names_refuted"
   ],
   "note": "Proved while nothing was assigned; refuted otherwise."
  },
  {
   "property": "C64",
   "status": "proved",
   "theorems": [
    "C64_columns",
    "C64_short_line_raises",
    "C64_arrays_raise",
    "C64_arrays_refuted"
   ],
   "note": "Proved for lists; refuted for arrays, the default."
  },
  {
   "property": "C65",
   "status": "proved",
   "theorems": [
    "C65_covar_reads_outside",
    "C65_covar_not_square_refuted"
   ],
   "note": "Refuted both ways."
  },
  {
   "property": "C66",
   "status": "proved",
   "theorems": [
    "C66_no_call_succeeds",
    "C66_marg_stats_refuted"
   ],
   "note": "Refuted, with the general statement that nothing ever succeeds."
  },
  {
   "property": "C67",
   "status": "proved",
   "theorems": [
    "C67_exact_with_fourth_degree_terms",
    "C67_exact_with_sixth_degree_terms"
   ],
   "note": "Proved for all dimensions and steps."
  },
  {
   "property": "C68",
   "status": "proved",
   "theorems": [
    "C68_restored_when_the_function_raises_refuted",
    "C68_result_always_set_refuted"
   ],
   "note": "Refuted both ways."
  },
  {
   "property": "C69",
   "status": "proved",
   "theorems": [
    "C69_no_end_on_flat_functions",
    "C69_ends_when_values_change",
    "C69_search_ends_refuted"
   ],
   "note": "Refuted, with the general statement for flat functions and zero guesses."
  },
  {
   "property": "C70",
   "status": "proved",
   "theorems": [
    "C70_tolerance_relative_to_dll_refuted"
   ],
   "note": "Refuted; the tolerance is absolute."
  },
  {
   "property": "C71",
   "status": "proved",
   "theorems": [
    "C71_normal_means",
    "C71_named_degree_refuted",
    "C71_three_rules_miss",
    "C71_weak_rules"
   ],
   "note": "Proved for eight rules; refuted for three, with lower degrees proved for them."
  },
  {
   "property": "C72",
   "status": "proved",
   "theorems": [
    "C72_tables_kept",
    "C72_objects_independent",
    "C72_bad_arguments"
   ],
   "note": "Proved for all histories."
  },
  {
   "property": "C73",
   "status": "proved",
   "theorems": [
    "C73_boxes_tile",
    "C73_error_bound",
    "C73_exact_rules"
   ],
   "note": "Proved for any basic rule."
  },
  {
   "property": "C74",
   "status": "proved",
   "theorems": [
    "C74_outcomes"
   ],
   "note": "Proved for any basic rule."
  },
  {
   "property": "C75",
   "status": "proved",
   "theorems": [
    "C75_succeeds"
   ],
   "note": "Proved for any basic rule."
  },
  {
   "property": "C76",
   "status": "proved",
   "theorems": [
    "C76_exact_found_refuted",
    "C76_zero_integral"
   ],
   "note": "Refuted, with the general statement for integrals that are zero."
  },
  {
   "property": "C77",
   "status": "proved",
   "theorems": [
    "C77_result_or_error_refuted",
    "C77_dimensions"
   ],
   "note": "Refuted, with the exact condition."
  },
  {
   "property": "C78",
   "status": "proved",
   "theorems": [
    "C78_rules_exact",
    "C78_rule_points",
    "C78_polynomials",
    "C78_cubics"
   ],
   "note": "Proved with SYMRL, WHT, FLSM and NXPRT modelled; doubles are real numbers."
  },
  {
   "property": "C79",
   "status": "proved",
   "theorems": [
    "C79_constants_refuted",
    "C79_twenty_dimensions"
   ],
   "note": "Refuted, with the general statement for polynomials."
  },
  {
   "property": "C80",
   "status": "proved",
   "theorems": [
    "C80_zero_refuted",
    "C80_zero_integrals"
   ],
   "note": "Refuted, with the general statement for polynomials."
  },
  {
   "property": "C81",
   "status": "proved",
   "theorems": [
    "C81_inside_only"
   ],
   "note": "Proved, also for integrands that raise."
  },
  {
   "property": "C82",
   "status": "proved",
   "theorems": [
    "C82_nested_sequences",
    "C82_long_refuted",
    "C82_long_sequences",
    "C82_arrays_refuted",
    "C82_pairs",
    "C82_arrays",
    "C82_empty_refuted",
    "C82_strings"
   ],
   "note": "Proved for nested non-empty sequences; long lists, arrays and empty sequences refuted with exact results."
  },
  {
   "property": "C83",
   "status": "proved",
   "theorems": [
    "C83_basic_grids",
    "C83_refined_grids",
    "C83_default_refuted",
    "C83_basic_refused",
    "C83_refined_refused"
   ],
   "note": "Proved over the reals; the default argument refuted."
  },
  {
   "property": "C84",
   "status": "proved",
   "theorems": [
    "C84_outcome",
    "C84_refused"
   ],
   "note": "Proved for all keys; restarts are not modelled."
  },
  {
   "property": "C85",
   "status": "proved",
   "theorems": [
    "C85_polynomials",
    "C85_nearly"
   ],
   "note": "Exact for keys 3 and 4 in all dimensions; within a bound on the error for the tabulated rules of degree 13 and 11."
  },
  {
   "property": "C86",
   "status": "proved",
   "theorems": [
    "C86_accurate_refuted",
    "C86_no_room",
    "C86_room"
   ],
   "note": "Refuted, with the exact condition on the budget."
  },
  {
   "property": "C87",
   "status": "proved",
   "theorems": [
    "C87_inside",
    "C87_exchanged_limits"
   ],
   "note": "Proved."
  },
  {
   "property": "C88",
   "status": "proved",
   "theorems": [
    "C88_units",
    "C88_memory"
   ],
   "note": "Proved."
  },
  {
   "property": "C89",
   "status": "proved",
   "theorems": [
    "C89_lower_limits",
    "C89_upper_limits",
    "C89_mixed_limits",
    "C89_only_limits"
   ],
   "note": "Proved over the reals, for any contents of memory that stop the reading."
  },
  {
   "property": "C90",
   "status": "proved",
   "theorems": [
    "C90_detections",
    "C90_detections_refuted",
    "C90_upper_detections_refuted",
    "C90_zero_detection_refuted"
   ],
   "note": "Proved where every lower limit is below a detection; otherwise refuted."
  },
  {
   "property": "C91",
   "status": "proved",
   "theorems": [
    "C91_bins",
    "C91_estimate",
    "C91_past_end_refuted",
    "C91_km_diff_refuted"
   ],
   "note": "Proved for kmdif; the writing after the end and KM.diff refuted."
  },
  {
   "property": "C92",
   "status": "proved",
   "theorems": [
    "C92_crossings",
    "C92_same_gap_refuted"
   ],
   "note": "Proved when the heights are in different gaps; refuted otherwise."
  },
  {
   "property": "C93",
   "status": "proved",
   "theorems": [
    "C93_object",
    "C93_weights_refuted",
    "C93_ulims_refuted",
    "C93_llims_refuted",
    "C93_index_refuted"
   ],
   "note": "Refuted, with the exact result proved."
  },
  {
   "property": "C94",
   "status": "proved",
   "theorems": [
    "C94_refused",
    "C94_statistics",
    "C94_rho",
    "C94_uncorrelated_refuted"
   ],
   "note": "Proved; refuted for uncorrelated data."
  },
  {
   "property": "C95",
   "status": "proved",
   "theorems": [
    "C95_lines",
    "C95_refused",
    "C95_object",
    "C95_uncorrelated_refuted"
   ],
   "note": "Proved; refuted for uncorrelated data."
  },
  {
   "property": "C96",
   "status": "proved",
   "theorems": [
    "C96_errors",
    "C96_orthog_refuted"
   ],
   "note": "Proved; refuted for the intercept of the orthogonal line when the correlation is negative."
  },
  {
   "property": "C97",
   "status": "proved",
   "theorems": [
    "C97_weighted",
    "C97_same_errors",
    "C97_collinear",
    "C97_refused",
    "C97_object",
    "C97_line_refuted",
    "C97_scatter_refuted"
   ],
   "note": "Proved when the supposed variances are positive; refuted otherwise."
  },
  {
   "property": "C98",
   "status": "proved",
   "theorems": [
    "C98_no_errors",
    "C98_corrected",
    "C98_orthog_sign_refuted",
    "C98_refused",
    "C98_object",
    "C98_errors",
    "C98_exchange_refuted"
   ],
   "note": "Proved; refuted for the sign of the orthogonal slope and the error of xony when the errors are correlated."
  },
  {
   "property": "C99",
   "status": "proved",
   "theorems": [
    "C99_result",
    "C99_cubic",
    "C99_quintic",
    "C99_returns",
    "C99_halts",
    "C99_reversed",
    "C99_units",
    "C99_limit",
    "C99_never",
    "C99_accuracy_refuted",
    "C99_error"
   ],
   "note": "Proved; the accuracy refuted."
  },
  {
   "property": "C100",
   "status": "proved",
   "theorems": [
    "C100_table",
    "C100_refused",
    "C100_romberg",
    "C100_limit",
    "C100_error",
    "C100_accuracy_refuted"
   ],
   "note": "Proved; the accuracy refuted."
  },
  {
   "property": "C101",
   "status": "proved",
   "theorems": [
    "C101_result",
    "C101_factors",
    "C101_one_column",
    "C101_trapezoid_refuted"
   ],
   "note": "Proved; the trapezoid for one column refuted."
  }
 ]
}