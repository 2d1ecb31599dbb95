{
 "claims": [
  {
   "property": "C01",
   "status": "proved",
   "theorems": [
    "C01_evaluation_accounting"
   ],
   "note": ""
  },
  {
   "property": "C02",
   "status": "proved",
   "theorems": [
    "C02_no_iteration_at_the_limit",
    "C02_budget",
    "C02_strict_refuted"
   ],
   "note": "The claim(s) stated as false in the property are disproved by witness: C02_strict_refuted"
  },
  {
   "property": "C03",
   "status": "proved",
   "theorems": [
    "C03_serial_termination"
   ],
   "note": ""
  },
  {
   "property": "C04",
   "status": "proved",
   "theorems": [
    "C04_result_is_authentic"
   ],
   "note": ""
  },
  {
   "property": "C05",
   "status": "proved",
   "theorems": [
    "C05_result_is_best",
    "C05_two_phase_refuted"
   ],
   "note": "The claim(s) stated as false in the property are disproved by witness: C05_two_phase_refuted"
  },
  {
   "property": "C06",
   "status": "proved",
   "theorems": [
    "C06_incumbents",
    "C06_two_phase_refuted"
   ],
   "note": "The claim(s) stated as false in the property are disproved by witness: C06_two_phase_refuted"
  },
  {
   "property": "C07",
   "status": "proved",
   "theorems": [
    "C07_tables_aligned"
   ],
   "note": ""
  },
  {
   "property": "C08",
   "status": "proved",
   "theorems": [
    "C08_inside_the_box",
    "C08_affine_with_integers_refuted"
   ],
   "note": "The claim(s) stated as false in the property are disproved by witness: C08_affine_with_integers_refuted"
  },
  {
   "property": "C09",
   "status": "proved",
   "theorems": [
    "C09_integrality"
   ],
   "note": ""
  },
  {
   "property": "C10",
   "status": "proved",
   "theorems": [
    "C10_node_separation",
    "C10_any_scaling",
    "C10_affine_sample_refuted"
   ],
   "note": "The claim(s) stated as false in the property are disproved by witness: C10_affine_sample_refuted"
  },
  {
   "property": "C11",
   "status": "proved",
   "theorems": [
    "C11_no_repeated_evaluation"
   ],
   "note": ""
  },
  {
   "property": "C12",
   "status": "proved",
   "theorems": [
    "C12_single_phase_never_noisy",
    "C12_switch_is_final",
    "C12_phase_ends"
   ],
   "note": ""
  },
  {
   "property": "C13",
   "status": "proved",
   "theorems": [
    "C13_accurate_records_have_no_error",
    "C13_single_phase_records_are_accurate",
    "C13_accurate_recorded_noisy_refuted"
   ],
   "note": "The claim(s) stated as false in the property are disproved by witness: C13_accurate_recorded_noisy_refuted"
  },
  {
   "property": "C14",
   "status": "proved",
   "theorems": [
    "C14_reused_errors_refuted",
    "C14_reuse_fails_refuted",
    "C14_recorded_bounds"
   ],
   "note": "The claim(s) stated as false in the property are disproved by witness: C14_reused_errors_refuted, C14_reuse_fails_refuted"
  },
  {
   "property": "C15",
   "status": "proved",
   "theorems": [
    "C15_user_points"
   ],
   "note": ""
  },
  {
   "property": "C16",
   "status": "proved",
   "theorems": [
    "C16_checkpoint_cadence"
   ],
   "note": ""
  },
  {
   "property": "C17",
   "status": "proved",
   "theorems": [
    "C17_resume",
    "C17_save_is_transparent",
    "C17_checkpoint"
   ],
   "note": ""
  },
  {
   "property": "C18",
   "status": "proved",
   "theorems": [
    "C18_pause_resume",
    "C18_gap_up_to_date",
    "C18_pause_at_zero_refuted",
    "C18_stale_gap_refuted"
   ],
   "note": "The claim(s) stated as false in the property are disproved by witness: C18_pause_at_zero_refuted, C18_stale_gap_refuted"
  },
  {
   "property": "C19",
   "status": "proved",
   "theorems": [
    "C19_crash_points",
    "C19_atomicity_refuted",
    "C19_completed"
   ],
   "note": "The claim(s) stated as false in the property are disproved by witness: C19_atomicity_refuted"
  },
  {
   "property": "C20",
   "status": "proved",
   "theorems": [
    "C20_restart_keeps_history",
    "C20_history_only_grows",
    "C20_monotone_counters"
   ],
   "note": ""
  },
  {
   "property": "C21",
   "status": "proved",
   "theorems": [
    "C21_steps_are_defined",
    "C21_cyclic_advance",
    "C21_refinement_ends_in_a_new_cycle",
    "C21_back_to_first_step_refuted"
   ],
   "note": "The claim(s) stated as false in the property are disproved by witness: C21_back_to_first_step_refuted"
  },
  {
   "property": "C22",
   "status": "proved",
   "theorems": [
    "C22_stalling",
    "C22_restart_resets",
    "C22_iteration"
   ],
   "note": ""
  },
  {
   "property": "C23",
   "status": "proved",
   "theorems": [
    "C23_fixed_variables",
    "C23_categorical_value"
   ],
   "note": ""
  },
  {
   "property": "C24",
   "status": "proved",
   "theorems": [
    "C24_returned_dimension",
    "C24_returned_is_evaluated",
    "C24_dimension_refuted",
    "C24_without_fixed"
   ],
   "note": "The claim(s) stated as false in the property are disproved by witness: C24_dimension_refuted"
  },
  {
   "property": "C25",
   "status": "proved",
   "theorems": [
    "C25_round_trip",
    "C25_decoders_agree",
    "C25_decoders_differ_off_codes_refuted"
   ],
   "note": "The claim(s) stated as false in the property are disproved by witness: C25_decoders_differ_off_codes_refuted"
  },
  {
   "property": "C26",
   "status": "proved",
   "theorems": [
    "C26_encoding_structure"
   ],
   "note": ""
  },
  {
   "property": "C27",
   "status": "proved",
   "theorems": [
    "C27_compressed_bounds"
   ],
   "note": ""
  },
  {
   "property": "C28",
   "status": "proved",
   "theorems": [
    "C28_lhd_categories_in_range",
    "C28_corner_category_refuted"
   ],
   "note": "The claim(s) stated as false in the property are disproved by witness: C28_corner_category_refuted"
  },
  {
   "property": "C29",
   "status": "proved",
   "theorems": [
    "C29_round_trip",
    "C29_unit_cube_to_box",
    "C29_corners",
    "C29_identity",
    "C29_scaled_bounds_with_integers_refuted"
   ],
   "note": "The claim(s) stated as false in the property are disproved by witness: C29_scaled_bounds_with_integers_refuted"
  },
  {
   "property": "C30",
   "status": "proved",
   "theorems": [
    "C30_outside_bounds_refuted",
    "C30_round_trip_outside_refuted",
    "C30_lower_bound_kept",
    "C30_scaled_inside_unit_cube",
    "C30_wide_bounds_never_finite"
   ],
   "note": "The claim(s) stated as false in the property are disproved by witness: C30_outside_bounds_refuted, C30_round_trip_outside_refuted"
  },
  {
   "property": "C31",
   "status": "proved",
   "theorems": [
    "C31_order"
   ],
   "note": ""
  },
  {
   "property": "C32",
   "status": "proved",
   "theorems": [
    "C32_affine_range"
   ],
   "note": ""
  },
  {
   "property": "C33",
   "status": "proved",
   "theorems": [
    "C33_log_arguments",
    "C33_log_arguments_with_clipping_refuted"
   ],
   "note": "The claim(s) stated as false in the property are disproved by witness: C33_log_arguments_with_clipping_refuted"
  },
  {
   "property": "C34",
   "status": "proved",
   "theorems": [
    "C34_clipping"
   ],
   "note": ""
  },
  {
   "property": "C35",
   "status": "proved",
   "theorems": [
    "C35_gap"
   ],
   "note": ""
  },
  {
   "property": "C36",
   "status": "proved",
   "theorems": [
    "C36_followed",
    "C36_potential_optimum",
    "C36_target_zero_refuted"
   ],
   "note": "The claim(s) stated as false in the property are disproved by witness: C36_target_zero_refuted"
  },
  {
   "property": "C37",
   "status": "proved",
   "theorems": [
    "C37_settings_validation",
    "C37_invalid_raises",
    "C37_zero_interval_never_completes",
    "C37_accepted_settings_fail_refuted"
   ],
   "note": "The claim(s) stated as false in the property are disproved by witness: C37_accepted_settings_fail_refuted"
  },
  {
   "property": "C38",
   "status": "proved",
   "theorems": [
    "C38_from_dictionary",
    "C38_unknown_name_raises_ValueError",
    "C38_constructor_keeps_values"
   ],
   "note": ""
  },
  {
   "property": "C39",
   "status": "proved",
   "theorems": [
    "C39_auto_resolves",
    "C39_auto_values",
    "C39_auto_idempotent",
    "C39_user_object_untouched"
   ],
   "note": ""
  },
  {
   "property": "C40",
   "status": "proved",
   "theorems": [
    "C40_automatic_domain_scaling",
    "C40_fails_only_when_all_fixed"
   ],
   "note": ""
  },
  {
   "property": "C41",
   "status": "proved",
   "theorems": [
    "C41_at_least_two",
    "C41_monotone",
    "C41_awaited_at_most_requested"
   ],
   "note": ""
  },
  {
   "property": "C42",
   "status": "proved",
   "theorems": [
    "C42_all_corners",
    "C42_lower_corners",
    "C42_random_corners",
    "C42_random_corners_end"
   ],
   "note": ""
  },
  {
   "property": "C43",
   "status": "proved",
   "theorems": [
    "C43_one_sample_per_interval"
   ],
   "note": ""
  },
  {
   "property": "C44",
   "status": "proved",
   "theorems": [
    "C44_initial_points_feasible"
   ],
   "note": ""
  },
  {
   "property": "C45",
   "status": "proved",
   "theorems": [
    "C45_succeeds_iff",
    "C45_last_attempt_refuted"
   ],
   "note": "The claim(s) stated as false in the property are disproved by witness: C45_last_attempt_refuted"
  },
  {
   "property": "C46",
   "status": "proved",
   "theorems": [
    "C46_index_formula",
    "C46_order_statistic",
    "C46_few_points_refuted",
    "C46_assumed_points"
   ],
   "note": "The claim(s) stated as false in the property are disproved by witness: C46_few_points_refuted"
  },
  {
   "property": "C47",
   "status": "proved",
   "theorems": [
    "C47_rounded_bounds",
    "C47_never_enlarges_refuted",
    "C47_evaluated_outside_refuted"
   ],
   "note": "The claim(s) stated as false in the property are disproved by witness: C47_never_enlarges_refuted, C47_evaluated_outside_refuted"
  },
  {
   "property": "C48",
   "status": "proved",
   "theorems": [
    "C48_nearest_node",
    "C48_farthest_node",
    "C48_bulk_agrees",
    "C48_metric",
    "C48_norm",
    "C48_squared_comparisons"
   ],
   "note": ""
  },
  {
   "property": "C49",
   "status": "proved",
   "theorems": [
    "C49_values",
    "C49_shape",
    "C49_tail"
   ],
   "note": ""
  },
  {
   "property": "C50",
   "status": "proved",
   "theorems": [
    "C50_interpolation_matrix"
   ],
   "note": ""
  },
  {
   "property": "C51",
   "status": "proved",
   "theorems": [
    "C51_interpolation",
    "C51_with_zeroed_entries"
   ],
   "note": ""
  },
  {
   "property": "C52",
   "status": "proved",
   "theorems": [
    "C52_bulk_evaluation"
   ],
   "note": ""
  },
  {
   "property": "C53",
   "status": "proved",
   "theorems": [
    "C53_dropped_columns"
   ],
   "note": ""
  },
  {
   "property": "C54",
   "status": "proved",
   "theorems": [
    "C54_leave_one_out",
    "C54_small_weight"
   ],
   "note": ""
  },
  {
   "property": "C55",
   "status": "proved",
   "theorems": [
    "C55_selection",
    "C55_selection_with_failure",
    "C55_settings_unchanged_refuted"
   ],
   "note": "The claim(s) stated as false in the property are disproved by witness: C55_settings_unchanged_refuted"
  },
  {
   "property": "C56",
   "status": "proved",
   "theorems": [
    "C56_kept_points",
    "C56_first_sorted_separated",
    "C56_dropped_near_kept_refuted"
   ],
   "note": "The claim(s) stated as false in the property are disproved by witness: C56_dropped_near_kept_refuted"
  },
  {
   "property": "C57",
   "status": "proved",
   "theorems": [
    "C57_candidate",
    "C57_step",
    "C57_progress"
   ],
   "note": ""
  },
  {
   "property": "C58",
   "status": "proved",
   "theorems": [
    "C58_rounding",
    "C58_step_improvement",
    "C58_within_radius",
    "C58_within_radius_refuted"
   ],
   "note": "The claim(s) stated as false in the property are disproved by witness: C58_within_radius_refuted"
  },
  {
   "property": "C59",
   "status": "proved",
   "theorems": [
    "C59_round_categorical",
    "C59_choice",
    "C59_share"
   ],
   "note": ""
  },
  {
   "property": "C60",
   "status": "proved",
   "theorems": [
    "C60_radius",
    "C60_update"
   ],
   "note": ""
  },
  {
   "property": "C61",
   "status": "proved",
   "theorems": [
    "C61_limit",
    "C61_update_exact",
    "C61_model_set",
    "C61_centre_first",
    "C61_radius",
    "C61_update"
   ],
   "note": ""
  },
  {
   "property": "C62",
   "status": "proved",
   "theorems": [
    "C62_index_refuted",
    "C62_index_range"
   ],
   "note": "The claim(s) stated as false in the property are disproved by witness: C62_index_refuted"
  },
  {
   "property": "C63",
   "status": "proved",
   "theorems": [
    "C63_population",
    "C63_best_never_worse",
    "C63_result",
    "C63_fractional_categories_refuted"
   ],
   "note": "The claim(s) stated as false in the property are disproved by witness: C63_fractional_categories_refuted"
  },
  {
   "property": "C64",
   "status": "proved",
   "theorems": [
    "C64_infinite",
    "C64_range",
    "C64_dominance",
    "C64_strict_dominance",
    "C64_ideal_point"
   ],
   "note": ""
  },
  {
   "property": "C65",
   "status": "proved",
   "theorems": [
    "C65_bumpiness_meaning",
    "C65_zero_at_nodes",
    "C65_mu_offset",
    "C65_mu_documented_refuted",
    "C65_mu_ranking"
   ],
   "note": "The claim(s) stated as false in the property are disproved by witness: C65_mu_documented_refuted"
  },
  {
   "property": "C66",
   "status": "proved",
   "theorems": [
    "C66_triangular",
    "C66_only_symmetric",
    "C66_inverse_symmetric"
   ],
   "note": ""
  },
  {
   "property": "C67",
   "status": "proved",
   "theorems": [
    "C67_target_scaling",
    "C67_distance_weight",
    "C67_distance_weight_last",
    "C67_decreasing_weight_refuted",
    "C67_target",
    "C67_target_at_most_minimum_refuted"
   ],
   "note": "The claim(s) stated as false in the property are disproved by witness: C67_decreasing_weight_refuted, C67_target_at_most_minimum_refuted"
  },
  {
   "property": "C68",
   "status": "proved",
   "theorems": [
    "C68_local_box",
    "C68_global_step_box",
    "C68_fractional_bound_refuted"
   ],
   "note": "The claim(s) stated as false in the property are disproved by witness: C68_fractional_bound_refuted"
  },
  {
   "property": "C69",
   "status": "proved",
   "theorems": [
    "C69_failed_solve_exact",
    "C69_restoration_never_succeeds",
    "C69_failed_solve",
    "C69_restoration_refuted"
   ],
   "note": "The claim(s) stated as false in the property are disproved by witness: C69_restoration_refuted"
  },
  {
   "property": "C70",
   "status": "proved",
   "theorems": [
    "C70_nearest_node",
    "C70_least_bumpiness_refuted"
   ],
   "note": "The claim(s) stated as false in the property are disproved by witness: C70_least_bumpiness_refuted"
  },
  {
   "property": "C71",
   "status": "proved",
   "theorems": [
    "C71_scan_effect",
    "C71_bounds_changed",
    "C71_never_again",
    "C71_bounds_unchanged_refuted"
   ],
   "note": "The claim(s) stated as false in the property are disproved by witness: C71_bounds_unchanged_refuted"
  },
  {
   "property": "C72",
   "status": "proved",
   "theorems": [
    "C72_estimates_in_range",
    "C72_temporary_nodes_aligned",
    "C72_recorded_where_made"
   ],
   "note": ""
  },
  {
   "property": "C73",
   "status": "proved",
   "theorems": [
    "C73_every_evaluation_has_one_fate",
    "C73_counters",
    "C73_history_is_the_log",
    "C73_nothing_pending_at_exit"
   ],
   "note": ""
  },
  {
   "property": "C74",
   "status": "proved",
   "theorems": [
    "C74_capacity",
    "C74_without_premise_refuted"
   ],
   "note": "The claim(s) stated as false in the property are disproved by witness: C74_without_premise_refuted"
  },
  {
   "property": "C75",
   "status": "proved",
   "theorems": [
    "C75_shutdown_refuted",
    "C75_accurate_recorded"
   ],
   "note": "The claim(s) stated as false in the property are disproved by witness: C75_shutdown_refuted"
  },
  {
   "property": "C76",
   "status": "proved",
   "theorems": [
    "C76_progress",
    "C76_waits_forever_refuted",
    "C76_small_sample_never_starts",
    "C76_small_sample_never_resumes",
    "C76_corner_strategies_refuted",
    "C76_single_variable_refuted",
    "C76_sample_large_enough"
   ],
   "note": "The claim(s) stated as false in the property are disproved by witness: C76_waits_forever_refuted, C76_corner_strategies_refuted, C76_single_variable_refuted"
  },
  {
   "property": "C77",
   "status": "proved",
   "theorems": [
    "C77_leftover_misplaced_refuted",
    "C77_recorded_where_made_unscaled"
   ],
   "note": "The claim(s) stated as false in the property are disproved by witness: C77_leftover_misplaced_refuted"
  },
  {
   "property": "C78",
   "status": "proved",
   "theorems": [
    "C78_window_bounded",
    "C78_window_holds_last_outcomes",
    "C78_restart_reasons"
   ],
   "note": ""
  },
  {
   "property": "C79",
   "status": "proved",
   "theorems": [
    "C79_star",
    "C79_displayed_gap_never_increases"
   ],
   "note": ""
  },
  {
   "property": "C80",
   "status": "proved",
   "theorems": [
    "C80_nan_is_returned",
    "C80_best_value_lost_refuted",
    "C80_internal_best_ignores_nan",
    "C80_nan_in_sample_blinds_run",
    "C80_without_nan_minimum_returned",
    "C80_indices"
   ],
   "note": "The claim(s) stated as false in the property are disproved by witness: C80_best_value_lost_refuted"
  },
  {
   "property": "C81",
   "status": "proved",
   "theorems": [
    "C81_noisy_brackets_truth"
   ],
   "note": ""
  },
  {
   "property": "C82",
   "status": "proved",
   "theorems": [
    "C82_enlarged_keeps_optimum"
   ],
   "note": ""
  },
  {
   "property": "C83",
   "status": "proved",
   "theorems": [
    "C83_feasible_set",
    "C83_feasible_start",
    "C83_refit",
    "C83_smoother"
   ],
   "note": ""
  },
  {
   "property": "C84",
   "status": "proved",
   "theorems": [
    "C84_options_are_parameters",
    "C84_rejected_iff",
    "C84_settings_reach_optimizer",
    "C84_points_file",
    "C84_valid_command_line_succeeds",
    "C84_invalid_settings_raise",
    "C84_load_ignores_settings",
    "C84_wrong_width_passed_on",
    "C84_bad_log_file_fails"
   ],
   "note": ""
  },
  {
   "property": "C85",
   "status": "proved",
   "theorems": [
    "C85_results_ready",
    "C85_ready_index"
   ],
   "note": ""
  },
  {
   "property": "C86",
   "status": "proved",
   "theorems": [
    "C86_noisy_restart_fails_refuted",
    "C86_parallel_known_sample",
    "C86_exactly_when",
    "C86_accurate_restart"
   ],
   "note": "The claim(s) stated as false in the property are disproved by witness: C86_noisy_restart_fails_refuted"
  },
  {
   "property": "C87",
   "status": "proved",
   "theorems": [
    "C87_single_start_point_fails",
    "C87_single_start_point_refuted"
   ],
   "note": "The claim(s) stated as false in the property are disproved by witness: C87_single_start_point_refuted"
  },
  {
   "property": "C88",
   "status": "proved",
   "theorems": [
    "C88_accepted_dimension",
    "C88_evaluated_at_user_point",
    "C88_full_dimension_rejected_refuted"
   ],
   "note": "The claim(s) stated as false in the property are disproved by witness: C88_full_dimension_rejected_refuted"
  },
  {
   "property": "C89",
   "status": "proved",
   "theorems": [
    "C89_maximin_design"
   ],
   "note": ""
  },
  {
   "property": "C90",
   "status": "proved",
   "theorems": [
    "C90_most_common"
   ],
   "note": ""
  },
  {
   "property": "C91",
   "status": "proved",
   "theorems": [
    "C91_scaled_errors",
    "C91_rescale_order",
    "C91_rescale_order_refuted"
   ],
   "note": "The claim(s) stated as false in the property are disproved by witness: C91_rescale_order_refuted"
  },
  {
   "property": "C92",
   "status": "proved",
   "theorems": [
    "C92_improving_point"
   ],
   "note": ""
  },
  {
   "property": "C93",
   "status": "proved",
   "theorems": [
    "C93_indices_valid",
    "C93_starts_at_best",
    "C93_after_failure_refuted"
   ],
   "note": "The claim(s) stated as false in the property are disproved by witness: C93_after_failure_refuted"
  },
  {
   "property": "C94",
   "status": "proved",
   "theorems": [
    "C94_reported_value",
    "C94_difference_refuted"
   ],
   "note": "The claim(s) stated as false in the property are disproved by witness: C94_difference_refuted"
  },
  {
   "property": "C95",
   "status": "proved",
   "theorems": [
    "C95_negative_everywhere_refuted",
    "C95_nonnegative",
    "C95_nonnegative_bumpiness_refuted"
   ],
   "note": "The claim(s) stated as false in the property are disproved by witness: C95_negative_everywhere_refuted, C95_nonnegative_bumpiness_refuted"
  },
  {
   "property": "C96",
   "status": "proved",
   "theorems": [
    "C96_candidates_can_take_target",
    "C96_any_target_refuted"
   ],
   "note": "The claim(s) stated as false in the property are disproved by witness: C96_any_target_refuted"
  },
  {
   "property": "C97",
   "status": "proved",
   "theorems": [
    "C97_local_step_aims_below"
   ],
   "note": ""
  },
  {
   "property": "C98",
   "status": "proved",
   "theorems": [
    "C98_mutation_size",
    "C98_mutation_in_bounds",
    "C98_few_variables",
    "C98_max_size",
    "C98_one_variable",
    "C98_wasted_individual"
   ],
   "note": ""
  },
  {
   "property": "C99",
   "status": "proved",
   "theorems": [
    "C99_best_sample",
    "C99_too_close",
    "C99_maximin"
   ],
   "note": ""
  },
  {
   "property": "C100",
   "status": "proved",
   "theorems": [
    "C100_inverse",
    "C100_categorical",
    "C100_bumpiness"
   ],
   "note": ""
  },
  {
   "property": "C101",
   "status": "proved",
   "theorems": [
    "C101_surrogate_error",
    "C101_surrogate_exact",
    "C101_msrsm_dominance"
   ],
   "note": ""
  },
  {
   "property": "C102",
   "status": "proved",
   "theorems": [
    "C102_feasible_set",
    "C102_categorical_missing",
    "C102_valid_point_refuted"
   ],
   "note": "The claim(s) stated as false in the property are disproved by witness: C102_valid_point_refuted"
  },
  {
   "property": "C103",
   "status": "proved",
   "theorems": [
    "C103_distance_constraint",
    "C103_far_enough",
    "C103_far_enough_suffices_refuted",
    "C103_maximin"
   ],
   "note": "The claim(s) stated as false in the property are disproved by witness: C103_far_enough_suffices_refuted"
  },
  {
   "property": "C104",
   "status": "proved",
   "theorems": [
    "C104_one_over_mu",
    "C104_bumpiness"
   ],
   "note": ""
  },
  {
   "property": "C105",
   "status": "proved",
   "theorems": [
    "C105_failed_save"
   ],
   "note": ""
  },
  {
   "property": "C106",
   "status": "proved",
   "theorems": [
    "C106_call_limit",
    "C106_total_limit_refuted"
   ],
   "note": "The claim(s) stated as false in the property are disproved by witness: C106_total_limit_refuted"
  },
  {
   "property": "C107",
   "status": "proved",
   "theorems": [
    "C107_parallel_budget",
    "C107_parallel_budget_single_phase",
    "C107_strict_refuted"
   ],
   "note": "The claim(s) stated as false in the property are disproved by witness: C107_strict_refuted"
  },
  {
   "property": "C108",
   "status": "proved",
   "theorems": [
    "C108_parallel_iterations",
    "C108_parallel_iterations_single_phase",
    "C108_exact_pause_refuted"
   ],
   "note": "The claim(s) stated as false in the property are disproved by witness: C108_exact_pause_refuted"
  },
  {
   "property": "C109",
   "status": "proved",
   "theorems": [
    "C109_refinement_never_again",
    "C109_refinement_resumes_refuted"
   ],
   "note": "The claim(s) stated as false in the property are disproved by witness: C109_refinement_resumes_refuted"
  },
  {
   "property": "C110",
   "status": "proved",
   "theorems": [
    "C110_superseded_result_is_lost_refuted"
   ],
   "note": "The claim(s) stated as false in the property are disproved by witness: C110_superseded_result_is_lost_refuted"
  },
  {
   "property": "C111",
   "status": "proved",
   "theorems": [
    "C111_failed_linear_algebra_crashes",
    "C111_failed_solve_exact"
   ],
   "note": ""
  },
  {
   "property": "C112",
   "status": "proved",
   "theorems": [
    "C112_leftovers_and_singular_system"
   ],
   "note": ""
  },
  {
   "property": "C113",
   "status": "proved",
   "theorems": [
    "C113_tables_aligned",
    "C113_incumbents"
   ],
   "note": ""
  },
  {
   "property": "C114",
   "status": "proved",
   "theorems": [
    "C114_inside_the_box",
    "C114_integral",
    "C114_affine_noisy_refuted"
   ],
   "note": "The claim(s) stated as false in the property are disproved by witness: C114_affine_noisy_refuted"
  },
  {
   "property": "C115",
   "status": "proved",
   "theorems": [
    "C115_accurate_evaluations_are_recorded",
    "C115_dropped_results"
   ],
   "note": ""
  },
  {
   "property": "C116",
   "status": "proved",
   "theorems": [
    "C116_valid_point",
    "C116_recovers",
    "C116_failure",
    "C116_clipped_refuted"
   ],
   "note": "The claim(s) stated as false in the property are disproved by witness: C116_clipped_refuted"
  },
  {
   "property": "C117",
   "status": "proved",
   "theorems": [
    "C117_best_fit",
    "C117_flag",
    "C117_few_points",
    "C117_underdetermined_flag_refuted"
   ],
   "note": "The claim(s) stated as false in the property are disproved by witness: C117_underdetermined_flag_refuted"
  },
  {
   "property": "C118",
   "status": "proved",
   "theorems": [
    "C118_underdetermined",
    "C118_routes_agree",
    "C118_route"
   ],
   "note": ""
  },
  {
   "property": "C119",
   "status": "proved",
   "theorems": [
    "C119_given",
    "C119_random_in_box",
    "C119_distance_start",
    "C119_feasible_start_refuted"
   ],
   "note": "The claim(s) stated as false in the property are disproved by witness: C119_feasible_start_refuted"
  },
  {
   "property": "C120",
   "status": "proved",
   "theorems": [
    "C120_range",
    "C120_unscaled",
    "C120_affine_collapses",
    "C120_node_value_refuted",
    "C120_submitted"
   ],
   "note": "The claim(s) stated as false in the property are disproved by witness: C120_node_value_refuted"
  },
  {
   "property": "C121",
   "status": "proved",
   "theorems": [
    "C121_unique",
    "C121_exists",
    "C121_unisolvence",
    "C121_never_fails",
    "C121_duplicates_refuted",
    "C121_degenerate_refuted"
   ],
   "note": "The claim(s) stated as false in the property are disproved by witness: C121_duplicates_refuted, C121_degenerate_refuted"
  },
  {
   "property": "C122",
   "status": "proved",
   "theorems": [
    "C122_mu",
    "C122_objective"
   ],
   "note": ""
  },
  {
   "property": "C123",
   "status": "proved",
   "theorems": [
    "C123_bumpiness_nonnegative",
    "C123_unique_weights",
    "C123_polynomial"
   ],
   "note": ""
  },
  {
   "property": "C124",
   "status": "proved",
   "theorems": [
    "C124_leave_one_out"
   ],
   "note": ""
  },
  {
   "property": "C125",
   "status": "proved",
   "theorems": [
    "C125_evaluations_declared",
    "C125_own_search",
    "C125_result_declared",
    "C125_unchecked_points_refuted"
   ],
   "note": "The claim(s) stated as false in the property are disproved by witness: C125_unchecked_points_refuted"
  },
  {
   "property": "C126",
   "status": "proved",
   "theorems": [
    "C126_parallel_evaluations_declared"
   ],
   "note": ""
  },
  {
   "property": "C127",
   "status": "proved",
   "theorems": [
    "C127_accepted",
    "C127_settings_used",
    "C127_budget",
    "C127_too_few_points_refuted"
   ],
   "note": "The claim(s) stated as false in the property are disproved by witness: C127_too_few_points_refuted"
  },
  {
   "property": "C128",
   "status": "proved",
   "theorems": [
    "C128_all_fixed_default_refuted",
    "C128_all_fixed_result"
   ],
   "note": "The claim(s) stated as false in the property are disproved by witness: C128_all_fixed_default_refuted"
  },
  {
   "property": "C129",
   "status": "proved",
   "theorems": [
    "C129_user_function_total"
   ],
   "note": ""
  },
  {
   "property": "C130",
   "status": "proved",
   "theorems": [
    "C130_update",
    "C130_discard",
    "C130_plan",
    "C130_limit_not_enforced_refuted",
    "C130_continues"
   ],
   "note": "The claim(s) stated as false in the property are disproved by witness: C130_limit_not_enforced_refuted"
  },
  {
   "property": "C131",
   "status": "proved",
   "theorems": [
    "C131_selection",
    "C131_bound"
   ],
   "note": ""
  },
  {
   "property": "C132",
   "status": "proved",
   "theorems": [
    "C132_noisy_budget",
    "C132_large_sample_refuted",
    "C132_restart_limit_refuted"
   ],
   "note": "The claim(s) stated as false in the property are disproved by witness: C132_large_sample_refuted, C132_restart_limit_refuted"
  },
  {
   "property": "C133",
   "status": "proved",
   "theorems": [
    "C133_needs_result",
    "C133_reuse_fails_refuted",
    "C133_error_bounds_refuted"
   ],
   "note": "The claim(s) stated as false in the property are disproved by witness: C133_reuse_fails_refuted, C133_error_bounds_refuted"
  },
  {
   "property": "C134",
   "status": "proved",
   "theorems": [
    "C134_size",
    "C134_stops",
    "C134_exhaustive",
    "C134_categorical_refuted",
    "C134_repeated_sample_refuted"
   ],
   "note": "The claim(s) stated as false in the property are disproved by witness: C134_categorical_refuted, C134_repeated_sample_refuted"
  },
  {
   "property": "C135",
   "status": "proved",
   "theorems": [
    "C135_when",
    "C135_user_model",
    "C135_latest",
    "C135_final",
    "C135_origin",
    "C135_failed_model_dropped_refuted",
    "C135_unrated_refuted",
    "C135_rated"
   ],
   "note": "The claim(s) stated as false in the property are disproved by witness: C135_failed_model_dropped_refuted, C135_unrated_refuted"
  },
  {
   "property": "C136",
   "status": "proved",
   "theorems": [
    "C136_parallel",
    "C136_user_model_raises_refuted"
   ],
   "note": "The claim(s) stated as false in the property are disproved by witness: C136_user_model_raises_refuted"
  },
  {
   "property": "C137",
   "status": "proved",
   "theorems": [
    "C137_auto",
    "C137_user",
    "C137_algorithm"
   ],
   "note": ""
  },
  {
   "property": "C138",
   "status": "proved",
   "theorems": [
    "C138_benchmarks_declared",
    "C138_evaluation_defined"
   ],
   "note": ""
  },
  {
   "property": "C139",
   "status": "proved",
   "theorems": [
    "C139_declared_optimum_is_minimum",
    "C139_declared_optimum_near_minimum",
    "C139_branin_attained"
   ],
   "note": ""
  },
  {
   "property": "C140",
   "status": "proved",
   "theorems": [
    "C140_declared_optimum_beaten_refuted",
    "C140_gear_refuted"
   ],
   "note": "The claim(s) stated as false in the property are disproved by witness: C140_declared_optimum_beaten_refuted, C140_gear_refuted"
  },
  {
   "property": "C141",
   "status": "proved",
   "theorems": [
    "C141_estimate",
    "C141_predictions_determined",
    "C141_selection"
   ],
   "note": ""
  },
  {
   "property": "C142",
   "status": "proved",
   "theorems": [
    "C142_full_system_singular",
    "C142_selection_blind",
    "C142_run",
    "C142_accurate_phase"
   ],
   "note": ""
  },
  {
   "property": "C143",
   "status": "proved",
   "theorems": [
    "C143_categorical_extends_plain",
    "C143_gear4_category_ignored"
   ],
   "note": ""
  },
  {
   "property": "C144",
   "status": "proved",
   "theorems": [
    "C144_what_is_optimized",
    "C144_accepted_iff",
    "C144_target_option_ignored",
    "C144_target_is_minimum",
    "C144_letter_case"
   ],
   "note": ""
  },
  {
   "property": "C145",
   "status": "proved",
   "theorems": [
    "C145_parallel_noisy_budget",
    "C145_strict_refuted",
    "C145_phase_ends",
    "C145_after_phase"
   ],
   "note": "The claim(s) stated as false in the property are disproved by witness: C145_strict_refuted"
  },
  {
   "property": "C146",
   "status": "proved",
   "theorems": [
    "C146_parallel_restart_keeps_gap",
    "C146_parallel_restart_sample_refuted",
    "C146_stops_iff",
    "C146_reason_to_stop",
    "C146_later_calls_return",
    "C146_evaluation_then_stop",
    "C146_no_restart_then_stop",
    "C146_restart_sample_refuted",
    "C146_error_interval",
    "C146_parallel_stops_iff",
    "C146_parallel_reason",
    "C146_parallel_evaluation_then_stop",
    "C146_parallel_later_calls"
   ],
   "note": "The claim(s) stated as false in the property are disproved by witness: C146_parallel_restart_sample_refuted, C146_restart_sample_refuted"
  },
  {
   "property": "C147",
   "status": "proved",
   "theorems": [
    "C147_due",
    "C147_iff",
    "C147_parallel",
    "C147_parallel_only"
   ],
   "note": ""
  },
  {
   "property": "C148",
   "status": "proved",
   "theorems": [
    "C148_row_removed",
    "C148_nothing_else"
   ],
   "note": ""
  },
  {
   "property": "C149",
   "status": "proved",
   "theorems": [
    "C149_proposals_are_new",
    "C149_samples_are_new",
    "C149_nothing_thrown_away",
    "C149_exception_refuted"
   ],
   "note": "The claim(s) stated as false in the property are disproved by witness: C149_exception_refuted"
  },
  {
   "property": "C150",
   "status": "proved",
   "theorems": [
    "C150_parallel_termination",
    "C150_waiting_unbounded_refuted"
   ],
   "note": "The claim(s) stated as false in the property are disproved by witness: C150_waiting_unbounded_refuted"
  },
  {
   "property": "C151",
   "status": "proved",
   "theorems": [
    "C151_workers_share_stream",
    "C151_same_work_same_results",
    "C151_calls_repeat",
    "C151_reproducible",
    "C151_blocks",
    "C151_one_by_one",
    "C151_creation_restarts",
    "C151_independence_refuted"
   ],
   "note": "The claim(s) stated as false in the property are disproved by witness: C151_independence_refuted"
  },
  {
   "property": "C152",
   "status": "proved",
   "theorems": [
    "C152_shown",
    "C152_no_noise",
    "C152_two_phase_refuted",
    "C152_parallel"
   ],
   "note": "The claim(s) stated as false in the property are disproved by witness: C152_two_phase_refuted"
  },
  {
   "property": "C153",
   "status": "proved",
   "theorems": [
    "C153_branin_minimizers",
    "C153_branin_declared",
    "C153_branin_cat_minimizers",
    "C153_branin_cat_declared",
    "C153_branin_cat_complete_refuted"
   ],
   "note": "The claim(s) stated as false in the property are disproved by witness: C153_branin_cat_complete_refuted"
  },
  {
   "property": "C154",
   "status": "proved",
   "theorems": [
    "C154_begins",
    "C154_limit",
    "C154_continues",
    "C154_ends",
    "C154_frequency_refuted"
   ],
   "note": "The claim(s) stated as false in the property are disproved by witness: C154_frequency_refuted"
  },
  {
   "property": "C155",
   "status": "proved",
   "theorems": [
    "C155_order_of_points",
    "C155_values",
    "C155_superposition",
    "C155_affine_objective",
    "C155_constant_objective",
    "C155_moved",
    "C155_variables",
    "C155_unit_of_length",
    "C155_domain_scaling",
    "C155_unit_of_length_refuted",
    "C155_constant_objective_refuted"
   ],
   "note": "The claim(s) stated as false in the property are disproved by witness: C155_unit_of_length_refuted, C155_constant_objective_refuted"
  },
  {
   "property": "C156",
   "status": "proved",
   "theorems": [
    "C156_limits",
    "C156_limits_noisy",
    "C156_missing",
    "C156_method",
    "C156_method_local",
    "C156_point",
    "C156_start",
    "C156_coefficients",
    "C156_draws"
   ],
   "note": ""
  },
  {
   "property": "C157",
   "status": "proved",
   "theorems": [
    "C157_exhaustive",
    "C157_stops",
    "C157_categorical_refuted"
   ],
   "note": "The claim(s) stated as false in the property are disproved by witness: C157_categorical_refuted"
  },
  {
   "property": "C158",
   "status": "proved",
   "theorems": [
    "C158_monotone",
    "C158_goes_on_only_above_target",
    "C158_accuracy",
    "C158_no_target_refuted"
   ],
   "note": "The claim(s) stated as false in the property are disproved by witness: C158_no_target_refuted"
  },
  {
   "property": "C159",
   "status": "proved",
   "theorems": [
    "C159_clipped",
    "C159_rounding",
    "C159_distance",
    "C159_same_point_discarded",
    "C159_distance_accuracy",
    "C159_discard_accuracy",
    "C159_zero_distance_refuted",
    "C159_nan_point_discarded_refuted"
   ],
   "note": "The claim(s) stated as false in the property are disproved by witness: C159_zero_distance_refuted, C159_nan_point_discarded_refuted"
  },
  {
   "property": "C160",
   "status": "proved",
   "theorems": [
    "C160_values",
    "C160_affine_accuracy",
    "C160_cutoff",
    "C160_unscaled",
    "C160_strict_order_refuted",
    "C160_finite_refuted"
   ],
   "note": "The claim(s) stated as false in the property are disproved by witness: C160_strict_order_refuted, C160_finite_refuted"
  },
  {
   "property": "C161",
   "status": "proved",
   "theorems": [
    "C161_single_categorical_fails_refuted"
   ],
   "note": "The claim(s) stated as false in the property are disproved by witness: C161_single_categorical_fails_refuted"
  }
 ]
}