{
 "claims": [
  {
   "property": "C01",
   "status": "proved",
   "theorems": [
    "C01_l1_prox_minimises"
   ],
   "note": ""
  },
  {
   "property": "C02",
   "status": "proved",
   "theorems": [
    "C02_elastic_net_prox_minimises"
   ],
   "note": ""
  },
  {
   "property": "C03",
   "status": "proved",
   "theorems": [
    "C03_mcp_prox_minimises",
    "C03_mcp_prox_small_gamma_refuted"
   ],
   "note": ""
  },
  {
   "property": "C04",
   "status": "proved",
   "theorems": [
    "C04_l05_prox_minimises",
    "C04_l05_prox_not_a_number"
   ],
   "note": ""
  },
  {
   "property": "C05",
   "status": "proved",
   "theorems": [
    "C05_l21_prox_minimises",
    "C05_l21_prox_not_a_number"
   ],
   "note": ""
  },
  {
   "property": "C06",
   "status": "proved",
   "theorems": [
    "C06_block_elastic_net_prox_minimises"
   ],
   "note": ""
  },
  {
   "property": "C07",
   "status": "proved",
   "theorems": [
    "C07_block_mcp_prox_minimises"
   ],
   "note": ""
  },
  {
   "property": "C08",
   "status": "proved",
   "theorems": [
    "C08_l1_scores_are_distances",
    "C08_elastic_net_scores_are_distances",
    "C08_mcp_scores_are_distances"
   ],
   "note": ""
  },
  {
   "property": "C09",
   "status": "proved",
   "theorems": [
    "C09_l21_scores_are_distances"
   ],
   "note": ""
  },
  {
   "property": "C10",
   "status": "proved",
   "theorems": [
    "C10_stops_at_zero",
    "C10_zero_not_optimal",
    "C10_block_elastic_net_scores_nonzero_rows",
    "C10_block_elastic_net_scores_refuted"
   ],
   "note": ""
  },
  {
   "property": "C11",
   "status": "proved",
   "theorems": [
    "C11_block_mcp_scores_outside_concave_range",
    "C11_block_mcp_score_ignores_gradient",
    "C11_block_mcp_scores_refuted"
   ],
   "note": ""
  },
  {
   "property": "C12",
   "status": "proved",
   "theorems": [
    "C12_l05_returns_zeros"
   ],
   "note": ""
  },
  {
   "property": "C13",
   "status": "proved",
   "theorems": [
    "C13_quadratic_dense",
    "C13_quadratic_sparse"
   ],
   "note": ""
  },
  {
   "property": "C14",
   "status": "proved",
   "theorems": [
    "C14_logistic_dense",
    "C14_logistic_sparse"
   ],
   "note": ""
  },
  {
   "property": "C15",
   "status": "proved",
   "theorems": [
    "C15_multitask_dense",
    "C15_multitask_sparse"
   ],
   "note": ""
  },
  {
   "property": "C16",
   "status": "proved",
   "theorems": [
    "C16_quadratic_dense",
    "C16_quadratic_sparse",
    "C16_logistic_dense",
    "C16_logistic_sparse",
    "C16_multitask_dense",
    "C16_multitask_sparse",
    "C16_logistic_large_target_refuted",
    "C16_repeated_entries_refuted"
   ],
   "note": ""
  },
  {
   "property": "C17",
   "status": "proved",
   "theorems": [
    "C17_quadratic",
    "C17_logistic",
    "C17_multitask",
    "C17_model_fits",
    "C17_alpha_max",
    "C17_step_sizes_with_repeats_refuted"
   ],
   "note": ""
  },
  {
   "property": "C18",
   "status": "proved",
   "theorems": [
    "C18_sparse_fit_equals_dense",
    "C18_sparse_logistic_equals_dense",
    "C18_sparse_multitask_equals_dense"
   ],
   "note": ""
  },
  {
   "property": "C19",
   "status": "proved",
   "theorems": [
    "C19_floats",
    "C19_floats_sparse",
    "C19_floats_multitask_refuted",
    "C19_null_model",
    "C19_null_model_multitask",
    "C19_null_model_multitask_enet"
   ],
   "note": ""
  },
  {
   "property": "C20",
   "status": "proved",
   "theorems": [
    "C20_zero_not_optimal",
    "C20_sharp",
    "C20_sharp_multitask_lasso"
   ],
   "note": ""
  },
  {
   "property": "C21",
   "status": "proved",
   "theorems": [
    "C21_working_set",
    "C21_working_set_multitask",
    "C21_infinite_scores_refuted"
   ],
   "note": ""
  },
  {
   "property": "C22",
   "status": "proved",
   "theorems": [
    "C22_no_panic_dense",
    "C22_no_panic_sparse",
    "C22_no_panic_multitask_dense",
    "C22_no_panic_multitask_sparse",
    "C22_no_panic_solver"
   ],
   "note": ""
  },
  {
   "property": "C23",
   "status": "proved",
   "theorems": [
    "C23_panics_unless_zero_is_stationary",
    "C23_panics_below_alpha_max",
    "C23_panics_below_alpha_max_multitask",
    "C23_default_estimators",
    "C23_default_estimators_multitask",
    "C23_small_problems",
    "C23_small_problems_multitask"
   ],
   "note": ""
  },
  {
   "property": "C24",
   "status": "proved",
   "theorems": [
    "C24_updates_track_dense",
    "C24_updates_track_sparse",
    "C24_updates_track_dense_mt",
    "C24_updates_track_sparse_mt",
    "C24_extrapolated_fit_dense",
    "C24_extrapolated_fit_sparse",
    "C24_extrapolated_fit_dense_mt",
    "C24_extrapolated_fit_sparse_mt"
   ],
   "note": ""
  },
  {
   "property": "C25",
   "status": "proved",
   "theorems": [
    "C25_no_worse_than_zero",
    "C25_no_worse_than_zero_multitask"
   ],
   "note": ""
  },
  {
   "property": "C26",
   "status": "proved",
   "theorems": [
    "C26_more_iterations_never_hurt",
    "C26_more_iterations_never_hurt_multitask"
   ],
   "note": ""
  },
  {
   "property": "C27",
   "status": "proved",
   "theorems": [
    "C27_convergence",
    "C27_convergence_multitask_lasso"
   ],
   "note": ""
  },
  {
   "property": "C28",
   "status": "proved",
   "theorems": [
    "C28_certificate",
    "C28_certificate_multitask",
    "C28_gap_of_fit",
    "C28_gap_of_fit_multitask",
    "C28_fits_are_near_optimal",
    "C28_multitask_lasso_near_optimal"
   ],
   "note": ""
  },
  {
   "property": "C29",
   "status": "proved",
   "theorems": [
    "C29_converged_is_final",
    "C29_converged_is_final_multitask_lasso"
   ],
   "note": ""
  },
  {
   "property": "C30",
   "status": "proved",
   "theorems": [
    "C30_extrapolation_outcome",
    "C30_extrapolation_outcome_multitask"
   ],
   "note": ""
  },
  {
   "property": "C31",
   "status": "proved",
   "theorems": [
    "C31_not_anderson_weights_refuted"
   ],
   "note": ""
  },
  {
   "property": "C32",
   "status": "proved",
   "theorems": [
    "C32_exact_when_lu_factorisation_exists",
    "C32_exact_on_positive_definite",
    "C32_semidefinite_success_is_the_solution",
    "C32_semidefinite_error_iff_singular",
    "C32_wrong_answer_refuted",
    "C32_nonsingular_reported_singular_refuted"
   ],
   "note": ""
  },
  {
   "property": "C33",
   "status": "proved",
   "theorems": [
    "C33_validation_reports_first_violation",
    "C33_validation_returns_parameters_unchanged",
    "C33_accepted_ranges",
    "C33_check_unwrap"
   ],
   "note": ""
  },
  {
   "property": "C34",
   "status": "proved",
   "theorems": [
    "C34_nan_hyperparameters_accepted",
    "C34_negative_zero_rejected"
   ],
   "note": ""
  },
  {
   "property": "C35",
   "status": "proved",
   "theorems": [
    "C35_block_mcp_accepts_any_gamma",
    "C35_single_task_mcp_rejects_small_gamma"
   ],
   "note": ""
  },
  {
   "property": "C36",
   "status": "proved",
   "theorems": [
    "C36_setters_last_call_wins",
    "C36_solver_setters_last_call_wins",
    "C36_defaults",
    "C36_documented_l1_ratio_refuted"
   ],
   "note": ""
  },
  {
   "property": "C37",
   "status": "proved",
   "theorems": [
    "C37_single_task_estimators_are_solver_runs",
    "C37_multi_task_estimators_are_solver_runs",
    "C37_verbose_has_no_influence"
   ],
   "note": ""
  },
  {
   "property": "C38",
   "status": "proved",
   "theorems": [
    "C38_one_task_dense",
    "C38_one_task_sparse",
    "C38_elastic_net_refuted"
   ],
   "note": ""
  },
  {
   "property": "C39",
   "status": "proved",
   "theorems": [
    "C39_zero_column",
    "C39_zero_column_multitask"
   ],
   "note": ""
  },
  {
   "property": "C40",
   "status": "proved",
   "theorems": [
    "C40_nan_target",
    "C40_nan_target_multitask"
   ],
   "note": ""
  },
  {
   "property": "C41",
   "status": "proved",
   "theorems": [
    "C41_single_target_view"
   ],
   "note": ""
  },
  {
   "property": "C42",
   "status": "proved",
   "theorems": [
    "C42_separable_penalty_values",
    "C42_block_penalty_values",
    "C42_penalties_vanish_at_zero",
    "C42_mcp_flat_and_continuous"
   ],
   "note": ""
  },
  {
   "property": "C43",
   "status": "proved",
   "theorems": [
    "C43_python_mcp_rejects_alpha_below_one",
    "C43_python_mcp_accepts_any_gamma",
    "C43_python_elastic_net_rejects_alpha_above_one",
    "C43_python_elastic_net_accepts_any_ratio",
    "C43_python_constructors"
   ],
   "note": ""
  },
  {
   "property": "C44",
   "status": "proved",
   "theorems": [
    "C44_python_predict_with_several_coefficients_raises",
    "C44_python_predict_zero_coefficient_claims_unfitted",
    "C44_python_multitask_predict_raises",
    "C44_python_predict_returns",
    "C44_python_predict_values"
   ],
   "note": ""
  },
  {
   "property": "C45",
   "status": "proved",
   "theorems": [
    "C45_row_order_dense",
    "C45_row_order_sparse",
    "C45_row_order_logistic",
    "C45_row_order_multitask",
    "C45_column_signs",
    "C45_column_signs_multitask",
    "C45_column_signs_accelerated_refuted"
   ],
   "note": ""
  },
  {
   "property": "C46",
   "status": "proved",
   "theorems": [
    "C46_nan_coefficients_refuted"
   ],
   "note": ""
  },
  {
   "property": "C47",
   "status": "proved",
   "theorems": [
    "C47_python_zero_K_or_p0_panics"
   ],
   "note": ""
  },
  {
   "property": "C48",
   "status": "proved",
   "theorems": [
    "C48_strict_progress",
    "C48_strict_progress_multitask_lasso"
   ],
   "note": ""
  },
  {
   "property": "C49",
   "status": "proved",
   "theorems": [
    "C49_python_fit_is_native_fit",
    "C49_python_value_error",
    "C49_python_no_type_error"
   ],
   "note": ""
  },
  {
   "property": "C50",
   "status": "proved",
   "theorems": [
    "C50_python_multitask_fit_is_native_fit",
    "C50_python_multitask_bad_shapes",
    "C50_python_multitask_value_error"
   ],
   "note": ""
  },
  {
   "property": "C51",
   "status": "proved",
   "theorems": [
    "C51_bounded",
    "C51_bounded_multitask",
    "C51_level"
   ],
   "note": ""
  },
  {
   "property": "C52",
   "status": "proved",
   "theorems": [
    "C52_zero_optimal",
    "C52_null_model",
    "C52_sharp"
   ],
   "note": ""
  },
  {
   "property": "C53",
   "status": "proved",
   "theorems": [
    "C53_predictions",
    "C53_predictions_multitask",
    "C53_elastic_net",
    "C53_elastic_net_multitask",
    "C53_settings_do_not_matter"
   ],
   "note": ""
  },
  {
   "property": "C54",
   "status": "proved",
   "theorems": [
    "C54_enet_settles",
    "C54_enet_optimal",
    "C54_enet_criterion_met_refuted",
    "C54_block_mcp"
   ],
   "note": ""
  },
  {
   "property": "C55",
   "status": "proved",
   "theorems": [
    "C55_closed_form",
    "C55_closed_form_multitask",
    "C55_closed_form_optimal",
    "C55_closed_form_optimal_multitask"
   ],
   "note": ""
  },
  {
   "property": "C56",
   "status": "proved",
   "theorems": [
    "C56_units",
    "C56_units_multitask",
    "C56_units_multitask_enet_refuted"
   ],
   "note": ""
  },
  {
   "property": "C57",
   "status": "proved",
   "theorems": [
    "C57_repeated_samples",
    "C57_repeated_samples_multitask"
   ],
   "note": ""
  },
  {
   "property": "C58",
   "status": "proved",
   "theorems": [
    "C58_dense",
    "C58_dense_multitask",
    "C58_dense_logistic",
    "C58_sparse",
    "C58_sparse_multitask",
    "C58_sparse_logistic",
    "C58_alpha_max",
    "C58_empty_indptr",
    "C58_surplus_samples_refused_refuted"
   ],
   "note": ""
  },
  {
   "property": "C59",
   "status": "proved",
   "theorems": [
    "C59_models",
    "C59_models_multitask",
    "C59_solutions",
    "C59_path",
    "C59_path_multitask",
    "C59_larger_alpha_sparser_refuted"
   ],
   "note": ""
  },
  {
   "property": "C60",
   "status": "proved",
   "theorems": [
    "C60_models",
    "C60_targets",
    "C60_targets_multitask"
   ],
   "note": ""
  },
  {
   "property": "C61",
   "status": "proved",
   "theorems": [
    "C61_column_order",
    "C61_column_order_multitask",
    "C61_coefficients_follow_columns_refuted"
   ],
   "note": ""
  },
  {
   "property": "C62",
   "status": "proved",
   "theorems": [
    "C62_correlations",
    "C62_correlations_multitask",
    "C62_exact_zeros",
    "C62_exact_zeros_multitask"
   ],
   "note": ""
  },
  {
   "property": "C63",
   "status": "proved",
   "theorems": [
    "C63_same_level",
    "C63_same_level_multitask",
    "C63_column_targets",
    "C63_nan_column",
    "C63_no_features",
    "C63_always_the_same_refuted"
   ],
   "note": ""
  },
  {
   "property": "C64",
   "status": "proved",
   "theorems": [
    "C64_toeplitz",
    "C64_ranges"
   ],
   "note": ""
  },
  {
   "property": "C65",
   "status": "proved",
   "theorems": [
    "C65_signal_to_noise",
    "C65_signal_to_noise_given",
    "C65_no_noise",
    "C65_low_density",
    "C65_documented_coefficients_refused",
    "C65_other_number_of_tasks"
   ],
   "note": ""
  },
  {
   "property": "C66",
   "status": "proved",
   "theorems": [
    "C66_targets_without_noise",
    "C66_perfect_fit",
    "C66_multitask_data"
   ],
   "note": ""
  },
  {
   "property": "C67",
   "status": "proved",
   "theorems": [
    "C67_all_close",
    "C67_all_close_2d",
    "C67_special_values",
    "C67_lengths"
   ],
   "note": ""
  },
  {
   "property": "C68",
   "status": "proved",
   "theorems": [
    "C68_budget",
    "C68_budget_multitask_lasso"
   ],
   "note": ""
  },
  {
   "property": "C69",
   "status": "proved",
   "theorems": [
    "C69_negated_targets",
    "C69_negated_targets_multitask"
   ],
   "note": ""
  },
  {
   "property": "C70",
   "status": "proved",
   "theorems": [
    "C70_combined_tasks",
    "C70_combined_tasks_predictions",
    "C70_task_order_accelerated_refuted"
   ],
   "note": ""
  },
  {
   "property": "C71",
   "status": "proved",
   "theorems": [
    "C71_nan_comparison_never_panics",
    "C71_nan_comparison_never_panics_solver",
    "C71_nan_comparison_never_panics_solver_multitask",
    "C71_sort_panics_iff"
   ],
   "note": ""
  },
  {
   "property": "C72",
   "status": "proved",
   "theorems": [
    "C72_nan_spreads",
    "C72_one_nan_ruins_elastic_net",
    "C72_one_nan_ruins_mcp",
    "C72_one_nan_ruins_multitask"
   ],
   "note": ""
  },
  {
   "property": "C73",
   "status": "proved",
   "theorems": [
    "C73_lasso_never_selects_a_nan_column",
    "C73_logistic_never_selects_a_nan_column"
   ],
   "note": ""
  },
  {
   "property": "C74",
   "status": "proved",
   "theorems": [
    "C74_zero_spreads",
    "C74_lasso_ignores_dead_columns",
    "C74_logistic_ignores_dead_columns",
    "C74_with_acceleration_refuted"
   ],
   "note": ""
  },
  {
   "property": "C75",
   "status": "proved",
   "theorems": [
    "C75_soft_thresholding_correctly_rounded",
    "C75_exact_zeros",
    "C75_shrinks_keeps_sign_monotone",
    "C75_l1_prox_error",
    "C75_nonexpansive_refuted"
   ],
   "note": ""
  },
  {
   "property": "C76",
   "status": "proved",
   "theorems": [
    "C76_gradient_error",
    "C76_step_constant_error",
    "C76_loss_error",
    "C76_l1_value_error",
    "C76_alpha_max_error"
   ],
   "note": ""
  },
  {
   "property": "C77",
   "status": "proved",
   "theorems": [
    "C77_fit_tracks_coefficients"
   ],
   "note": ""
  },
  {
   "property": "C78",
   "status": "proved",
   "theorems": [
    "C78_score_error",
    "C78_passed_test_bounds_true_violation"
   ],
   "note": ""
  },
  {
   "property": "C79",
   "status": "proved",
   "theorems": [
    "C79_step_error"
   ],
   "note": ""
  },
  {
   "property": "C80",
   "status": "proved",
   "theorems": [
    "C80_objective_error",
    "C80_extrapolation_dense",
    "C80_extrapolation_sparse"
   ],
   "note": ""
  },
  {
   "property": "C81",
   "status": "proved",
   "theorems": [
    "C81_course_of_a_run",
    "C81_penalties",
    "C81_multitask_course_of_a_run",
    "C81_multitask_penalties"
   ],
   "note": ""
  },
  {
   "property": "C82",
   "status": "proved",
   "theorems": [
    "C82_fit_drift_dense",
    "C82_fit_drift_sparse",
    "C82_run_drift_dense",
    "C82_run_drift_sparse"
   ],
   "note": ""
  },
  {
   "property": "C83",
   "status": "proved",
   "theorems": [
    "C83_float_lasso_dense",
    "C83_float_lasso_sparse",
    "C83_float_elastic_net_dense",
    "C83_float_elastic_net_sparse"
   ],
   "note": ""
  },
  {
   "property": "C84",
   "status": "proved",
   "theorems": [
    "C84_datafits_can_be_reused",
    "C84_stale_gradient_refuted",
    "C84_uninitialised",
    "C84_uninitialised_updates",
    "C84_uninitialised_gradient",
    "C84_uninitialised_further_components"
   ],
   "note": ""
  },
  {
   "property": "C85",
   "status": "proved",
   "theorems": [
    "C85_sample_labels"
   ],
   "note": ""
  },
  {
   "property": "C86",
   "status": "proved",
   "theorems": [
    "C86_stored_layout",
    "C86_entry_order_refuted"
   ],
   "note": ""
  },
  {
   "property": "C87",
   "status": "proved",
   "theorems": [
    "C87_vector_or_column"
   ],
   "note": ""
  },
  {
   "property": "C88",
   "status": "proved",
   "theorems": [
    "C88_ratio_one",
    "C88_ratio_one_floats",
    "C88_multitask_refuted"
   ],
   "note": ""
  },
  {
   "property": "C89",
   "status": "proved",
   "theorems": [
    "C89_equations",
    "C89_least_squares",
    "C89_ridge"
   ],
   "note": ""
  },
  {
   "property": "C90",
   "status": "proved",
   "theorems": [
    "C90_grouping",
    "C90_identical_columns",
    "C90_lasso_refuted"
   ],
   "note": ""
  },
  {
   "property": "C91",
   "status": "proved",
   "theorems": [
    "C91_budget",
    "C91_budget_multitask",
    "C91_estimators",
    "C91_exact",
    "C91_exact_multitask",
    "C91_attained"
   ],
   "note": ""
  },
  {
   "property": "C92",
   "status": "proved",
   "theorems": [
    "C92_few_epochs",
    "C92_few_epochs_multitask",
    "C92_few_epochs_estimators",
    "C92_more_epochs_refuted",
    "C92_unused_K",
    "C92_unused_K_multitask",
    "C92_large_working_set",
    "C92_large_working_set_multitask",
    "C92_no_epochs",
    "C92_no_epochs_multitask"
   ],
   "note": ""
  },
  {
   "property": "C93",
   "status": "proved",
   "theorems": [
    "C93_second_moments",
    "C93_second_moments_multitask",
    "C93_mixed_samples",
    "C93_mixed_samples_multitask"
   ],
   "note": ""
  },
  {
   "property": "C94",
   "status": "proved",
   "theorems": [
    "C94_ridge_in_the_data",
    "C94_augmented",
    "C94_objective"
   ],
   "note": ""
  },
  {
   "property": "C95",
   "status": "proved",
   "theorems": [
    "C95_squared_loss",
    "C95_one_sample_sums",
    "C95_squared_loss_multitask",
    "C95_repeated_loss_multitask",
    "C95_gradient_multitask",
    "C95_logistic_loss",
    "C95_logistic_loss_short",
    "C95_dense_gradient_refused",
    "C95_logistic_gradient_longer",
    "C95_sparse_gradient_longer",
    "C95_dense_update",
    "C95_dense_sparse_agree_refuted"
   ],
   "note": ""
  },
  {
   "property": "C96",
   "status": "proved",
   "theorems": [
    "C96_stricter_never_hurts",
    "C96_stricter_never_hurts_multitask",
    "C96_infinite",
    "C96_infinite_multitask",
    "C96_stricter_returns_refuted"
   ],
   "note": ""
  },
  {
   "property": "C97",
   "status": "proved",
   "theorems": [
    "C97_linear_rate",
    "C97_coefficients"
   ],
   "note": ""
  },
  {
   "property": "C98",
   "status": "proved",
   "theorems": [
    "C98_rate",
    "C98_rate_multitask_lasso"
   ],
   "note": ""
  },
  {
   "property": "C99",
   "status": "proved",
   "theorems": [
    "C99_lasso_recovery",
    "C99_multitask_lasso_recovery"
   ],
   "note": ""
  },
  {
   "property": "C100",
   "status": "proved",
   "theorems": [
    "C100_coefficients",
    "C100_predictions",
    "C100_multitask_predictions"
   ],
   "note": ""
  },
  {
   "property": "C101",
   "status": "proved",
   "theorems": [
    "C101_changed_samples",
    "C101_multitask_changed_samples"
   ],
   "note": ""
  },
  {
   "property": "C102",
   "status": "proved",
   "theorems": [
    "C102_two_floating_fits",
    "C102_same_hyperparameters"
   ],
   "note": ""
  },
  {
   "property": "C103",
   "status": "proved",
   "theorems": [
    "C103_reported_value",
    "C103_single_precision",
    "C103_strength_rejected_again",
    "C103_tolerance_rejected_again",
    "C103_shown_value_invalid_refuted"
   ],
   "note": ""
  },
  {
   "property": "C104",
   "status": "proved",
   "theorems": [
    "C104_unselected_columns",
    "C104_added_columns"
   ],
   "note": ""
  },
  {
   "property": "C105",
   "status": "proved",
   "theorems": [
    "C105_added_samples"
   ],
   "note": ""
  },
  {
   "property": "C106",
   "status": "proved",
   "theorems": [
    "C106_proportional_columns",
    "C106_duplicate_column"
   ],
   "note": ""
  },
  {
   "property": "C107",
   "status": "proved",
   "theorems": [
    "C107_lasso_selects_no_irrelevant_feature",
    "C107_multitask_lasso_selects_no_irrelevant_feature"
   ],
   "note": ""
  },
  {
   "property": "C108",
   "status": "proved",
   "theorems": [
    "C108_refit",
    "C108_mcp_unbiased",
    "C108_shrinks",
    "C108_multitask_lasso",
    "C108_block_mcp_unbiased"
   ],
   "note": ""
  }
 ]
}