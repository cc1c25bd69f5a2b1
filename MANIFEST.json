{
 "claims": [
  {
   "property": "C01",
   "status": "proved",
   "theorems": [
    "C01_core_states_exact",
    "C01_core_states_distinct",
    "C01_core_states_sorted"
   ],
   "note": ""
  },
  {
   "property": "C02",
   "status": "proved",
   "theorems": [
    "C02_children_in_core",
    "C02_reachable_in_core"
   ],
   "note": ""
  },
  {
   "property": "C03",
   "status": "proved",
   "theorems": [
    "C03_lags_complete_if_at_most_one",
    "C03_exactly_one_lag_filled",
    "C03_several_lags_refuted"
   ],
   "note": ""
  },
  {
   "property": "C04",
   "status": "proved",
   "theorems": [
    "C04_keys_in_order",
    "C04_groups_partition",
    "C04_indexer_bijection"
   ],
   "note": ""
  },
  {
   "property": "C05",
   "status": "proved",
   "theorems": [
    "C05_one_dense_key",
    "C05_dense_key_describes_state",
    "C05_no_invented_rows",
    "C05_construction_succeeds",
    "C05_heterogeneous_groups_rejected",
    "C05_core_restrictions",
    "C05_collisions_lose_states_refuted"
   ],
   "note": ""
  },
  {
   "property": "C06",
   "status": "proved",
   "theorems": [
    "C06_labels_right_iff",
    "C06_labels_right_without_exogenous_processes",
    "C06_labels_right_static_first",
    "C06_types_and_exogenous_process_refuted",
    "C06_static_after_exogenous_refuted"
   ],
   "note": ""
  },
  {
   "property": "C07",
   "status": "proved",
   "theorems": [
    "C07_availability",
    "C07_processing_again_changes_nothing",
    "C07_ignored_restrictions",
    "C07_more_restrictions"
   ],
   "note": ""
  },
  {
   "property": "C08",
   "status": "proved",
   "theorems": [
    "C08_continuation_values",
    "C08_models_are_closed",
    "C08_collision_breaks_lookup_refuted"
   ],
   "note": ""
  },
  {
   "property": "C09",
   "status": "proved",
   "theorems": [
    "C09_period_counts_choices",
    "C09_experience_counts_choices",
    "C09_lags_are_last_choices"
   ],
   "note": ""
  },
  {
   "property": "C10",
   "status": "proved",
   "theorems": [
    "C10_solution_is_recursive_value",
    "C10_solution_of_any_state_space",
    "C10_myopic_values_are_zero",
    "C10_initial_arrays"
   ],
   "note": ""
  },
  {
   "property": "C11",
   "status": "proved",
   "theorems": [
    "C11_average_of_maximum",
    "C11_strictly_larger_if_all_negative"
   ],
   "note": ""
  },
  {
   "property": "C12",
   "status": "proved",
   "theorems": [
    "C12_values_nonnegative",
    "C12_values_monotone",
    "C12_values_lipschitz",
    "C12_more_choices"
   ],
   "note": ""
  },
  {
   "property": "C13",
   "status": "proved",
   "theorems": [
    "C13_no_rule_is_better",
    "C13_best_rule_exists",
    "C13_best_rule_never_opts_out"
   ],
   "note": ""
  },
  {
   "property": "C14",
   "status": "proved",
   "theorems": [
    "C14_history_irrelevant_with_interpolation",
    "C14_history_irrelevant",
    "C14_other_objects_untouched",
    "C14_calls_return_the_same_object",
    "C14_earlier_results_keep_values_refuted"
   ],
   "note": ""
  },
  {
   "property": "C15",
   "status": "proved",
   "theorems": [
    "C15_undisturbed_calls",
    "C15_separate_directories",
    "C15_shared_directory_refuted",
    "C15_shared_directory_error_refuted"
   ],
   "note": ""
  },
  {
   "property": "C16",
   "status": "proved",
   "theorems": [
    "C16_file_names_differ",
    "C16_files_outside_kept",
    "C16_directory_name",
    "C16_processing_again",
    "C16_directory_location"
   ],
   "note": ""
  },
  {
   "property": "C17",
   "status": "proved",
   "theorems": [
    "C17_wages_and_nonpecs",
    "C17_one_row_per_state"
   ],
   "note": ""
  },
  {
   "property": "C18",
   "status": "proved",
   "theorems": [
    "C18_right_covariance_iff",
    "C18_unavailable_choices_last",
    "C18_uncorrelated_choices",
    "C18_variance_never_larger",
    "C18_correlated_unavailable_choice_refuted"
   ],
   "note": ""
  },
  {
   "property": "C19",
   "status": "proved",
   "theorems": [
    "C19_transformed_draws",
    "C19_wage_shocks_positive_and_bounded"
   ],
   "note": ""
  },
  {
   "property": "C20",
   "status": "proved",
   "theorems": [
    "C20_recorded_choice_is_available",
    "C20_recorded_choice_maximises",
    "C20_other_choice_sets_refuted",
    "C20_simulated_choices_are_optimal"
   ],
   "note": ""
  },
  {
   "property": "C21",
   "status": "proved",
   "theorems": [
    "C21_wage_of_the_maximising_choice"
   ],
   "note": ""
  },
  {
   "property": "C22",
   "status": "proved",
   "theorems": [
    "C22_panel_obeys_law_of_motion",
    "C22_too_few_draws"
   ],
   "note": ""
  },
  {
   "property": "C23",
   "status": "proved",
   "theorems": [
    "C23_rows_of_draws_are_different",
    "C23_rows_of_draws_exist",
    "C23_shocks_of_the_panel",
    "C23_one_step_ahead"
   ],
   "note": ""
  },
  {
   "property": "C24",
   "status": "proved",
   "theorems": [
    "C24_one_step_without_request",
    "C24_requested_periods_are_ignored",
    "C24_no_data"
   ],
   "note": ""
  },
  {
   "property": "C25",
   "status": "proved",
   "theorems": [
    "C25_level_is_drawn_on_its_interval",
    "C25_length_of_the_interval",
    "C25_zero_probability_is_never_drawn",
    "C25_wrong_sum_is_rejected",
    "C25_rounded_sum_zero_probability_refuted",
    "C25_sampled_characteristic"
   ],
   "note": ""
  },
  {
   "property": "C26",
   "status": "proved",
   "theorems": [
    "C26_types_come_from_own_history",
    "C26_sampled_types_are_constant",
    "C26_without_first_period_refuted"
   ],
   "note": ""
  },
  {
   "property": "C27",
   "status": "proved",
   "theorems": [
    "C27_probability_of_a_combination",
    "C27_probabilities_sum_to_one",
    "C27_all_combinations",
    "C27_transition_frame"
   ],
   "note": ""
  },
  {
   "property": "C28",
   "status": "proved",
   "theorems": [
    "C28_weighted_continuation_values",
    "C28_representative_choice_sets"
   ],
   "note": ""
  },
  {
   "property": "C29",
   "status": "proved",
   "theorems": [
    "C29_static_part_is_kept",
    "C29_accepted_layouts"
   ],
   "note": ""
  },
  {
   "property": "C30",
   "status": "proved",
   "theorems": [
    "C30_logarithm_of_sum",
    "C30_bounds",
    "C30_shift"
   ],
   "note": ""
  },
  {
   "property": "C31",
   "status": "proved",
   "theorems": [
    "C31_average_of_logits",
    "C31_sum_to_one"
   ],
   "note": ""
  },
  {
   "property": "C32",
   "status": "proved",
   "theorems": [
    "C32_available_choice",
    "C32_treated_as_next_choice",
    "C32_fails_without_next_choice",
    "C32_unavailable_rejected_refuted"
   ],
   "note": ""
  },
  {
   "property": "C33",
   "status": "proved",
   "theorems": [
    "C33_standard_deviation_of_the_choice",
    "C33_standard_deviation_of_the_position",
    "C33_standard_deviation_of_the_choice_refuted"
   ],
   "note": ""
  },
  {
   "property": "C34",
   "status": "proved",
   "theorems": [
    "C34_conditional_mean",
    "C34_density",
    "C34_no_wage",
    "C34_observed_shock"
   ],
   "note": ""
  },
  {
   "property": "C35",
   "status": "proved",
   "theorems": [
    "C35_conditional_covariance",
    "C35_without_observation",
    "C35_routine_exists"
   ],
   "note": ""
  },
  {
   "property": "C36",
   "status": "proved",
   "theorems": [
    "C36_trailing_block",
    "C36_signs_preserve_product",
    "C36_conditional_covariance",
    "C36_conditional_covariance_refuted",
    "C36_routine_exists",
    "C36_exact_condition",
    "C36_exact_routine_exists"
   ],
   "note": ""
  },
  {
   "property": "C37",
   "status": "proved",
   "theorems": [
    "C37_observed_wage"
   ],
   "note": ""
  },
  {
   "property": "C38",
   "status": "proved",
   "theorems": [
    "C38_mixture_over_types",
    "C38_one_type",
    "C38_type_probabilities",
    "C38_choice_contribution",
    "C38_succeeds"
   ],
   "note": ""
  },
  {
   "property": "C39",
   "status": "proved",
   "theorems": [
    "C39_points_are_feasible",
    "C39_two_per_key_fails",
    "C39_solver_fails"
   ],
   "note": ""
  },
  {
   "property": "C40",
   "status": "proved",
   "theorems": [
    "C40_interpolated_solution",
    "C40_number_of_simulated_states",
    "C40_values_of_a_key"
   ],
   "note": ""
  },
  {
   "property": "C41",
   "status": "proved",
   "theorems": [
    "C41_each_key_gets_its_arguments",
    "C41_several_return_values",
    "C41_order_is_irrelevant",
    "C41_no_common_key",
    "C41_mixed_dictionary_refuted"
   ],
   "note": ""
  },
  {
   "property": "C42",
   "status": "proved",
   "theorems": [
    "C42_each_row_exactly_once",
    "C42_uncovered_rows_are_dropped"
   ],
   "note": ""
  },
  {
   "property": "C43",
   "status": "proved",
   "theorems": [
    "C43_seeds_differ",
    "C43_million_uses_refuted",
    "C43_processing_restarts",
    "C43_accepted_seeds"
   ],
   "note": ""
  },
  {
   "property": "C44",
   "status": "proved",
   "theorems": [
    "C44_order_of_choices",
    "C44_order_of_parameters_is_irrelevant"
   ],
   "note": ""
  },
  {
   "property": "C45",
   "status": "proved",
   "theorems": [
    "C45_labels_to_codes_and_back",
    "C45_unknown_labels_are_errors",
    "C45_many_levels_refuted",
    "C45_labels_in_formulas",
    "C45_level_named_like_a_choice_refuted",
    "C45_level_of_two_observables_refuted",
    "C45_numeric_levels_refuted"
   ],
   "note": ""
  },
  {
   "property": "C46",
   "status": "proved",
   "theorems": [
    "C46_columns_to_data_and_back"
   ],
   "note": ""
  },
  {
   "property": "C47",
   "status": "proved",
   "theorems": [
    "C47_computes_everything_that_can_be_computed",
    "C47_values_are_unique",
    "C47_order_is_irrelevant"
   ],
   "note": ""
  },
  {
   "property": "C48",
   "status": "proved",
   "theorems": [
    "C48_smallest_closed_set"
   ],
   "note": ""
  },
  {
   "property": "C49",
   "status": "proved",
   "theorems": [
    "C49_dependencies",
    "C49_own_dependency_is_never_computed",
    "C49_acyclic_definitions_refuted"
   ],
   "note": ""
  },
  {
   "property": "C50",
   "status": "proved",
   "theorems": [
    "C50_result_if_any",
    "C50_covariates_of_variables_only",
    "C50_order_matters_refuted",
    "C50_self_reference_never_ends"
   ],
   "note": ""
  },
  {
   "property": "C51",
   "status": "proved",
   "theorems": [
    "C51_probabilities_are_reproduced",
    "C51_mixtures_are_rejected",
    "C51_every_level_is_possible",
    "C51_zero_probability_refuted",
    "C51_negative_rejected_refuted"
   ],
   "note": ""
  },
  {
   "property": "C52",
   "status": "proved",
   "theorems": [
    "C52_same_levels_have_the_same_codes",
    "C52_levels_of_observables",
    "C52_missing_levels_are_rejected",
    "C52_additional_levels_refuted"
   ],
   "note": ""
  },
  {
   "property": "C53",
   "status": "proved",
   "theorems": [
    "C53_accepted_iff_in_order",
    "C53_the_order_is_unique",
    "C53_every_list_of_choices_has_an_order",
    "C53_kind_of_matrix",
    "C53_two_kinds_are_rejected"
   ],
   "note": ""
  },
  {
   "property": "C54",
   "status": "proved",
   "theorems": [
    "C54_options_in_effect",
    "C54_accepted_options",
    "C54_other_options_ignored",
    "C54_defaults_suffice"
   ],
   "note": ""
  },
  {
   "property": "C55",
   "status": "proved",
   "theorems": [
    "C55_values_are_kept_in_the_smallest_type"
   ],
   "note": ""
  },
  {
   "property": "C56",
   "status": "proved",
   "theorems": [
    "C56_accepted_data_are_complete",
    "C56_accepted_iff",
    "C56_single_lag_refuted",
    "C56_rows_in_another_order_refuted",
    "C56_negative_periods_refuted"
   ],
   "note": ""
  },
  {
   "property": "C57",
   "status": "proved",
   "theorems": [
    "C57_experience_counts_earlier_choices"
   ],
   "note": ""
  },
  {
   "property": "C58",
   "status": "proved",
   "theorems": [
    "C58_diagonal_weights",
    "C58_missing_moments",
    "C58_other_matrices_refuted"
   ],
   "note": ""
  },
  {
   "property": "C59",
   "status": "proved",
   "theorems": [
    "C59_errors_and_weights_by_label",
    "C59_default_weights_in_any_order",
    "C59_weights_in_another_order_refuted"
   ],
   "note": ""
  },
  {
   "property": "C60",
   "status": "proved",
   "theorems": [
    "C60_lists_return_lists",
    "C60_one_element_list_returns_one_set",
    "C60_one_set_returns_one_set",
    "C60_dictionaries_return_dictionaries",
    "C60_structure_of_one_element_lists_refuted",
    "C60_one_replacement_in_a_list_never_works",
    "C60_one_replacement_is_broadcast",
    "C60_names_are_not_checked",
    "C60_numbers_are_checked"
   ],
   "note": ""
  },
  {
   "property": "C61",
   "status": "proved",
   "theorems": [
    "C61_without_measurement_errors",
    "C61_all_measurement_errors",
    "C61_missing_measurement_errors_are_rejected"
   ],
   "note": ""
  },
  {
   "property": "C62",
   "status": "proved",
   "theorems": [
    "C62_default_maximum_never_binds",
    "C62_experience_bounded_by_default_maximum"
   ],
   "note": ""
  },
  {
   "property": "C63",
   "status": "proved",
   "theorems": [
    "C63_filters_see_final_states_without_initial_experience",
    "C63_filters_see_final_states_refuted"
   ],
   "note": ""
  },
  {
   "property": "C64",
   "status": "proved",
   "theorems": [
    "C64_rows_used_of_the_data",
    "C64_consecutive_identifiers",
    "C64_other_identifiers_refuted"
   ],
   "note": ""
  },
  {
   "property": "C65",
   "status": "proved",
   "theorems": [
    "C65_every_period_needs_an_observation",
    "C65_requested_periods_raise"
   ],
   "note": ""
  },
  {
   "property": "C66",
   "status": "proved",
   "theorems": [
    "C66_solution_is_expected_value"
   ],
   "note": ""
  },
  {
   "property": "C67",
   "status": "proved",
   "theorems": [
    "C67_each_contribution_is_repeated",
    "C67_one_contribution_per_individual_refuted"
   ],
   "note": ""
  },
  {
   "property": "C68",
   "status": "proved",
   "theorems": [
    "C68_wage_with_a_choice_without_wage"
   ],
   "note": ""
  },
  {
   "property": "C69",
   "status": "proved",
   "theorems": [
    "C69_warning_with_a_single_key",
    "C69_no_warning_refuted",
    "C69_needless_warning_refuted"
   ],
   "note": ""
  },
  {
   "property": "C70",
   "status": "proved",
   "theorems": [
    "C70_least_squares",
    "C70_prediction",
    "C70_regressors_are_distances"
   ],
   "note": ""
  },
  {
   "property": "C71",
   "status": "proved",
   "theorems": [
    "C71_names_of_choices",
    "C71_every_wage_is_a_choice_refuted"
   ],
   "note": ""
  },
  {
   "property": "C72",
   "status": "proved",
   "theorems": [
    "C72_observables_in_the_output",
    "C72_every_observable_refuted",
    "C72_same_name_iff"
   ],
   "note": ""
  },
  {
   "property": "C73",
   "status": "proved",
   "theorems": [
    "C73_groups",
    "C73_core_and_dense_variables"
   ],
   "note": ""
  },
  {
   "property": "C74",
   "status": "proved",
   "theorems": [
    "C74_constant_dependencies_refuted",
    "C74_other_dependencies"
   ],
   "note": ""
  },
  {
   "property": "C75",
   "status": "proved",
   "theorems": [
    "C75_number_of_types",
    "C75_baseline_type_is_rejected",
    "C75_types_without_probabilities_fail",
    "C75_baseline_type_has_probability_one_half"
   ],
   "note": ""
  },
  {
   "property": "C76",
   "status": "proved",
   "theorems": [
    "C76_names_are_recovered",
    "C76_names_within_names_are_rejected",
    "C76_single_levels_refuted"
   ],
   "note": ""
  },
  {
   "property": "C77",
   "status": "proved",
   "theorems": [
    "C77_number_of_lagged_choices",
    "C77_codes_of_lagged_choices",
    "C77_only_choices",
    "C77_unknown_labels_get_a_code",
    "C77_unknown_labels_rejected_refuted"
   ],
   "note": ""
  },
  {
   "property": "C78",
   "status": "proved",
   "theorems": [
    "C78_three_lags_are_rejected",
    "C78_valid_data_with_three_lags_refuted",
    "C78_order_of_categories_refuted"
   ],
   "note": ""
  },
  {
   "property": "C79",
   "status": "proved",
   "theorems": [
    "C79_simulated_data"
   ],
   "note": ""
  },
  {
   "property": "C80",
   "status": "proved",
   "theorems": [
    "C80_data_for_plots"
   ],
   "note": ""
  },
  {
   "property": "C81",
   "status": "proved",
   "theorems": [
    "C81_levels_of_initial_experience",
    "C81_maximum_experience",
    "C81_states_of_the_first_period"
   ],
   "note": ""
  },
  {
   "property": "C82",
   "status": "proved",
   "theorems": [
    "C82_covariates_of_types"
   ],
   "note": ""
  },
  {
   "property": "C83",
   "status": "proved",
   "theorems": [
    "C83_data_is_located_iff_in_the_model",
    "C83_undeclared_initial_experience_fails",
    "C83_warning_iff_levels_differ"
   ],
   "note": ""
  },
  {
   "property": "C84",
   "status": "proved",
   "theorems": [
    "C84_accepted_solutions",
    "C84_created_state_spaces_are_accepted",
    "C84_two_lagged_choices_are_rejected"
   ],
   "note": ""
  },
  {
   "property": "C85",
   "status": "proved",
   "theorems": [
    "C85_matrix_of_the_shocks"
   ],
   "note": ""
  },
  {
   "property": "C86",
   "status": "proved",
   "theorems": [
    "C86_discount_factors",
    "C86_discount_factor_is_required",
    "C86_present_bias_favours_immediate_rewards"
   ],
   "note": ""
  },
  {
   "property": "C87",
   "status": "proved",
   "theorems": [
    "C87_sampled_rows_are_states",
    "C87_exactly_the_first_states",
    "C87_sampled_individuals_are_simulated",
    "C87_start_above_maximum_refuted"
   ],
   "note": ""
  },
  {
   "property": "C88",
   "status": "proved",
   "theorems": [
    "C88_panels_pass_the_check_of_data",
    "C88_check_of_simulations_iff",
    "C88_panels_pass_the_check_of_simulations",
    "C88_other_choice_sets_refuted"
   ],
   "note": ""
  },
  {
   "property": "C89",
   "status": "proved",
   "theorems": [
    "C89_data_are_recovered",
    "C89_states_are_recovered"
   ],
   "note": ""
  },
  {
   "property": "C90",
   "status": "proved",
   "theorems": [
    "C90_usual_filters_respect_choices",
    "C90_usual_filters_keep_reachable_states",
    "C90_filters_that_follow_choices",
    "C90_filters_have_to_follow_choices",
    "C90_construction_succeeds_iff_filters_respect_choices",
    "C90_filters_remove_reachable_states_refuted"
   ],
   "note": ""
  },
  {
   "property": "C91",
   "status": "proved",
   "theorems": [
    "C91_templates_stand_for_filters",
    "C91_processing_again_changes_nothing",
    "C91_old_placeholders_are_errors",
    "C91_two_groups_in_a_filter_refuted",
    "C91_documented_placeholder_refuted"
   ],
   "note": ""
  },
  {
   "property": "C92",
   "status": "proved",
   "theorems": [
    "C92_no_smoothing_in_the_limit",
    "C92_error_of_smoothing",
    "C92_much_smoothing",
    "C92_better_choices_are_more_likely"
   ],
   "note": ""
  },
  {
   "property": "C93",
   "status": "proved",
   "theorems": [
    "C93_own_state_and_draws",
    "C93_number_of_periods",
    "C93_more_individuals_first_period",
    "C93_more_individuals_refuted"
   ],
   "note": ""
  },
  {
   "property": "C94",
   "status": "proved",
   "theorems": [
    "C94_replay",
    "C94_same_order_refuted"
   ],
   "note": ""
  },
  {
   "property": "C95",
   "status": "proved",
   "theorems": [
    "C95_expected_values",
    "C95_simulated_paths",
    "C95_parameters",
    "C95_choice_probabilities"
   ],
   "note": ""
  },
  {
   "property": "C96",
   "status": "proved",
   "theorems": [
    "C96_expected_values",
    "C96_simulated_paths",
    "C96_choice_probabilities",
    "C96_level_of_rewards_refuted"
   ],
   "note": ""
  },
  {
   "property": "C97",
   "status": "proved",
   "theorems": [
    "C97_data_keep_their_meaning",
    "C97_missing_values_are_rejected",
    "C97_unknown_levels_refuted"
   ],
   "note": ""
  },
  {
   "property": "C98",
   "status": "proved",
   "theorems": [
    "C98_panel_with_processes",
    "C98_levels_have_their_probability",
    "C98_choices_are_optimal"
   ],
   "note": ""
  },
  {
   "property": "C99",
   "status": "proved",
   "theorems": [
    "C99_appending_individuals",
    "C99_inserting_individuals_refuted",
    "C99_smaller_key_refuted"
   ],
   "note": ""
  },
  {
   "property": "C100",
   "status": "proved",
   "theorems": [
    "C100_same_value",
    "C100_values_add_up",
    "C100_large_identifiers_refuted",
    "C100_row_counts",
    "C100_rows_of_observations",
    "C100_without_types",
    "C100_only_observed_wages_refuted",
    "C100_type_probabilities",
    "C100_types_of_rows_refuted"
   ],
   "note": ""
  },
  {
   "property": "C101",
   "status": "proved",
   "theorems": [
    "C101_columns_of_simulated_data",
    "C101_columns_of_the_panel",
    "C101_names_stay_different",
    "C101_wage_of_recorded_choice_refuted",
    "C101_states_with_names_of_columns_refuted"
   ],
   "note": ""
  },
  {
   "property": "C102",
   "status": "proved",
   "theorems": [
    "C102_probabilities_agree",
    "C102_weights_of_the_criterion"
   ],
   "note": ""
  },
  {
   "property": "C103",
   "status": "proved",
   "theorems": [
    "C103_processing_again",
    "C103_labels_with_names_of_covariates_refuted",
    "C103_covariates_with_names_of_types_refuted"
   ],
   "note": ""
  },
  {
   "property": "C104",
   "status": "proved",
   "theorems": [
    "C104_contributions",
    "C104_value",
    "C104_ranking_of_parameters",
    "C104_routine_exists"
   ],
   "note": ""
  },
  {
   "property": "C105",
   "status": "proved",
   "theorems": [
    "C105_unrelated_changes",
    "C105_repeated_calls",
    "C105_appended_constraints_stay",
    "C105_independent_of_other_models_refuted",
    "C105_different_lists_refuted",
    "C105_all_example_models",
    "C105_unknown_models_rejected_refuted",
    "C105_data_of_example_models",
    "C105_data_of_all_models_refuted"
   ],
   "note": ""
  },
  {
   "property": "C106",
   "status": "proved",
   "theorems": [
    "C106_states_of_a_period",
    "C106_states_of_the_model",
    "C106_bound_of_a_period",
    "C106_bound_of_the_model"
   ],
   "note": ""
  },
  {
   "property": "C107",
   "status": "proved",
   "theorems": [
    "C107_random_draws_of_the_solution",
    "C107_different_positions",
    "C107_points_of_the_solution",
    "C107_shared_draws",
    "C107_draws_of_the_simulation",
    "C107_names_of_sequences",
    "C107_more_periods",
    "C107_random_draws_are_extendable",
    "C107_more_draws_refuted",
    "C107_seeds_of_points"
   ],
   "note": ""
  },
  {
   "property": "C108",
   "status": "proved",
   "theorems": [
    "C108_other_labels",
    "C108_parameters_of_other_labels",
    "C108_first_type_is_normalised",
    "C108_random_draws_refuted"
   ],
   "note": ""
  },
  {
   "property": "C109",
   "status": "proved",
   "theorems": [
    "C109_order_of_parameters",
    "C109_accepted_orders"
   ],
   "note": ""
  },
  {
   "property": "C110",
   "status": "proved",
   "theorems": [
    "C110_usable_data",
    "C110_checked_data_are_usable_refuted",
    "C110_observed_choices_are_available_refuted"
   ],
   "note": ""
  },
  {
   "property": "C111",
   "status": "proved",
   "theorems": [
    "C111_rewards_have_their_parameters",
    "C111_unknown_parameters_are_ignored",
    "C111_misspelled_parameters_are_rejected_refuted"
   ],
   "note": ""
  },
  {
   "property": "C112",
   "status": "proved",
   "theorems": [
    "C112_variables_have_their_levels",
    "C112_mixtures_are_rejected",
    "C112_probabilities",
    "C112_observables_of_the_model",
    "C112_capital_letters_refuted"
   ],
   "note": ""
  },
  {
   "property": "C113",
   "status": "proved",
   "theorems": [
    "C113_types",
    "C113_initial_experience",
    "C113_repeated_levels_are_rejected",
    "C113_observables",
    "C113_many_observables_are_rejected",
    "C113_labels",
    "C113_lagged_choices",
    "C113_lagged_probabilities_refuted"
   ],
   "note": ""
  },
  {
   "property": "C114",
   "status": "proved",
   "theorems": [
    "C114_simulated_states",
    "C114_different_seeds"
   ],
   "note": ""
  },
  {
   "property": "C115",
   "status": "proved",
   "theorems": [
    "C115_only_the_future",
    "C115_longer_horizon",
    "C115_more_choices_refuted"
   ],
   "note": ""
  },
  {
   "property": "C116",
   "status": "proved",
   "theorems": [
    "C116_same_structure",
    "C116_same_states",
    "C116_maximum_experience_refuted"
   ],
   "note": ""
  },
  {
   "property": "C117",
   "status": "proved",
   "theorems": [
    "C117_prepared_rows",
    "C117_regular_files_are_accepted",
    "C117_missing_columns",
    "C117_only_observed_before_sixteen_refuted",
    "C117_not_observed_at_fifteen_refuted"
   ],
   "note": ""
  },
  {
   "property": "C118",
   "status": "proved",
   "theorems": [
    "C118_inputs_are_not_changed",
    "C118_history_does_not_matter",
    "C118_later_changes_do_not_matter",
    "C118_processed_options"
   ],
   "note": ""
  },
  {
   "property": "C119",
   "status": "proved",
   "theorems": [
    "C119_likelihoods_of_histories_sum_to_one"
   ],
   "note": ""
  },
  {
   "property": "C120",
   "status": "proved",
   "theorems": [
    "C120_frames",
    "C120_files",
    "C120_formats_agree",
    "C120_other_inputs",
    "C120_order_of_levels_refuted"
   ],
   "note": ""
  },
  {
   "property": "C121",
   "status": "proved",
   "theorems": [
    "C121_lags_without_parameters",
    "C121_probabilities",
    "C121_superfluous_lags_are_ignored"
   ],
   "note": ""
  },
  {
   "property": "C122",
   "status": "proved",
   "theorems": [
    "C122_observables_and_types",
    "C122_exogenous_processes",
    "C122_levels_of_processes"
   ],
   "note": ""
  },
  {
   "property": "C123",
   "status": "proved",
   "theorems": [
    "C123_average_is_at_most_the_expected_value",
    "C123_average_is_the_expected_value",
    "C123_without_paying_choices_refuted"
   ],
   "note": ""
  },
  {
   "property": "C124",
   "status": "proved",
   "theorems": [
    "C124_never_available",
    "C124_draws_of_the_simulation_refuted"
   ],
   "note": ""
  },
  {
   "property": "C125",
   "status": "proved",
   "theorems": [
    "C125_wage_reproduced",
    "C125_same_density",
    "C125_without_wage",
    "C125_same_covariances",
    "C125_same_covariances_refuted"
   ],
   "note": ""
  },
  {
   "property": "C126",
   "status": "proved",
   "theorems": [
    "C126_simulated_choice",
    "C126_large_increase",
    "C126_probability",
    "C126_contribution"
   ],
   "note": ""
  },
  {
   "property": "C127",
   "status": "proved",
   "theorems": [
    "C127_likelihood_of_simulated_data",
    "C127_rows_of_states"
   ],
   "note": ""
  },
  {
   "property": "C128",
   "status": "proved",
   "theorems": [
    "C128_indexed_data",
    "C128_other_columns",
    "C128_missing_column",
    "C128_period_needed",
    "C128_no_periods",
    "C128_columns_instead_of_index",
    "C128_set_index",
    "C128_identifier_needed",
    "C128_twice"
   ],
   "note": ""
  },
  {
   "property": "C129",
   "status": "proved",
   "theorems": [
    "C129_n_step_ahead_with_data",
    "C129_one_step_ahead",
    "C129_missing_values_are_replaced_refuted"
   ],
   "note": ""
  },
  {
   "property": "C130",
   "status": "proved",
   "theorems": [
    "C130_convex_in_coefficients",
    "C130_shocks_are_valuable"
   ],
   "note": ""
  },
  {
   "property": "C131",
   "status": "proved",
   "theorems": [
    "C131_table_describes_a_model",
    "C131_solution_of_the_table"
   ],
   "note": ""
  },
  {
   "property": "C132",
   "status": "proved",
   "theorems": [
    "C132_simulated_data_of_the_table"
   ],
   "note": ""
  },
  {
   "property": "C133",
   "status": "proved",
   "theorems": [
    "C133_coefficients_of_zero"
   ],
   "note": ""
  },
  {
   "property": "C134",
   "status": "proved",
   "theorems": [
    "C134_choice_given_wage",
    "C134_missing_wage",
    "C134_observed_wage"
   ],
   "note": ""
  }
 ]
}