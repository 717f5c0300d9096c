{
 "claims": [
  {
   "property": "C01",
   "status": "proved",
   "theorems": [
    "C01_dual_quick_sort",
    "C01_pairs_permuted"
   ],
   "note": ""
  },
  {
   "property": "C02",
   "status": "proved",
   "theorems": [
    "C02_stored_description",
    "C02_scale_defined_iff"
   ],
   "note": ""
  },
  {
   "property": "C03",
   "status": "proved",
   "theorems": [
    "C03_saturation"
   ],
   "note": ""
  },
  {
   "property": "C04",
   "status": "proved",
   "theorems": [
    "C04_bistate",
    "C04_threestate",
    "C04_threestate_monotone",
    "C04_documented_thresholds_refuted"
   ],
   "note": "Includes the refutation of the documented 0.25/0.75 thresholds."
  },
  {
   "property": "C05",
   "status": "proved",
   "theorems": [
    "C05_sigmoid",
    "C05_sigmoid_increasing"
   ],
   "note": ""
  },
  {
   "property": "C06",
   "status": "proved",
   "theorems": [
    "C06_sigmoid_hip_range",
    "C06_sigmoid_hip_monotone",
    "C06_sigmoid_hip_tanh",
    "C06_sigmoid_hip_cutoff",
    "C06_sigmoid_hip_odd"
   ],
   "note": ""
  },
  {
   "property": "C07",
   "status": "proved",
   "theorems": [
    "C07_relm_positive_lambda",
    "C07_relm_negative_input",
    "C07_relm_zero_lambda"
   ],
   "note": ""
  },
  {
   "property": "C08",
   "status": "proved",
   "theorems": [
    "C08_gceq",
    "C08_lceq",
    "C08_range"
   ],
   "note": ""
  },
  {
   "property": "C09",
   "status": "proved",
   "theorems": [
    "C09_sigmoid_lambda_inverts",
    "C09_sigmoid_hip_lambda_inverts"
   ],
   "note": ""
  },
  {
   "property": "C10",
   "status": "proved",
   "theorems": [
    "C10_fuzzy_at_stored_value",
    "C10_fuzzy_below_all",
    "C10_fuzzy_above_all"
   ],
   "note": ""
  },
  {
   "property": "C11",
   "status": "proved",
   "theorems": [
    "C11_fuzzy_interpolates",
    "C11_fuzzy_negative_between",
    "C11_negative_interpolation_refuted"
   ],
   "note": "Non-negative inputs proved; the claim for negative inputs is refuted with a witness and the actual formula is proved."
  },
  {
   "property": "C12",
   "status": "proved",
   "theorems": [
    "C12_fuzzy_range",
    "C12_fuzzy_negative_unit_input"
   ],
   "note": ""
  },
  {
   "property": "C13",
   "status": "proved",
   "theorems": [
    "C13_engines_dispatch_the_same",
    "C13_same_names"
   ],
   "note": ""
  },
  {
   "property": "C14",
   "status": "proved",
   "theorems": [
    "C14_last",
    "C14_mean",
    "C14_exited",
    "C14_names"
   ],
   "note": ""
  },
  {
   "property": "C15",
   "status": "proved",
   "theorems": [
    "C15_relations_never_dangle",
    "C15_unknown_endpoint"
   ],
   "note": ""
  },
  {
   "property": "C16",
   "status": "proved",
   "theorems": [
    "C16_names_unique",
    "C16_names_in_order",
    "C16_histories_nonempty",
    "C16_histories_nonempty_refuted"
   ],
   "note": ""
  },
  {
   "property": "C17",
   "status": "proved",
   "theorems": [
    "C17_outgoing_relations",
    "C17_readding_breaks_it_refuted"
   ],
   "note": ""
  },
  {
   "property": "C18",
   "status": "proved",
   "theorems": [
    "C18_fuzzy_normaliser",
    "C18_readding_breaks_it_refuted"
   ],
   "note": ""
  },
  {
   "property": "C19",
   "status": "proved",
   "theorems": [
    "C19_init_missing",
    "C19_set_properties_missing",
    "C19_unknown_decision",
    "C19_unknown_function_raises",
    "C19_failed_add_poisons_map"
   ],
   "note": ""
  },
  {
   "property": "C20",
   "status": "proved",
   "theorems": [
    "C20_init_concept_value",
    "C20_init_fuzzy_concept",
    "C20_nothing_else_changes",
    "C20_init_fuzzy_undescribed"
   ],
   "note": ""
  },
  {
   "property": "C21",
   "status": "proved",
   "theorems": [
    "C21_reset_restores",
    "C21_initial_is_kept",
    "C21_clear_execution"
   ],
   "note": ""
  },
  {
   "property": "C22",
   "status": "proved",
   "theorems": [
    "C22_clear_all",
    "C22_settings_kept",
    "C22_succeeds",
    "C22_after_failed_add_refuted"
   ],
   "note": ""
  },
  {
   "property": "C23",
   "status": "proved",
   "theorems": [
    "C23_passes_bounded",
    "C23_terminates",
    "C23_number_of_steps"
   ],
   "note": ""
  },
  {
   "property": "C24",
   "status": "proved",
   "theorems": [
    "C24_exact_stop",
    "C24_early_stop_is_stable"
   ],
   "note": ""
  },
  {
   "property": "C25",
   "status": "proved",
   "theorems": [
    "C25_recurrence",
    "C25_after_failed_run_refuted"
   ],
   "note": ""
  },
  {
   "property": "C26",
   "status": "proved",
   "theorems": [
    "C26_rerun_same"
   ],
   "note": ""
  },
  {
   "property": "C27",
   "status": "proved",
   "theorems": [
    "C27_range_generic",
    "C27_unit_functions",
    "C27_bipolar_functions",
    "C27_unit_maps",
    "C27_bipolar_maps",
    "C27_relm_negative_lambda_refuted"
   ],
   "note": ""
  },
  {
   "property": "C28",
   "status": "proved",
   "theorems": [
    "C28_order_irrelevant",
    "C28_relation_order"
   ],
   "note": ""
  },
  {
   "property": "C29",
   "status": "proved",
   "theorems": [
    "C29_inactive_step",
    "C29_inactive_runs"
   ],
   "note": ""
  },
  {
   "property": "C30",
   "status": "proved",
   "theorems": [
    "C30_same_step",
    "C30_step_unique",
    "C30_same_histories",
    "C30_duplicate_relation_refuted",
    "C30_inactive_origin_refuted",
    "C30_fuzzy_zero_sum_refuted",
    "C30_fuzzy_negative_sum_refuted"
   ],
   "note": ""
  },
  {
   "property": "C31",
   "status": "proved",
   "theorems": [
    "C31_terminates",
    "C31_inference_terminates",
    "C31_fuel_irrelevant",
    "C31_run",
    "C31_map_run",
    "C31_overrun",
    "C31_history_length",
    "C31_no_iterations_raise"
   ],
   "note": ""
  },
  {
   "property": "C32",
   "status": "proved",
   "theorems": [
    "C32_never_stale",
    "C32_fresh_data",
    "C32_emptied_map_refuted"
   ],
   "note": ""
  },
  {
   "property": "C33",
   "status": "proved",
   "theorems": [
    "C33_final_state_by_name",
    "C33_final_state_by_type"
   ],
   "note": ""
  },
  {
   "property": "C34",
   "status": "proved",
   "theorems": [
    "C34_round_trip",
    "C34_what_survives",
    "C34_fuzzy_refuted",
    "C34_inactive_refuted",
    "C34_memory_refuted",
    "C34_excitation_refuted",
    "C34_type_refuted",
    "C34_arguments_refuted",
    "C34_simple_with_dict_refuted",
    "C34_array_argument_refuted",
    "C34_parameter_name_refuted"
   ],
   "note": ""
  },
  {
   "property": "C35",
   "status": "proved",
   "theorems": [
    "C35_own_exception",
    "C35_accepted_documents",
    "C35_missing_field",
    "C35_unknown_function",
    "C35_accepted_is_sane",
    "C35_unknown_function_beside_dict_refuted"
   ],
   "note": ""
  },
  {
   "property": "C36",
   "status": "proved",
   "theorems": [
    "C36_union",
    "C36_intersection",
    "C36_ignore_zeros",
    "C36_names_once",
    "C36_strategies",
    "C36_no_maps",
    "C36_join_succeeds"
   ],
   "note": ""
  },
  {
   "property": "C37",
   "status": "proved",
   "theorems": [
    "C37_values",
    "C37_values_exact",
    "C37_weights",
    "C37_weights_exact",
    "C37_settings"
   ],
   "note": ""
  },
  {
   "property": "C38",
   "status": "proved",
   "theorems": [
    "C38_values",
    "C38_weights",
    "C38_success_refuted",
    "C38_settings_refuted"
   ],
   "note": ""
  },
  {
   "property": "C39",
   "status": "proved",
   "theorems": [
    "C39_split_exact",
    "C39_first_two_pieces",
    "C39_moved_relation_refuted",
    "C39_origin_tail_refuted"
   ],
   "note": ""
  },
  {
   "property": "C40",
   "status": "proved",
   "theorems": [
    "C40_none",
    "C40_counts",
    "C40_degrees",
    "C40_exchange"
   ],
   "note": ""
  },
  {
   "property": "C41",
   "status": "proved",
   "theorems": [
    "C41_supp_conf",
    "C41_lift",
    "C41_bayes",
    "C41_simple",
    "C41_odds",
    "C41_pos_inf",
    "C41_pos_inf_range_refuted"
   ],
   "note": "pos_inf outside [-1,1] for fractional coefficients is proved as a refutation."
  },
  {
   "property": "C42",
   "status": "proved",
   "theorems": [
    "C42_one_hot"
   ],
   "note": ""
  },
  {
   "property": "C43",
   "status": "proved",
   "theorems": [
    "C43_exclusion_relations",
    "C43_no_self_relation",
    "C43_any_names"
   ],
   "note": ""
  },
  {
   "property": "C44",
   "status": "proved",
   "theorems": [
    "C44_associations",
    "C44_weights",
    "C44_no_duplicates",
    "C44_range"
   ],
   "note": ""
  },
  {
   "property": "C45",
   "status": "proved",
   "theorems": [
    "C45_same_relations",
    "C45_same_predictions"
   ],
   "note": ""
  },
  {
   "property": "C46",
   "status": "proved",
   "theorems": [
    "C46_most_activated",
    "C46_labels"
   ],
   "note": ""
  },
  {
   "property": "C47",
   "status": "proved",
   "theorems": [
    "C47_names_parsed"
   ],
   "note": ""
  },
  {
   "property": "C48",
   "status": "proved",
   "theorems": [
    "C48_text",
    "C48_integers",
    "C48_booleans_never",
    "C48_floats_never"
   ],
   "note": ""
  },
  {
   "property": "C49",
   "status": "proved",
   "theorems": [
    "C49_rows_independent",
    "C49_all_rows",
    "C49_no_memory"
   ],
   "note": ""
  },
  {
   "property": "C50",
   "status": "proved",
   "theorems": [
    "C50_not_fitted",
    "C50_fraction",
    "C50_range"
   ],
   "note": ""
  },
  {
   "property": "C51",
   "status": "proved",
   "theorems": [
    "C51_refit",
    "C51_twice",
    "C51_iterative",
    "C51_vectorized_refuted"
   ],
   "note": ""
  },
  {
   "property": "C52",
   "status": "proved",
   "theorems": [
    "C52_step",
    "C52_run",
    "C52_too_few_iterations"
   ],
   "note": ""
  },
  {
   "property": "C53",
   "status": "proved",
   "theorems": [
    "C53_run",
    "C53_resize"
   ],
   "note": ""
  },
  {
   "property": "C54",
   "status": "proved",
   "theorems": [
    "C54_fallback",
    "C54_partition_refuted"
   ],
   "note": ""
  },
  {
   "property": "C55",
   "status": "proved",
   "theorems": [
    "C55_change_points",
    "C55_growing_jumps"
   ],
   "note": ""
  },
  {
   "property": "C56",
   "status": "proved",
   "theorems": [
    "C56_too_few",
    "C56_unknown_strategy",
    "C56_otherwise"
   ],
   "note": ""
  },
  {
   "property": "C57",
   "status": "proved",
   "theorems": [
    "C57_fields",
    "C57_strip",
    "C57_rows_whole",
    "C57_factorized",
    "C57_codes_faithful",
    "C57_uneven_names",
    "C57_even_names_refuted"
   ],
   "note": ""
  },
  {
   "property": "C58",
   "status": "proved",
   "theorems": [
    "C58_default_function",
    "C58_own_function",
    "C58_map_function_change",
    "C58_later_concepts_refuted"
   ],
   "note": ""
  },
  {
   "property": "C59",
   "status": "proved",
   "theorems": [
    "C59_no_step_with_one_extra",
    "C59_extra_normalised"
   ],
   "note": ""
  },
  {
   "property": "C60",
   "status": "proved",
   "theorems": [
    "C60_stable_after_run",
    "C60_after_reset_refuted",
    "C60_vectorized_only"
   ],
   "note": ""
  },
  {
   "property": "C61",
   "status": "proved",
   "theorems": [
    "C61_nan_partition_diverges",
    "C61_nan_sort_diverges"
   ],
   "note": ""
  },
  {
   "property": "C62",
   "status": "proved",
   "theorems": [
    "C62_single_point_above_undefined"
   ],
   "note": ""
  },
  {
   "property": "C63",
   "status": "proved",
   "theorems": [
    "C63_stop_rule",
    "C63_stop_flag_ignored",
    "C63_stops_while_oscillating_refuted"
   ],
   "note": ""
  },
  {
   "property": "C64",
   "status": "proved",
   "theorems": [
    "C64_cmeans_centres",
    "C64_robust_centres"
   ],
   "note": ""
  },
  {
   "property": "C65",
   "status": "proved",
   "theorems": [
    "C65_nearer_is_larger"
   ],
   "note": ""
  },
  {
   "property": "C66",
   "status": "proved",
   "theorems": [
    "C66_one_point",
    "C66_no_point",
    "C66_succeeds_iff"
   ],
   "note": ""
  },
  {
   "property": "C67",
   "status": "proved",
   "theorems": [
    "C67_nearest"
   ],
   "note": ""
  },
  {
   "property": "C68",
   "status": "proved",
   "theorems": [
    "C68_all_or_nothing",
    "C68_text_only_refuted",
    "C68_loaded",
    "C68_factorized",
    "C68_arff",
    "C68_extension",
    "C68_unknown_format"
   ],
   "note": ""
  },
  {
   "property": "C69",
   "status": "proved",
   "theorems": [
    "C69_locality",
    "C69_closed_parts"
   ],
   "note": ""
  },
  {
   "property": "C70",
   "status": "proved",
   "theorems": [
    "C70_larger_start_larger_values",
    "C70_raising_one_concept",
    "C70_keeps_climbing",
    "C70_monotone_functions",
    "C70_gceq_default_refuted"
   ],
   "note": ""
  },
  {
   "property": "C71",
   "status": "proved",
   "theorems": [
    "C71_unconnected_concept",
    "C71_zero_relation",
    "C71_parallel_relations"
   ],
   "note": ""
  },
  {
   "property": "C72",
   "status": "proved",
   "theorems": [
    "C72_runs_approach",
    "C72_steps_shrink",
    "C72_stops_early",
    "C72_steepness_of_functions"
   ],
   "note": ""
  },
  {
   "property": "C73",
   "status": "proved",
   "theorems": [
    "C73_run_outcome",
    "C73_run_succeeds",
    "C73_functions_answer",
    "C73_exited_refuted"
   ],
   "note": ""
  },
  {
   "property": "C74",
   "status": "proved",
   "theorems": [
    "C74_reloaded_map_runs_alike",
    "C74_saved_after_run_refuted"
   ],
   "note": ""
  },
  {
   "property": "C75",
   "status": "proved",
   "theorems": [
    "C75_labels",
    "C75_text",
    "C75_numbers"
   ],
   "note": ""
  },
  {
   "property": "C76",
   "status": "proved",
   "theorems": [
    "C76_predict_succeeds",
    "C76_vectorized"
   ],
   "note": ""
  },
  {
   "property": "C77",
   "status": "proved",
   "theorems": [
    "C77_fit_succeeds",
    "C77_discrete_never_fails",
    "C77_vectorized_refit"
   ],
   "note": ""
  },
  {
   "property": "C78",
   "status": "proved",
   "theorems": [
    "C78_continuous_unpredicted",
    "C78_score_fails",
    "C78_score_key_error"
   ],
   "note": ""
  },
  {
   "property": "C79",
   "status": "proved",
   "theorems": [
    "C79_shared_name",
    "C79_labels_from_target_refuted"
   ],
   "note": ""
  },
  {
   "property": "C80",
   "status": "proved",
   "theorems": [
    "C80_no_effect",
    "C80_generator"
   ],
   "note": ""
  },
  {
   "property": "C81",
   "status": "proved",
   "theorems": [
    "C81_arrays",
    "C81_refused",
    "C81_other_inputs",
    "C81_frame_and_array_refuted"
   ],
   "note": ""
  },
  {
   "property": "C82",
   "status": "proved",
   "theorems": [
    "C82_effect",
    "C82_failure",
    "C82_not_given_kept_refuted",
    "C82_failure_changes_nothing_refuted"
   ],
   "note": ""
  },
  {
   "property": "C83",
   "status": "proved",
   "theorems": [
    "C83_effect",
    "C83_succeeds",
    "C83_unknown_type_refuted"
   ],
   "note": ""
  },
  {
   "property": "C84",
   "status": "proved",
   "theorems": [
    "C84_effect",
    "C84_later_concepts",
    "C84_usable_refuted",
    "C84_own_function_refuted"
   ],
   "note": ""
  },
  {
   "property": "C85",
   "status": "proved",
   "theorems": [
    "C85_run_outcome",
    "C85_run_succeeds",
    "C85_functions_answer",
    "C85_order_matters_refuted",
    "C85_exited_refuted"
   ],
   "note": ""
  },
  {
   "property": "C86",
   "status": "proved",
   "theorems": [
    "C86_decision_names",
    "C86_activation_names_refuted",
    "C86_excitation_names_refuted"
   ],
   "note": ""
  },
  {
   "property": "C87",
   "status": "proved",
   "theorems": [
    "C87_lines",
    "C87_selection",
    "C87_everything_refuted"
   ],
   "note": ""
  },
  {
   "property": "C88",
   "status": "proved",
   "theorems": [
    "C88_graph",
    "C88_readding_refuted"
   ],
   "note": ""
  },
  {
   "property": "C89",
   "status": "proved",
   "theorems": [
    "C89_at_stored_value",
    "C89_between",
    "C89_below",
    "C89_above",
    "C89_nearest_refuted"
   ],
   "note": ""
  },
  {
   "property": "C90",
   "status": "proved",
   "theorems": [
    "C90_supported",
    "C90_fallback_refuted"
   ],
   "note": ""
  },
  {
   "property": "C91",
   "status": "proved",
   "theorems": [
    "C91_row_order",
    "C91_discretization"
   ],
   "note": ""
  },
  {
   "property": "C92",
   "status": "proved",
   "theorems": [
    "C92_repeated_rows",
    "C92_proportional_measures",
    "C92_other_measures_refuted",
    "C92_default_refuted"
   ],
   "note": ""
  },
  {
   "property": "C93",
   "status": "proved",
   "theorems": [
    "C93_fit",
    "C93_learned",
    "C93_score",
    "C93_defaults",
    "C93_conditions_refuted"
   ],
   "note": ""
  },
  {
   "property": "C94",
   "status": "proved",
   "theorems": [
    "C94_favours",
    "C94_fit",
    "C94_parts",
    "C94_learned",
    "C94_conditions_refuted"
   ],
   "note": ""
  },
  {
   "property": "C95",
   "status": "proved",
   "theorems": [
    "C95_one_column_step",
    "C95_one_column",
    "C95_one_column_fuzzy",
    "C95_one_column_robust",
    "C95_one_column_predict",
    "C95_step",
    "C95_run",
    "C95_nearer_is_larger"
   ],
   "note": ""
  },
  {
   "property": "C96",
   "status": "proved",
   "theorems": [
    "C96_run",
    "C96_succeeds_iff",
    "C96_fit",
    "C96_fit_centres",
    "C96_predict",
    "C96_predict_unfitted"
   ],
   "note": ""
  },
  {
   "property": "C97",
   "status": "proved",
   "theorems": [
    "C97_centres_best",
    "C97_memberships_best",
    "C97_descent",
    "C97_history"
   ],
   "note": ""
  },
  {
   "property": "C98",
   "status": "proved",
   "theorems": [
    "C98_cmeans",
    "C98_robust",
    "C98_fit_predict"
   ],
   "note": ""
  },
  {
   "property": "C99",
   "status": "proved",
   "theorems": [
    "C99_range",
    "C99_unit_maps",
    "C99_bipolar_maps",
    "C99_locality",
    "C99_locality_at_limit_refuted",
    "C99_larger_start_larger_values",
    "C99_keeps_climbing",
    "C99_runs_approach",
    "C99_steps_shrink",
    "C99_stops_early"
   ],
   "note": ""
  },
  {
   "property": "C100",
   "status": "proved",
   "theorems": [
    "C100_cut",
    "C100_not_cut",
    "C100_fit_succeeds_iff",
    "C100_fit_never_fails",
    "C100_weights",
    "C100_row_order",
    "C100_vectorized_refit"
   ],
   "note": ""
  },
  {
   "property": "C101",
   "status": "proved",
   "theorems": [
    "C101_iterative",
    "C101_iterative_only_if",
    "C101_excluding",
    "C101_not_excluding_refuted",
    "C101_vectorized"
   ],
   "note": ""
  },
  {
   "property": "C102",
   "status": "proved",
   "theorems": [
    "C102_names",
    "C102_documents"
   ],
   "note": ""
  },
  {
   "property": "C103",
   "status": "proved",
   "theorems": [
    "C103_zero_point",
    "C103_positive_refuted",
    "C103_negative_refuted"
   ],
   "note": ""
  },
  {
   "property": "C104",
   "status": "proved",
   "theorems": [
    "C104_iterative",
    "C104_vectorized",
    "C104_vectorized_maps",
    "C104_functions_unmarked",
    "C104_limit_refuted",
    "C104_twice_refuted"
   ],
   "note": ""
  },
  {
   "property": "C105",
   "status": "proved",
   "theorems": [
    "C105_same_map",
    "C105_iterative",
    "C105_vectorized",
    "C105_test_columns",
    "C105_limit_refuted"
   ],
   "note": ""
  },
  {
   "property": "C106",
   "status": "proved",
   "theorems": [
    "C106_names",
    "C106_order_refuted"
   ],
   "note": ""
  },
  {
   "property": "C107",
   "status": "proved",
   "theorems": [
    "C107_clusters",
    "C107_unit",
    "C107_negative_refuted",
    "C107_tiny_refuted",
    "C107_robust_refuted"
   ],
   "note": ""
  },
  {
   "property": "C108",
   "status": "proved",
   "theorems": [
    "C108_repeats",
    "C108_stops_soon_or_never",
    "C108_functions"
   ],
   "note": ""
  },
  {
   "property": "C109",
   "status": "proved",
   "theorems": [
    "C109_mirror",
    "C109_vectorized",
    "C109_nothing_from_nothing",
    "C109_functions",
    "C109_exited_refuted",
    "C109_papageorgius_refuted"
   ],
   "note": ""
  },
  {
   "property": "C110",
   "status": "proved",
   "theorems": [
    "C110_first_class",
    "C110_functions",
    "C110_no_effect",
    "C110_boolean_feature_refuted"
   ],
   "note": ""
  },
  {
   "property": "C111",
   "status": "proved",
   "theorems": [
    "C111_copies",
    "C111_copies_extreme",
    "C111_same_map",
    "C111_two_relations_refuted",
    "C111_steps",
    "C111_steps_refuted"
   ],
   "note": ""
  },
  {
   "property": "C112",
   "status": "proved",
   "theorems": [
    "C112_function",
    "C112_function_kept",
    "C112_function_kept_refuted",
    "C112_default_behaviour_refuted"
   ],
   "note": ""
  },
  {
   "property": "C113",
   "status": "proved",
   "theorems": [
    "C113_point",
    "C113_score",
    "C113_choice",
    "C113_numbering",
    "C113_numbering_refuted"
   ],
   "note": ""
  },
  {
   "property": "C114",
   "status": "proved",
   "theorems": [
    "C114_fit",
    "C114_elected",
    "C114_majority",
    "C114_majority_refuted"
   ],
   "note": ""
  },
  {
   "property": "C115",
   "status": "proved",
   "theorems": [
    "C115_larger_weights",
    "C115_gentle_functions",
    "C115_changed_weights",
    "C115_geometric",
    "C115_emitting_functions",
    "C115_multiplied_weights",
    "C115_conditions_refuted"
   ],
   "note": ""
  },
  {
   "property": "C116",
   "status": "proved",
   "theorems": [
    "C116_cross_entropy",
    "C116_score",
    "C116_choice",
    "C116_numbering",
    "C116_tightness_refuted"
   ],
   "note": ""
  },
  {
   "property": "C117",
   "status": "proved",
   "theorems": [
    "C117_twins",
    "C117_all_alike",
    "C117_no_clusters"
   ],
   "note": ""
  },
  {
   "property": "C118",
   "status": "proved",
   "theorems": [
    "C118_numbering",
    "C118_score",
    "C118_choice"
   ],
   "note": ""
  }
 ]
}