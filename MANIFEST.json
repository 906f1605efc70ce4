{
 "claims": [
  {
   "property": "C01",
   "status": "proved",
   "theorems": [
    "C01_window_keeps_last"
   ],
   "note": ""
  },
  {
   "property": "C02",
   "status": "proved",
   "theorems": [
    "C02_unlimited_window_keeps_all"
   ],
   "note": ""
  },
  {
   "property": "C03",
   "status": "proved",
   "theorems": [
    "C03_get_is_live_until_overflow",
    "C03_get_is_a_snapshot_refuted"
   ],
   "note": ""
  },
  {
   "property": "C04",
   "status": "proved",
   "theorems": [
    "C04_stream_in_order",
    "C04_stream_in_order_labelled",
    "C04_iterate"
   ],
   "note": ""
  },
  {
   "property": "C05",
   "status": "proved",
   "theorems": [
    "C05_shuffled_is_permutation",
    "C05_shuffled_keeps_labels",
    "C05_every_order_reachable",
    "C05_shuffled_mismatch"
   ],
   "note": ""
  },
  {
   "property": "C06",
   "status": "proved",
   "theorems": [
    "C06_pandas_is_array_streamer"
   ],
   "note": ""
  },
  {
   "property": "C07",
   "status": "proved",
   "theorems": [
    "C07_text_table_split",
    "C07_degenerate_table_rejected",
    "C07_mat_anywhere_in_the_name",
    "C07_get_iterator",
    "C07_get_iterator_shuffled"
   ],
   "note": ""
  },
  {
   "property": "C08",
   "status": "proved",
   "theorems": [
    "C08_minmax_scalar",
    "C08_minmax_array",
    "C08_minmax_array_empty"
   ],
   "note": ""
  },
  {
   "property": "C09",
   "status": "proved",
   "theorems": [
    "C09_fit_in_order",
    "C09_fit_in_order_labelled",
    "C09_fit_label_mismatch",
    "C09_two_batches",
    "C09_two_batches_labelled",
    "C09_failure_fits_exactly_the_prefix"
   ],
   "note": ""
  },
  {
   "property": "C10",
   "status": "proved",
   "theorems": [
    "C10_fit_score_in_order",
    "C10_fit_score_in_order_labelled",
    "C10_one_score_per_instance",
    "C10_causal",
    "C10_two_futures_same_past",
    "C10_default_scores_after_fitting"
   ],
   "note": ""
  },
  {
   "property": "C11",
   "status": "proved",
   "theorems": [
    "C11_one_row",
    "C11_rows_in_order",
    "C11_stops_at_first_bad_score",
    "C11_pure_scoring"
   ],
   "note": ""
  },
  {
   "property": "C12",
   "status": "proved",
   "theorems": [
    "C12_fit",
    "C12_transform",
    "C12_fit_transform",
    "C12_one_output_per_score",
    "C12_causal"
   ],
   "note": ""
  },
  {
   "property": "C13",
   "status": "proved",
   "theorems": [
    "C13_fit_passes_pairs",
    "C13_harmless_when_pairs_are_unwrapped",
    "C13_fit_is_fit_partial_in_order_refuted",
    "C13_shipped_transformers_unwrap"
   ],
   "note": ""
  },
  {
   "property": "C14",
   "status": "proved",
   "theorems": [
    "C14_shape",
    "C14_bad_dims",
    "C14_wrong_inner_length"
   ],
   "note": ""
  },
  {
   "property": "C15",
   "status": "proved",
   "theorems": [
    "C15_count_meter",
    "C15_sum_meter",
    "C15_sum_squares_meter",
    "C15_count_any_history",
    "C15_sums_any_history"
   ],
   "note": ""
  },
  {
   "property": "C16",
   "status": "proved",
   "theorems": [
    "C16_average_meter",
    "C16_average_between_extremes"
   ],
   "note": ""
  },
  {
   "property": "C17",
   "status": "proved",
   "theorems": [
    "C17_variance_meter",
    "C17_variance_sign"
   ],
   "note": ""
  },
  {
   "property": "C18",
   "status": "proved",
   "theorems": [
    "C18_max_meter",
    "C18_min_meter"
   ],
   "note": ""
  },
  {
   "property": "C19",
   "status": "proved",
   "theorems": [
    "C19_median_meter",
    "C19_median_well_defined"
   ],
   "note": ""
  },
  {
   "property": "C20",
   "status": "proved",
   "theorems": [
    "C20_abs_statistic"
   ],
   "note": ""
  },
  {
   "property": "C21",
   "status": "proved",
   "theorems": [
    "C21_remove_undoes_update",
    "C21_remove_absent_max",
    "C21_remove_absent_min",
    "C21_remove_absent_median"
   ],
   "note": ""
  },
  {
   "property": "C22",
   "status": "proved",
   "theorems": [
    "C22_running_statistic",
    "C22_running_average"
   ],
   "note": ""
  },
  {
   "property": "C23",
   "status": "proved",
   "theorems": [
    "C23_order_independent"
   ],
   "note": ""
  },
  {
   "property": "C24",
   "status": "proved",
   "theorems": [
    "C24_running_average_absorption_refuted",
    "C24_running_sum_absorption_refuted",
    "C24_remove_does_not_undo_update_refuted",
    "C24_order_matters_refuted"
   ],
   "note": ""
  },
  {
   "property": "C25",
   "status": "proved",
   "theorems": [
    "C25_negative_variance_refuted",
    "C25_negative_variance_std_is_nan_refuted"
   ],
   "note": ""
  },
  {
   "property": "C26",
   "status": "proved",
   "theorems": [
    "C26_running_kwargs_rejected",
    "C26_running_abs_statistic_impossible_refuted"
   ],
   "note": ""
  },
  {
   "property": "C27",
   "status": "proved",
   "theorems": [
    "C27_internal_list_is_current_multiset",
    "C27_median_internal_list",
    "C27_heap_while_growing"
   ],
   "note": ""
  },
  {
   "property": "C28",
   "status": "proved",
   "theorems": [
    "C28_metric_evaluates_whole_history",
    "C28_shipped_metrics"
   ],
   "note": ""
  },
  {
   "property": "C29",
   "status": "proved",
   "theorems": [
    "C29_auroc_needs_two_classes"
   ],
   "note": ""
  },
  {
   "property": "C30",
   "status": "proved",
   "theorems": [
    "C30_windowed_metric",
    "C30_windowed_sklearn_metric",
    "C30_zero_window"
   ],
   "note": ""
  },
  {
   "property": "C31",
   "status": "proved",
   "theorems": [
    "C31_only_first_window_gets_kwargs",
    "C31_kwargs_reach_every_window_refuted",
    "C31_shipped_metrics_reject_kwargs"
   ],
   "note": ""
  },
  {
   "property": "C32",
   "status": "proved",
   "theorems": [
    "C32_failure_effect",
    "C32_get_after_failed_first_window",
    "C32_next_window_contains_two_refuted"
   ],
   "note": ""
  },
  {
   "property": "C33",
   "status": "proved",
   "theorems": [
    "C33_average_postprocessor",
    "C33_median_postprocessor",
    "C33_max_postprocessor"
   ],
   "note": ""
  },
  {
   "property": "C34",
   "status": "proved",
   "theorems": [
    "C34_running_average",
    "C34_running_median",
    "C34_running_max",
    "C34_running_zscore"
   ],
   "note": ""
  },
  {
   "property": "C35",
   "status": "proved",
   "theorems": [
    "C35_zscore_closed_form",
    "C35_zscore_affine_invariant"
   ],
   "note": ""
  },
  {
   "property": "C36",
   "status": "proved",
   "theorems": [
    "C36_conformal_fraction_above",
    "C36_conformal_range",
    "C36_conformal_fit_transform_below_one"
   ],
   "note": ""
  },
  {
   "property": "C37",
   "status": "proved",
   "theorems": [
    "C37_conformal_antitone",
    "C37_conformal_maximum_gets_zero",
    "C37_conformal_order_preserving_refuted"
   ],
   "note": ""
  },
  {
   "property": "C38",
   "status": "proved",
   "theorems": [
    "C38_gaussian_tail_closed_form",
    "C38_gaussian_tail_probability"
   ],
   "note": ""
  },
  {
   "property": "C39",
   "status": "proved",
   "theorems": [
    "C39_window_size_ignored_refuted",
    "C39_mean_of_all_variance_of_window"
   ],
   "note": ""
  },
  {
   "property": "C40",
   "status": "proved",
   "theorems": [
    "C40_ensembler_stateless",
    "C40_maximum_ensembler",
    "C40_average_ensembler",
    "C40_median_ensembler",
    "C40_weighted_average",
    "C40_weighted_average_wrong_length"
   ],
   "note": ""
  },
  {
   "property": "C41",
   "status": "proved",
   "theorems": [
    "C41_aom_moa_between_mean_and_max",
    "C41_bad_bucket_count",
    "C41_values"
   ],
   "note": ""
  },
  {
   "property": "C42",
   "status": "proved",
   "theorems": [
    "C42_streamhash_fixed_linear_map",
    "C42_num_components",
    "C42_linear",
    "C42_zero_features_are_invisible",
    "C42_feature_names_distinct",
    "C42_bounded",
    "C42_zero_density_rejected"
   ],
   "note": ""
  },
  {
   "property": "C43",
   "status": "proved",
   "theorems": [
    "C43_fresh_matrix_at_every_call",
    "C43_same_instance_same_image_refuted",
    "C43_equal_rows_stay_equal_refuted",
    "C43_auto_always_fails"
   ],
   "note": ""
  },
  {
   "property": "C44",
   "status": "proved",
   "theorems": [
    "C44_standardises",
    "C44_affine_invariant",
    "C44_constant_instance_not_finite",
    "C44_idempotent"
   ],
   "note": ""
  },
  {
   "property": "C45",
   "status": "proved",
   "theorems": [
    "C45_unit_p_norm",
    "C45_unit_max_norm",
    "C45_unit_min_norm",
    "C45_scale_invariant",
    "C45_zero_instance_not_finite",
    "C45_pow_zero_law",
    "C45_pow_zero_unit_refuted",
    "C45_empty_instance_max_norm_fails"
   ],
   "note": ""
  },
  {
   "property": "C46",
   "status": "proved",
   "theorems": [
    "C46_transform_closed_form",
    "C46_fit_transform_closed_form",
    "C46_fit_succeeds",
    "C46_transform_never_changes_later_results",
    "C46_fit_transform_trains_like_fit",
    "C46_constructor",
    "C46_default_window"
   ],
   "note": ""
  },
  {
   "property": "C47",
   "status": "proved",
   "theorems": [
    "C47_periodic_signal_removed_while_training",
    "C47_periodic_signal_removed_by_transform",
    "C47_transform_before_first_estimate"
   ],
   "note": ""
  },
  {
   "property": "C48",
   "status": "proved",
   "theorems": [
    "C48_constructor",
    "C48_transform_previews_fit_transform",
    "C48_without_window_partial_calls_fail",
    "C48_rejects_exactly_non_values",
    "C48_residual",
    "C48_batch_residuals"
   ],
   "note": ""
  },
  {
   "property": "C49",
   "status": "proved",
   "theorems": [
    "C49_fifo",
    "C49_unlabelled_fit_rejected",
    "C49_fit_score_returns_labels"
   ],
   "note": ""
  },
  {
   "property": "C50",
   "status": "proved",
   "theorems": [
    "C50_null_constant",
    "C50_random_draws_in_order",
    "C50_random_in_range",
    "C50_inputs_ignored"
   ],
   "note": ""
  },
  {
   "property": "C51",
   "status": "proved",
   "theorems": [
    "C51_near_fraction",
    "C51_range",
    "C51_fit_score_excludes_itself",
    "C51_scoring_changes_nothing",
    "C51_monotone_in_radius"
   ],
   "note": ""
  },
  {
   "property": "C52",
   "status": "proved",
   "theorems": [
    "C52_farther_never_scores_higher",
    "C52_isolated_zero_central_one",
    "C52_more_anomalous_scores_higher_refuted"
   ],
   "note": ""
  },
  {
   "property": "C53",
   "status": "proved",
   "theorems": [
    "C53_masses",
    "C53_inner_node_mass",
    "C53_zero_window_fails"
   ],
   "note": ""
  },
  {
   "property": "C54",
   "status": "proved",
   "theorems": [
    "C54_score",
    "C54_score_range",
    "C54_denser_cells_score_lower"
   ],
   "note": ""
  },
  {
   "property": "C55",
   "status": "proved",
   "theorems": [
    "C55_trees_halve_the_box",
    "C55_cells_tile_the_box",
    "C55_integer_bounds_refuted"
   ],
   "note": ""
  },
  {
   "property": "C56",
   "status": "proved",
   "theorems": [
    "C56_list_is_fitted",
    "C56_array_is_accepted_refuted",
    "C56_zero_or_empty_is_ignored"
   ],
   "note": ""
  },
  {
   "property": "C57",
   "status": "proved",
   "theorems": [
    "C57_cold_start_schedule",
    "C57_warm_start_schedule",
    "C57_fit_outcome",
    "C57_iforest_asd",
    "C57_zero_sliding_size_fails"
   ],
   "note": ""
  },
  {
   "property": "C58",
   "status": "proved",
   "theorems": [
    "C58_labels_belong_to_instances"
   ],
   "note": ""
  },
  {
   "property": "C59",
   "status": "proved",
   "theorems": [
    "C59_stale_labels",
    "C59_labels_stay_aligned_refuted",
    "C59_unlabelled_start_never_retrains",
    "C59_unit_window_never_trains"
   ],
   "note": ""
  },
  {
   "property": "C60",
   "status": "proved",
   "theorems": [
    "C60_one_fit_scores_frozen",
    "C60_fit_always_accepted",
    "C60_constructor_raises_with_the_detector"
   ],
   "note": ""
  },
  {
   "property": "C61",
   "status": "proved",
   "theorems": [
    "C61_before_the_map",
    "C61_feature_map",
    "C61_fit_never_fails",
    "C61_score",
    "C61_only_the_first_instances_matter"
   ],
   "note": ""
  },
  {
   "property": "C62",
   "status": "proved",
   "theorems": [
    "C62_break"
   ],
   "note": ""
  },
  {
   "property": "C63",
   "status": "proved",
   "theorems": [
    "C63_linkage_input",
    "C63_distance",
    "C63_well_formed"
   ],
   "note": ""
  },
  {
   "property": "C64",
   "status": "proved",
   "theorems": [
    "C64_normalisation_limits",
    "C64_normalised",
    "C64_reconstruction",
    "C64_execute_range",
    "C64_training_error",
    "C64_kitnet_limits",
    "C64_kitnet_score_nonneg"
   ],
   "note": ""
  },
  {
   "property": "C65",
   "status": "proved",
   "theorems": [
    "C65_scores_are_numbers_refuted"
   ],
   "note": ""
  },
  {
   "property": "C66",
   "status": "proved",
   "theorems": [
    "C66_reference_sets",
    "C66_score",
    "C66_refractory"
   ],
   "note": ""
  },
  {
   "property": "C67",
   "status": "proved",
   "theorems": [
    "C67_works_for_every_period_refuted",
    "C67_zero_period"
   ],
   "note": ""
  },
  {
   "property": "C68",
   "status": "proved",
   "theorems": [
    "C68_score",
    "C68_only_last_instance_matters",
    "C68_weights",
    "C68_score_range",
    "C68_failures"
   ],
   "note": ""
  },
  {
   "property": "C69",
   "status": "proved",
   "theorems": [
    "C69_projections_stay_informative_refuted",
    "C69_single_feature_kept"
   ],
   "note": ""
  },
  {
   "property": "C70",
   "status": "proved",
   "theorems": [
    "C70_score",
    "C70_no_value_no_score",
    "C70_vectors_rejected",
    "C70_finite_and_absolute_nonneg",
    "C70_spread_is_the_MAD_refuted"
   ],
   "note": ""
  },
  {
   "property": "C71",
   "status": "proved",
   "theorems": [
    "C71_score",
    "C71_unknown_statistic_rejected",
    "C71_vectors_rejected",
    "C71_no_value_no_score"
   ],
   "note": ""
  },
  {
   "property": "C72",
   "status": "proved",
   "theorems": [
    "C72_compares_with_first_window",
    "C72_score_is_0_or_minus_1",
    "C72_same_distribution_0_new_bin_minus_1",
    "C72_anomalous_window_scores_higher_refuted",
    "C72_depends_on_first_and_last_window",
    "C72_window_size_zero",
    "C72_agreement_is_first_least"
   ],
   "note": ""
  },
  {
   "property": "C73",
   "status": "proved",
   "theorems": [
    "C73_leaves",
    "C73_most_recent_only_refuted",
    "C73_zero_tree_size_fails",
    "C73_failed_score_leaves_test_point",
    "C73_score"
   ],
   "note": ""
  },
  {
   "property": "C74",
   "status": "proved",
   "theorems": [
    "C74_score",
    "C74_score_range",
    "C74_new_instance_scores_higher_refuted",
    "C74_degenerate_parameters"
   ],
   "note": ""
  },
  {
   "property": "C75",
   "status": "proved",
   "theorems": [
    "C75_score",
    "C75_bin_width",
    "C75_zero_window_fails"
   ],
   "note": ""
  },
  {
   "property": "C76",
   "status": "proved",
   "theorems": [
    "C76_score_range",
    "C76_first_window_member",
    "C76_ranges_positive"
   ],
   "note": ""
  },
  {
   "property": "C77",
   "status": "proved",
   "theorems": [
    "C77_seen_instances_are_recognised_refuted"
   ],
   "note": ""
  },
  {
   "property": "C78",
   "status": "proved",
   "theorems": [
    "C78_esd",
    "C78_hybrid_esd",
    "C78_anomalies_bound",
    "C78_constructor",
    "C78_degrees_of_freedom"
   ],
   "note": ""
  },
  {
   "property": "C79",
   "status": "proved",
   "theorems": [
    "C79_preview",
    "C79_score"
   ],
   "note": ""
  },
  {
   "property": "C80",
   "status": "proved",
   "theorems": [
    "C80_only_last_instance",
    "C80_only_last_batch",
    "C80_frozen_after_first_score",
    "C80_nan_for_ever",
    "C80_accumulates_refuted",
    "C80_scores_do_not_matter_refuted"
   ],
   "note": ""
  },
  {
   "property": "C81",
   "status": "proved",
   "theorems": [
    "C81_exact_storm",
    "C81_seasonal_esd",
    "C81_reference_window_cold",
    "C81_reference_window_warm",
    "C81_reference_window_bounded_refuted",
    "C81_cold_window_one_bounded_refuted",
    "C81_rrcf",
    "C81_xstream",
    "C81_rshash_bounded_refuted",
    "C81_knncad_bounded_refuted",
    "C81_relative_entropy_bounded_refuted",
    "C81_median_absolute_deviation_bounded_refuted"
   ],
   "note": ""
  },
  {
   "property": "C82",
   "status": "proved",
   "theorems": [
    "C82_loop_ignores_fits",
    "C82_pure_stream_constant_scores"
   ],
   "note": ""
  },
  {
   "property": "C83",
   "status": "proved",
   "theorems": [
    "C83_constructor_sampling",
    "C83_list_bounds_select_constant_features_refuted"
   ],
   "note": ""
  },
  {
   "property": "C84",
   "status": "proved",
   "theorems": [
    "C84_even_bins",
    "C84_odd_bins_refuted"
   ],
   "note": ""
  },
  {
   "property": "C85",
   "status": "proved",
   "theorems": [
    "C85_score_ignores_its_argument",
    "C85_only_first_feature_matters",
    "C85_no_alarm_before_2P"
   ],
   "note": ""
  },
  {
   "property": "C86",
   "status": "proved",
   "theorems": [
    "C86_single_feature_refuted"
   ],
   "note": ""
  },
  {
   "property": "C87",
   "status": "proved",
   "theorems": [
    "C87_units_learn_their_own_bias_refuted"
   ],
   "note": ""
  },
  {
   "property": "C88",
   "status": "proved",
   "theorems": [
    "C88_features",
    "C88_highest_for_learned_instance"
   ],
   "note": ""
  },
  {
   "property": "C89",
   "status": "proved",
   "theorems": [
    "C89_score",
    "C89_training_error",
    "C89_weights_descend_the_gradient",
    "C89_biases_descend_the_mean_gradient",
    "C89_downhill",
    "C89_initial"
   ],
   "note": ""
  },
  {
   "property": "C90",
   "status": "proved",
   "theorems": [
    "C90_scoring_is_silent",
    "C90_perfect_model_refuted",
    "C90_random_model_refuted",
    "C90_knncad_refuted"
   ],
   "note": ""
  },
  {
   "property": "C91",
   "status": "proved",
   "theorems": [
    "C91_labels_are_ignored",
    "C91_iforest_asd_refuted",
    "C91_perfect_model_refuted"
   ],
   "note": ""
  },
  {
   "property": "C92",
   "status": "proved",
   "theorems": [
    "C92_exact_storm",
    "C92_seasonal_esd",
    "C92_half_space_trees",
    "C92_reference_window_cold",
    "C92_reference_window_warm",
    "C92_xstream"
   ],
   "note": ""
  },
  {
   "property": "C93",
   "status": "proved",
   "theorems": [
    "C93_components_are_centred",
    "C93_lengths_are_kept",
    "C93_distances_are_kept",
    "C93_any_density_refuted"
   ],
   "note": ""
  },
  {
   "property": "C94",
   "status": "proved",
   "theorems": [
    "C94_median_absolute_deviation",
    "C94_standard_absolute_deviation",
    "C94_unit_free_refuted",
    "C94_exact_storm",
    "C94_rescaling_multiplies_distances",
    "C94_half_space_trees"
   ],
   "note": ""
  },
  {
   "property": "C95",
   "status": "proved",
   "theorems": [
    "C95_sum_error",
    "C95_average_error",
    "C95_sum_exact_on_integers",
    "C95_average_exact_on_integers",
    "C95_running_sum_exact_on_integers",
    "C95_running_average_exact_on_integers",
    "C95_average_between_extremes_refuted",
    "C95_running_sum_unbounded_refuted"
   ],
   "note": ""
  },
  {
   "property": "C96",
   "status": "proved",
   "theorems": [
    "C96_conformal_correctly_rounded",
    "C96_conformal_order_faithful",
    "C96_conformal_antitone",
    "C96_exact_storm_correctly_rounded"
   ],
   "note": ""
  },
  {
   "property": "C97",
   "status": "proved",
   "theorems": [
    "C97_rejected_calls_leave_no_trace",
    "C97_relative_entropy_blocked",
    "C97_exact_storm_blocked",
    "C97_half_space_trees_refuted",
    "C97_rshash_refuted",
    "C97_loda_refuted",
    "C97_knncad_refuted",
    "C97_reference_window_refuted",
    "C97_kitnet_refuted"
   ],
   "note": ""
  },
  {
   "property": "C98",
   "status": "proved",
   "theorems": [
    "C98_exact_storm",
    "C98_relative_entropy",
    "C98_reference_window",
    "C98_exact_storm_reused_array",
    "C98_exact_storm_refuted",
    "C98_relative_entropy_refuted",
    "C98_reference_window_refuted"
   ],
   "note": ""
  },
  {
   "property": "C99",
   "status": "proved",
   "theorems": [
    "C99_stage_by_stage",
    "C99_side_by_side",
    "C99_fit_then_score_refuted"
   ],
   "note": ""
  },
  {
   "property": "C100",
   "status": "proved",
   "theorems": [
    "C100_without_corruption",
    "C100_grace_period",
    "C100_corruption_of_one",
    "C100_denoising_step"
   ],
   "note": ""
  },
  {
   "property": "C101",
   "status": "proved",
   "theorems": [
    "C101_softmax",
    "C101_softmax_empty",
    "C101_softmax_rows",
    "C101_softmax_no_overflow",
    "C101_derivatives",
    "C101_derivative_of_argument_refuted",
    "C101_pdf",
    "C101_invLogCDF",
    "C101_rollmean",
    "C101_rollmean_bad_size",
    "C101_rollmean_warm_up_refuted"
   ],
   "note": ""
  },
  {
   "property": "C102",
   "status": "proved",
   "theorems": [
    "C102_auroc",
    "C102_auroc_undefined",
    "C102_auroc_range",
    "C102_auroc_order_only",
    "C102_auroc_reversed",
    "C102_auroc_classes_swapped",
    "C102_aupr",
    "C102_aupr_without_positives",
    "C102_aupr_range",
    "C102_aupr_order_only",
    "C102_constant_scores",
    "C102_precision",
    "C102_recall",
    "C102_scores_are_not_decisions",
    "C102_aupr_averages_precisions",
    "C102_recall_antitone",
    "C102_precision_monotone_refuted",
    "C102_arrival_order"
   ],
   "note": ""
  },
  {
   "property": "C103",
   "status": "proved",
   "theorems": [
    "C103_loop_is_metric_of_batch",
    "C103_perfect_model",
    "C103_null_model",
    "C103_random_model"
   ],
   "note": ""
  },
  {
   "property": "C104",
   "status": "proved",
   "theorems": [
    "C104_components_are_centred",
    "C104_lengths_are_kept",
    "C104_distances_are_forgotten",
    "C104_sparse_law",
    "C104_spread",
    "C104_concentration"
   ],
   "note": ""
  },
  {
   "property": "C105",
   "status": "proved",
   "theorems": [
    "C105_uniform",
    "C105_uniform_fresh",
    "C105_small_values_too_frequent",
    "C105_small_values_distinct",
    "C105_p_value_guarantee_refuted",
    "C105_corrected_guarantee",
    "C105_constant_scores"
   ],
   "note": ""
  },
  {
   "property": "C106",
   "status": "proved",
   "theorems": [
    "C106_seasonal_trend_decomposer",
    "C106_reused_array",
    "C106_reuse_is_harmless_refuted"
   ],
   "note": ""
  },
  {
   "property": "C107",
   "status": "proved",
   "theorems": [
    "C107_feature_map_refuted",
    "C107_repaired_constructor"
   ],
   "note": ""
  },
  {
   "property": "C108",
   "status": "proved",
   "theorems": [
    "C108_exact_storm_refuted",
    "C108_exact_storm_auroc",
    "C108_rshash_refuted",
    "C108_rshash_auroc",
    "C108_half_space_trees",
    "C108_xstream",
    "C108_standard_deviation",
    "C108_median_deviation"
   ],
   "note": ""
  },
  {
   "property": "C109",
   "status": "proved",
   "theorems": [
    "C109_zscore",
    "C109_running_zscore",
    "C109_any_spike_gets_the_cap",
    "C109_gaussian_tail",
    "C109_standard_deviation",
    "C109_three_sigma_silent",
    "C109_three_sigma_silent_window"
   ],
   "note": ""
  },
  {
   "property": "C110",
   "status": "proved",
   "theorems": [
    "C110_mean_of_windows",
    "C110_one_class_window",
    "C110_updates_succeed_iff",
    "C110_windows_of_one",
    "C110_perfect_overall",
    "C110_windowed_perfect_refuted"
   ],
   "note": ""
  },
  {
   "property": "C111",
   "status": "proved",
   "theorems": [
    "C111_alert_iff",
    "C111_first_twenty",
    "C111_highest_score_is_silent",
    "C111_scalar_scores_raise",
    "C111_constant_stream_raises_alerts",
    "C111_alerts_on_anomalies_refuted"
   ],
   "note": ""
  },
  {
   "property": "C112",
   "status": "proved",
   "theorems": [
    "C112_averages_erase",
    "C112_scaling_preserves",
    "C112_conformal_reverses",
    "C112_smoothing_keeps_the_ranking_refuted"
   ],
   "note": ""
  },
  {
   "property": "C113",
   "status": "proved",
   "theorems": [
    "C113_running_sum_drift",
    "C113_running_average_drift",
    "C113_errors_leave_the_window_refuted",
    "C113_growth_of_the_bound"
   ],
   "note": ""
  },
  {
   "property": "C114",
   "status": "proved",
   "theorems": [
    "C114_statistics_never_recover",
    "C114_running_statistics_never_recover",
    "C114_postprocessors_never_recover",
    "C114_standard_deviation_scores_never_recover",
    "C114_conformal_recovers"
   ],
   "note": ""
  },
  {
   "property": "C115",
   "status": "proved",
   "theorems": [
    "C115_short_program",
    "C115_short_program_measures_nothing",
    "C115_usage_program",
    "C115_usage_keeps_the_ranking_refuted",
    "C115_integration_program",
    "C115_ensemble_program",
    "C115_ensemble_with_LODA",
    "C115_statistics_program"
   ],
   "note": ""
  },
  {
   "property": "C116",
   "status": "proved",
   "theorems": [
    "C116_unanimous_detectors",
    "C116_negative_weight_refuted",
    "C116_fixed_buckets",
    "C116_fresh_buckets_refuted",
    "C116_averaging_helps_refuted",
    "C116_loudest_detector_decides"
   ],
   "note": ""
  },
  {
   "property": "C117",
   "status": "proved",
   "theorems": [
    "C117_exact_storm",
    "C117_half_space_trees",
    "C117_rshash",
    "C117_loda",
    "C117_inqmad",
    "C117_scalers",
    "C117_streamhash",
    "C117_streamhash_same_hash_refuted",
    "C117_random_projector",
    "C117_knncad"
   ],
   "note": ""
  },
  {
   "property": "C118",
   "status": "proved",
   "theorems": [
    "C118_half_space_trees",
    "C118_xstream",
    "C118_exact_storm",
    "C118_exact_storm_all_refuted",
    "C118_standard_absolute_deviation",
    "C118_median_absolute_deviation_refuted",
    "C118_conformal",
    "C118_metrics"
   ],
   "note": ""
  },
  {
   "property": "C119",
   "status": "proved",
   "theorems": [
    "C119_half_space_trees",
    "C119_rshash",
    "C119_rshash_rejects",
    "C119_knncad",
    "C119_xstream",
    "C119_loda",
    "C119_kitnet_early",
    "C119_kitnet",
    "C119_deviations",
    "C119_exact_storm",
    "C119_too_few_accepted"
   ],
   "note": ""
  },
  {
   "property": "C120",
   "status": "proved",
   "theorems": [
    "C120_variance_error",
    "C120_integers",
    "C120_running_variance",
    "C120_never_negative_refuted",
    "C120_relative_error_refuted",
    "C120_zscore_shift_refuted"
   ],
   "note": ""
  },
  {
   "property": "C121",
   "status": "proved",
   "theorems": [
    "C121_loda",
    "C121_kitnet",
    "C121_rshash_bounds_unused",
    "C121_rshash_one_cell",
    "C121_rshash_unit_refuted",
    "C121_rshash_shift_refuted"
   ],
   "note": ""
  },
  {
   "property": "C122",
   "status": "proved",
   "theorems": [
    "C122_kitnet_training",
    "C122_kitnet_afterwards",
    "C122_kitnet_mapping",
    "C122_trees",
    "C122_storm"
   ],
   "note": ""
  },
  {
   "property": "C123",
   "status": "proved",
   "theorems": [
    "C123_fix_seed",
    "C123_fix_seed_rejects",
    "C123_no_interference",
    "C123_random",
    "C123_loda",
    "C123_loda_own_instance",
    "C123_seeded_order",
    "C123_random_repeats",
    "C123_seed_too_late_refuted",
    "C123_no_interference_refuted",
    "C123_seeded_order_refuted"
   ],
   "note": ""
  },
  {
   "property": "C124",
   "status": "proved",
   "theorems": [
    "C124_transform",
    "C124_rejected",
    "C124_poisoned",
    "C124_recovers",
    "C124_periodic_again",
    "C124_retry_refuted"
   ],
   "note": ""
  },
  {
   "property": "C125",
   "status": "proved",
   "theorems": [
    "C125_score",
    "C125_out_of_range",
    "C125_two_bins_are_blind",
    "C125_units",
    "C125_no_bins",
    "C125_empty_range"
   ],
   "note": ""
  },
  {
   "property": "C126",
   "status": "proved",
   "theorems": [
    "C126_identity",
    "C126_streamhash",
    "C126_instance_scalers",
    "C126_random",
    "C126_inherited"
   ],
   "note": ""
  },
  {
   "property": "C127",
   "status": "proved",
   "theorems": [
    "C127_standard_deviation",
    "C127_median_center_refuted",
    "C127_median_deviation_refuted",
    "C127_half_space_trees",
    "C127_half_space_trees_refuted",
    "C127_rshash",
    "C127_exact_storm",
    "C127_exact_storm_refuted",
    "C127_conformal"
   ],
   "note": ""
  },
  {
   "property": "C128",
   "status": "proved",
   "theorems": [
    "C128_generator",
    "C128_next_score",
    "C128_seeded_order",
    "C128_loda_alone",
    "C128_half_space_trees",
    "C128_xstream",
    "C128_xstream_draws",
    "C128_rshash",
    "C128_rshash_created"
   ],
   "note": ""
  },
  {
   "property": "C129",
   "status": "proved",
   "theorems": [
    "C129_standard_deviation",
    "C129_median_deviation",
    "C129_exact_storm",
    "C129_half_space_trees",
    "C129_relative_entropy",
    "C129_loda",
    "C129_rshash",
    "C129_xstream",
    "C129_conformal",
    "C129_zscore"
   ],
   "note": ""
  },
  {
   "property": "C130",
   "status": "proved",
   "theorems": [
    "C130_running_statistics",
    "C130_postprocessors",
    "C130_max_postprocessor",
    "C130_calibrators",
    "C130_shorter_refuted",
    "C130_windowed_metric",
    "C130_before_retraining",
    "C130_reference_window",
    "C130_exact_storm",
    "C130_half_space_trees",
    "C130_xstream",
    "C130_xstream_boundary_refuted"
   ],
   "note": ""
  },
  {
   "property": "C131",
   "status": "proved",
   "theorems": [
    "C131_standard_deviation",
    "C131_median_deviation",
    "C131_relative_entropy",
    "C131_half_space_trees",
    "C131_rshash",
    "C131_xstream",
    "C131_seasonal_esd"
   ],
   "note": ""
  },
  {
   "property": "C132",
   "status": "proved",
   "theorems": [
    "C132_sesd_limit",
    "C132_sesd_constructor",
    "C132_sesd_limit_refuted",
    "C132_knncad",
    "C132_hidden_default",
    "C132_hidden_range",
    "C132_hidden_share_refuted",
    "C132_streamhash"
   ],
   "note": ""
  },
  {
   "property": "C133",
   "status": "proved",
   "theorems": [
    "C133_null_and_random",
    "C133_exact_storm",
    "C133_median_absolute_deviation",
    "C133_standard_absolute_deviation",
    "C133_relative_entropy",
    "C133_half_space_trees",
    "C133_loda",
    "C133_rshash",
    "C133_xstream",
    "C133_knncad",
    "C133_kitnet",
    "C133_seasonal_esd",
    "C133_one_fit",
    "C133_reference_window",
    "C133_perfect_model",
    "C133_whole_stream",
    "C133_rrcf",
    "C133_inqmad",
    "C133_inqmad_no_batch_size",
    "C133_inqmad_no_rows",
    "C133_reference_window_warm",
    "C133_iforest_asd",
    "C133_iforest_asd_any_labels_refuted"
   ],
   "note": ""
  },
  {
   "property": "C134",
   "status": "proved",
   "theorems": [
    "C134_mean",
    "C134_median",
    "C134_mad",
    "C134_exact_storm",
    "C134_half_space_trees",
    "C134_relative_entropy",
    "C134_rshash",
    "C134_loda"
   ],
   "note": ""
  },
  {
   "property": "C135",
   "status": "proved",
   "theorems": [
    "C135_scores_are_exact",
    "C135_cuts_stay_inside",
    "C135_instances_stay_in_their_cells",
    "C135_large_bounds_refuted",
    "C135_progress_refuted"
   ],
   "note": ""
  },
  {
   "property": "C136",
   "status": "proved",
   "theorems": [
    "C136_rshash_in_range",
    "C136_rshash_far_values_are_alike",
    "C136_rshash_distant_newcomer_refuted",
    "C136_xstream_in_range",
    "C136_xstream_far_values_are_familiar"
   ],
   "note": ""
  },
  {
   "property": "C137",
   "status": "proved",
   "theorems": [
    "C137_unit_norm_is_accurate",
    "C137_unit_norm_overflow_refuted",
    "C137_scale_invariance_refuted",
    "C137_max_norm_is_exact",
    "C137_constant_whole_numbers",
    "C137_constant_instance_refuted",
    "C137_standard_overflow_refuted"
   ],
   "note": ""
  },
  {
   "property": "C138",
   "status": "proved",
   "theorems": [
    "C138_rshash",
    "C138_rshash_limit_is_approached",
    "C138_rshash_without_decay_refuted",
    "C138_standard_deviation",
    "C138_median_deviation",
    "C138_deviation_bounds_are_reached",
    "C138_deviation_of_any_value_refuted",
    "C138_half_space_trees",
    "C138_xstream"
   ],
   "note": ""
  },
  {
   "property": "C139",
   "status": "proved",
   "theorems": [
    "C139_sums",
    "C139_variance",
    "C139_standard_deviation",
    "C139_median_deviation",
    "C139_standard_deviation_median",
    "C139_variance_refuted",
    "C139_median_refuted",
    "C139_median_deviation_unsigned_refuted",
    "C139_knncad_distance_refuted"
   ],
   "note": ""
  },
  {
   "property": "C140",
   "status": "proved",
   "theorems": [
    "C140_integer_bounds",
    "C140_float_bounds",
    "C140_unit_range_refuted",
    "C140_middle_is_cut"
   ],
   "note": ""
  },
  {
   "property": "C141",
   "status": "proved",
   "theorems": [
    "C141_loda_cuts",
    "C141_loda_no_cuts",
    "C141_xstream_chains",
    "C141_xstream_no_chains",
    "C141_xstream_no_depth",
    "C141_rshash_integer_decay_refuted",
    "C141_rshash_sample_size",
    "C141_rshash_components",
    "C141_rshash_zero_decay",
    "C141_rshash_zero_cell_refuted",
    "C141_rshash_zero_decay_score"
   ],
   "note": ""
  },
  {
   "property": "C142",
   "status": "proved",
   "theorems": [
    "C142_relative_entropy_natural",
    "C142_relative_entropy_negative",
    "C142_relative_entropy_zero",
    "C142_half_space_trees",
    "C142_xstream",
    "C142_reference_window",
    "C142_half_space_trees_zero",
    "C142_xstream_zero",
    "C142_reference_window_never_scores",
    "C142_exact_storm",
    "C142_windowed_metric",
    "C142_windowed_metric_zero"
   ],
   "note": ""
  },
  {
   "property": "C143",
   "status": "proved",
   "theorems": [
    "C143_rows_are_read_when_asked_for",
    "C143_row_gone",
    "C143_changing_delivered_rows_is_safe",
    "C143_labels_are_checked_at_the_first_call",
    "C143_pandas_copy",
    "C143_stream_is_a_snapshot_refuted"
   ],
   "note": ""
  },
  {
   "property": "C144",
   "status": "proved",
   "theorems": [
    "C144_finite_values",
    "C144_refused",
    "C144_only_refused",
    "C144_nan_scores_as_the_last_bin"
   ],
   "note": ""
  },
  {
   "property": "C145",
   "status": "proved",
   "theorems": [
    "C145_natural",
    "C145_short_period_fit",
    "C145_short_period_score",
    "C145_works_from_48"
   ],
   "note": ""
  },
  {
   "property": "C146",
   "status": "proved",
   "theorems": [
    "C146_maximum",
    "C146_minimum",
    "C146_running_maximum",
    "C146_running_minimum",
    "C146_agrees",
    "C146_same_rule_always_refuted"
   ],
   "note": ""
  }
 ]
}
