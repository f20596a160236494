{
 "claims": [
  {
   "property": "C01",
   "status": "proved",
   "theorems": [
    "C01_encode_rows",
    "C01_encode_after_decode",
    "C01_decode_after_encode",
    "C01_decode_after_encode_unbatched",
    "C01_empty_raises"
   ],
   "note": ""
  },
  {
   "property": "C02",
   "status": "proved",
   "theorems": [
    "C02_names_match_columns",
    "C02_names_distinct",
    "C02_name_unambiguous"
   ],
   "note": ""
  },
  {
   "property": "C03",
   "status": "proved",
   "theorems": [
    "C03_wrong_width_is_silent",
    "C03_short_vector_changes_length_refuted",
    "C03_surplus_ignored"
   ],
   "note": ""
  },
  {
   "property": "C04",
   "status": "proved",
   "theorems": [
    "C04_batch_size_iff",
    "C04_inconsistent_raises",
    "C04_zero_rows_order_refuted"
   ],
   "note": ""
  },
  {
   "property": "C05",
   "status": "proved",
   "theorems": [
    "C05_stored_column",
    "C05_scalar_parameter",
    "C05_list_parameter",
    "C05_well_formed",
    "C05_idempotent",
    "C05_other_dimension_raises"
   ],
   "note": ""
  },
  {
   "property": "C06",
   "status": "proved",
   "theorems": [
    "C06_listing_exact",
    "C06_listed_names_resolve"
   ],
   "note": ""
  },
  {
   "property": "C07",
   "status": "proved",
   "theorems": [
    "C07_dotted_key_refuted",
    "C07_list_field_refuted",
    "C07_lists_never_resolve"
   ],
   "note": ""
  },
  {
   "property": "C08",
   "status": "proved",
   "theorems": [
    "C08_mark_all",
    "C08_mark_fixed",
    "C08_own_flags_only"
   ],
   "note": ""
  },
  {
   "property": "C09",
   "status": "proved",
   "theorems": [
    "C09_chain_is_path",
    "C09_mark_flags",
    "C09_mark_one",
    "C09_marking_exact_refuted"
   ],
   "note": ""
  },
  {
   "property": "C10",
   "status": "proved",
   "theorems": [
    "C10_update_then_read",
    "C10_read_then_update",
    "C10_default_names"
   ],
   "note": ""
  },
  {
   "property": "C11",
   "status": "proved",
   "theorems": [
    "C11_update_frame",
    "C11_other_parameters_kept",
    "C11_make_copy"
   ],
   "note": ""
  },
  {
   "property": "C12",
   "status": "proved",
   "theorems": [
    "C12_success_needs_flags",
    "C12_exact_conditions",
    "C12_atomic_refuted"
   ],
   "note": ""
  },
  {
   "property": "C13",
   "status": "proved",
   "theorems": [
    "C13_batched_roundtrip_raises",
    "C13_misassigned_refuted"
   ],
   "note": ""
  },
  {
   "property": "C14",
   "status": "proved",
   "theorems": [
    "C14_counts_agree",
    "C14_expanded_names",
    "C14_names_distinct"
   ],
   "note": ""
  },
  {
   "property": "C15",
   "status": "proved",
   "theorems": [
    "C15_batch_size",
    "C15_otherwise_value_error",
    "C15_ignores_flags"
   ],
   "note": ""
  },
  {
   "property": "C16",
   "status": "proved",
   "theorems": [
    "C16_set_value",
    "C16_flags_irrelevant"
   ],
   "note": ""
  },
  {
   "property": "C17",
   "status": "proved",
   "theorems": [
    "C17_template_shares",
    "C17_last_write_wins",
    "C17_all_get_the_last_values",
    "C17_deep_copies",
    "C17_explicit_separate",
    "C17_wrong_number_refused"
   ],
   "note": ""
  },
  {
   "property": "C18",
   "status": "proved",
   "theorems": [
    "C18_evolve_is_trajectory",
    "C18_trajectory_is_followed",
    "C18_split",
    "C18_depends_on_state_only"
   ],
   "note": ""
  },
  {
   "property": "C19",
   "status": "proved",
   "theorems": [
    "C19_history_complete",
    "C19_last_entries_current",
    "C19_history_irrelevant",
    "C19_no_history_no_export"
   ],
   "note": ""
  },
  {
   "property": "C20",
   "status": "proved",
   "theorems": [
    "C20_rows_and_labels",
    "C20_labels_right_iff",
    "C20_groups"
   ],
   "note": ""
  },
  {
   "property": "C21",
   "status": "proved",
   "theorems": [
    "C21_health_constant",
    "C21_history_constant"
   ],
   "note": ""
  },
  {
   "property": "C22",
   "status": "proved",
   "theorems": [
    "C22_memory_is_values",
    "C22_isolated",
    "C22_transient_shared",
    "C22_returned_transient_refuted"
   ],
   "note": ""
  },
  {
   "property": "C23",
   "status": "proved",
   "theorems": [
    "C23_soc",
    "C23_series_capacitor"
   ],
   "note": ""
  },
  {
   "property": "C24",
   "status": "proved",
   "theorems": [
    "C24_interval",
    "C24_one_step",
    "C24_zero_step",
    "C24_split"
   ],
   "note": ""
  },
  {
   "property": "C25",
   "status": "proved",
   "theorems": [
    "C25_error",
    "C25_wrong_unless_constant"
   ],
   "note": ""
  },
  {
   "property": "C26",
   "status": "proved",
   "theorems": [
    "C26_previous_current",
    "C26_new_current",
    "C26_single_current"
   ],
   "note": ""
  },
  {
   "property": "C27",
   "status": "proved",
   "theorems": [
    "C27_bounded",
    "C27_zero_current",
    "C27_monotone"
   ],
   "note": ""
  },
  {
   "property": "C28",
   "status": "proved",
   "theorems": [
    "C28_distance_grows",
    "C28_unbounded"
   ],
   "note": ""
  },
  {
   "property": "C29",
   "status": "proved",
   "theorems": [
    "C29_exact",
    "C29_bounded"
   ],
   "note": ""
  },
  {
   "property": "C30",
   "status": "proved",
   "theorems": [
    "C30_decomposition",
    "C30_rested",
    "C30_affine"
   ],
   "note": ""
  },
  {
   "property": "C31",
   "status": "proved",
   "theorems": [
    "C31_single_value",
    "C31_on_segment",
    "C31_at_pinpoint",
    "C31_between_neighbours",
    "C31_extrapolation",
    "C31_default_grid"
   ],
   "note": ""
  },
  {
   "property": "C32",
   "status": "proved",
   "theorems": [
    "C32_values_unaffected",
    "C32_width_frozen"
   ],
   "note": ""
  },
  {
   "property": "C33",
   "status": "proved",
   "theorems": [
    "C33_update",
    "C33_voltage",
    "C33_histories"
   ],
   "note": ""
  },
  {
   "property": "C34",
   "status": "proved",
   "theorems": [
    "C34_previous",
    "C34_previous_ambiguous",
    "C34_new"
   ],
   "note": ""
  },
  {
   "property": "C35",
   "status": "proved",
   "theorems": [
    "C35_resistance",
    "C35_reference_temperature",
    "C35_no_temperature",
    "C35_positive",
    "C35_decreasing",
    "C35_ocv",
    "C35_time_constant"
   ],
   "note": ""
  },
  {
   "property": "C36",
   "status": "proved",
   "theorems": [
    "C36_units",
    "C36_set_then_read",
    "C36_read_then_set"
   ],
   "note": ""
  },
  {
   "property": "C37",
   "status": "proved",
   "theorems": [
    "C37_symmetric",
    "C37_equal_limits",
    "C37_scales_with_capacity",
    "C37_bounds",
    "C37_affine"
   ],
   "note": ""
  },
  {
   "property": "C38",
   "status": "proved",
   "theorems": [
    "C38_same_assertion",
    "C38_exact_never_fails",
    "C38_sign_flip_refuted",
    "C38_ramp_to_rest_refuted",
    "C38_constant_mode_never_fails"
   ],
   "note": ""
  },
  {
   "property": "C39",
   "status": "proved",
   "theorems": [
    "C39_mean_weights",
    "C39_cov_weights",
    "C39_other_weights",
    "C39_automatic"
   ],
   "note": ""
  },
  {
   "property": "C40",
   "status": "proved",
   "theorems": [
    "C40_accepts_exactly",
    "C40_rejects",
    "C40_result"
   ],
   "note": ""
  },
  {
   "property": "C41",
   "status": "proved",
   "theorems": [
    "C41_sigma_points"
   ],
   "note": ""
  },
  {
   "property": "C42",
   "status": "proved",
   "theorems": [
    "C42_positive_definite_forever",
    "C42_large_beta",
    "C42_kappa",
    "C42_central_weight",
    "C42_default_tuning"
   ],
   "note": ""
  },
  {
   "property": "C43",
   "status": "proved",
   "theorems": [
    "C43_refuted"
   ],
   "note": ""
  },
  {
   "property": "C44",
   "status": "proved",
   "theorems": [
    "C44_kalman_filter",
    "C44_tuning_irrelevant"
   ],
   "note": ""
  },
  {
   "property": "C45",
   "status": "proved",
   "theorems": [
    "C45_affine",
    "C45_no_surprise",
    "C45_less_uncertain",
    "C45_step"
   ],
   "note": ""
  },
  {
   "property": "C46",
   "status": "proved",
   "theorems": [
    "C46_unchanged",
    "C46_fallback",
    "C46_fallback_symmetric",
    "C46_one_dimension",
    "C46_repair_refuted",
    "C46_semidefinite_altered"
   ],
   "note": ""
  },
  {
   "property": "C47",
   "status": "proved",
   "theorems": [
    "C47_run"
   ],
   "note": ""
  },
  {
   "property": "C48",
   "status": "proved",
   "theorems": [
    "C48_linear",
    "C48_accepts",
    "C48_identity",
    "C48_gaussian",
    "C48_delta"
   ],
   "note": ""
  },
  {
   "property": "C49",
   "status": "proved",
   "theorems": [
    "C49_matrix",
    "C49_scalar",
    "C49_psd"
   ],
   "note": ""
  },
  {
   "property": "C50",
   "status": "proved",
   "theorems": [
    "C50_samples",
    "C50_default",
    "C50_indices",
    "C50_out_of_range",
    "C50_round_trips",
    "C50_covariance",
    "C50_inverse_covariance"
   ],
   "note": ""
  },
  {
   "property": "C51",
   "status": "proved",
   "theorems": [
    "C51_combine",
    "C51_associative",
    "C51_symmetric",
    "C51_positive",
    "C51_deltas",
    "C51_objects"
   ],
   "note": ""
  },
  {
   "property": "C52",
   "status": "proved",
   "theorems": [
    "C52_gaussian",
    "C52_refused",
    "C52_delta",
    "C52_unchecked"
   ],
   "note": ""
  },
  {
   "property": "C53",
   "status": "proved",
   "theorems": [
    "C53_fresh",
    "C53_new",
    "C53_stale",
    "C53_round_trip_fails"
   ],
   "note": ""
  },
  {
   "property": "C54",
   "status": "proved",
   "theorems": [
    "C54_constructed",
    "C54_encode_decoded",
    "C54_decode_encoded",
    "C54_nothing_selected_refuted"
   ],
   "note": ""
  },
  {
   "property": "C55",
   "status": "proved",
   "theorems": [
    "C55_health_is_held"
   ],
   "note": ""
  },
  {
   "property": "C56",
   "status": "proved",
   "theorems": [
    "C56_step_returns_converted_state",
    "C56_identity_agrees",
    "C56_differs_otherwise",
    "C56_estimated_state",
    "C56_state_agrees_refuted"
   ],
   "note": ""
  },
  {
   "property": "C57",
   "status": "proved",
   "theorems": [
    "C57_state_always_raises",
    "C57_step_combines",
    "C57_dual_cannot_be_prepared"
   ],
   "note": ""
  },
  {
   "property": "C58",
   "status": "proved",
   "theorems": [
    "C58_fills_updatable",
    "C58_right_selection",
    "C58_partial_selection_raises",
    "C58_other_order_refuted"
   ],
   "note": ""
  },
  {
   "property": "C59",
   "status": "proved",
   "theorems": [
    "C59_transient_half",
    "C59_health_half",
    "C59_previous_posteriors"
   ],
   "note": ""
  },
  {
   "property": "C60",
   "status": "proved",
   "theorems": [
    "C60_one_sided_noise_dropped",
    "C60_noise_used"
   ],
   "note": ""
  },
  {
   "property": "C61",
   "status": "proved",
   "theorems": [
    "C61_normalised_start"
   ],
   "note": ""
  },
  {
   "property": "C62",
   "status": "proved",
   "theorems": [
    "C62_dimensions_and_names",
    "C62_dual_names",
    "C62_batches_refused"
   ],
   "note": ""
  },
  {
   "property": "C63",
   "status": "proved",
   "theorems": [
    "C63_table",
    "C63_steps_once_per_row",
    "C63_raises_midway",
    "C63_no_rows_raises"
   ],
   "note": ""
  },
  {
   "property": "C64",
   "status": "proved",
   "theorems": [
    "C64_first_row_unused"
   ],
   "note": ""
  },
  {
   "property": "C65",
   "status": "proved",
   "theorems": [
    "C65_variances",
    "C65_not_standard_deviations_refuted"
   ],
   "note": ""
  },
  {
   "property": "C66",
   "status": "proved",
   "theorems": [
    "C66_row_conversion",
    "C66_missing_column"
   ],
   "note": ""
  },
  {
   "property": "C67",
   "status": "proved",
   "theorems": [
    "C67_round_trip",
    "C67_round_trip_path",
    "C67_metadata",
    "C67_wrong_type",
    "C67_other_name_not_found"
   ],
   "note": ""
  },
  {
   "property": "C68",
   "status": "proved",
   "theorems": [
    "C68_first_of_cycle"
   ],
   "note": ""
  },
  {
   "property": "C69",
   "status": "proved",
   "theorems": [
    "C69_until_missing",
    "C69_counted_from_one"
   ],
   "note": ""
  },
  {
   "property": "C70",
   "status": "proved",
   "theorems": [
    "C70_fits",
    "C70_no_more_than_expected",
    "C70_jump_raises"
   ],
   "note": ""
  },
  {
   "property": "C71",
   "status": "proved",
   "theorems": [
    "C71_only_while_open",
    "C71_position",
    "C71_prepare_keeps_estimates",
    "C71_prepare_new",
    "C71_prepared_twice",
    "C71_reopened_is_overwritten"
   ],
   "note": ""
  },
  {
   "property": "C72",
   "status": "proved",
   "theorems": [
    "C72_evaluation_modifies_nothing",
    "C72_evaluations_are_independent",
    "C72_caller_cannot_reach_the_guess",
    "C72_value",
    "C72_one_vector"
   ],
   "note": "The last part (evaluating does not modify the stored guess) is C72_evaluation_modifies_nothing, about the memory model of LossHeap.v."
  },
  {
   "property": "C73",
   "status": "proved",
   "theorems": [
    "C73_batched_outputs_raise",
    "C73_members_alike"
   ],
   "note": "The exception of C73_batched_outputs_raise is the broadcasting error of the first assignment; C73_members_alike covers every evaluation that does not raise."
  },
  {
   "property": "C74",
   "status": "proved",
   "theorems": [
    "C74_estimate",
    "C74_answer_is_returned",
    "C74_start_is_the_guess",
    "C74_same_order",
    "C74_same_minimisers"
   ],
   "note": ""
  },
  {
   "property": "C75",
   "status": "proved",
   "theorems": [
    "C75_temperature_ignored",
    "C75_previous_inputs"
   ],
   "note": ""
  },
  {
   "property": "C76",
   "status": "proved",
   "theorems": [
    "C76_members_independent",
    "C76_failures",
    "C76_result_of_member",
    "C76_overpotentials"
   ],
   "note": ""
  },
  {
   "property": "C77",
   "status": "proved",
   "theorems": [
    "C77_construction",
    "C77_soc_polynomial",
    "C77_temperature_polynomial",
    "C77_terminal_voltage",
    "C77_initial_state"
   ],
   "note": ""
  },
  {
   "property": "C78",
   "status": "proved",
   "theorems": [
    "C78_capacity",
    "C78_capacity_raises",
    "C78_check_passes",
    "C78_check_raises",
    "C78_check_stores",
    "C78_weights",
    "C78_fit",
    "C78_row_order",
    "C78_extracted_ocv",
    "C78_recovers",
    "C78_constructor"
   ],
   "note": ""
  },
  {
   "property": "C79",
   "status": "proved",
   "theorems": [
    "C79_update_fails",
    "C79_later_failure",
    "C79_atomic_refuted"
   ],
   "note": ""
  },
  {
   "property": "C80",
   "status": "proved",
   "theorems": [
    "C80_structure_replaced"
   ],
   "note": ""
  },
  {
   "property": "C81",
   "status": "proved",
   "theorems": [
    "C81_start_from_zero"
   ],
   "note": ""
  },
  {
   "property": "C82",
   "status": "proved",
   "theorems": [
    "C82_unbatched_never_raises"
   ],
   "note": ""
  },
  {
   "property": "C83",
   "status": "proved",
   "theorems": [
    "C83_negative_positions",
    "C83_out_of_range"
   ],
   "note": ""
  },
  {
   "property": "C84",
   "status": "proved",
   "theorems": [
    "C84_tuple_from_zero",
    "C84_structures"
   ],
   "note": ""
  },
  {
   "property": "C85",
   "status": "proved",
   "theorems": [
    "C85_keyword_arguments",
    "C85_type_error"
   ],
   "note": ""
  },
  {
   "property": "C86",
   "status": "proved",
   "theorems": [
    "C86_project",
    "C86_reduction",
    "C86_extension"
   ],
   "note": ""
  },
  {
   "property": "C87",
   "status": "proved",
   "theorems": [
    "C87_shared_covariance"
   ],
   "note": ""
  },
  {
   "property": "C88",
   "status": "proved",
   "theorems": [
    "C88_joint_degradation_lags"
   ],
   "note": ""
  },
  {
   "property": "C89",
   "status": "proved",
   "theorems": [
    "C89_same_prediction"
   ],
   "note": ""
  },
  {
   "property": "C90",
   "status": "proved",
   "theorems": [
    "C90_joint_starts_at_initial_values",
    "C90_dual_starts_at_initial_values"
   ],
   "note": ""
  },
  {
   "property": "C91",
   "status": "proved",
   "theorems": [
    "C91_cycle_record_is_final",
    "C91_past_rows_are_final",
    "C91_failed_append_is_not_undone_refuted"
   ],
   "note": ""
  },
  {
   "property": "C92",
   "status": "proved",
   "theorems": [
    "C92_file_of_run",
    "C92_without_cycle_numbers",
    "C92_dual_raises"
   ],
   "note": ""
  },
  {
   "property": "C93",
   "status": "proved",
   "theorems": [
    "C93_round_trip",
    "C93_circuit",
    "C93_state",
    "C93_entries",
    "C93_circuit_determined",
    "C93_state_determined",
    "C93_texts",
    "C93_scalar_row",
    "C93_lists"
   ],
   "note": ""
  },
  {
   "property": "C94",
   "status": "proved",
   "theorems": [
    "C94_refused",
    "C94_updatable",
    "C94_circuit",
    "C94_after_voltage"
   ],
   "note": ""
  },
  {
   "property": "C95",
   "status": "proved",
   "theorems": [
    "C95_same_text",
    "C95_read_back"
   ],
   "note": ""
  },
  {
   "property": "C96",
   "status": "proved",
   "theorems": [
    "C96_rate"
   ],
   "note": ""
  },
  {
   "property": "C97",
   "status": "proved",
   "theorems": [
    "C97_rectangular",
    "C97_file_left",
    "C97_closed",
    "C97_same_settings",
    "C97_failed_write",
    "C97_recording_is_passive",
    "C97_new_file"
   ],
   "note": ""
  },
  {
   "property": "C98",
   "status": "proved",
   "theorems": [
    "C98_same_results",
    "C98_both_exist",
    "C98_starts_healthy",
    "C98_default_noise",
    "C98_default_noise_refuted"
   ],
   "note": ""
  },
  {
   "property": "C99",
   "status": "proved",
   "theorems": [
    "C99_joint_prediction",
    "C99_wrong_batch",
    "C99_wrong_width",
    "C99_transient_wrapper",
    "C99_health_update",
    "C99_health_prediction",
    "C99_health_update_raises"
   ],
   "note": ""
  },
  {
   "property": "C100",
   "status": "proved",
   "theorems": [
    "C100_rows",
    "C100_read_back",
    "C100_estimate_simulated",
    "C100_not_stored",
    "C100_several_cells_refuted"
   ],
   "note": ""
  },
  {
   "property": "C101",
   "status": "proved",
   "theorems": [
    "C101_joint_step",
    "C101_dual_step"
   ],
   "note": ""
  },
  {
   "property": "C102",
   "status": "proved",
   "theorems": [
    "C102_circuit",
    "C102_joint_update",
    "C102_joint_prediction",
    "C102_transient_update",
    "C102_transient_prediction",
    "C102_health_prediction",
    "C102_health_rows_refuted"
   ],
   "note": ""
  },
  {
   "property": "C103",
   "status": "proved",
   "theorems": [
    "C103_joint_update",
    "C103_joint_prediction",
    "C103_joint_update_one",
    "C103_transient_wrapper",
    "C103_health_prediction",
    "C103_health_update"
   ],
   "note": ""
  },
  {
   "property": "C104",
   "status": "proved",
   "theorems": [
    "C104_constructs",
    "C104_runs",
    "C104_normalising"
   ],
   "note": ""
  },
  {
   "property": "C105",
   "status": "proved",
   "theorems": [
    "C105_reading",
    "C105_unambiguous",
    "C105_structures_raise",
    "C105_no_names"
   ],
   "note": ""
  },
  {
   "property": "C106",
   "status": "proved",
   "theorems": [
    "C106_constructs",
    "C106_runs",
    "C106_normalising",
    "C106_selection",
    "C106_starts_healthy"
   ],
   "note": ""
  },
  {
   "property": "C107",
   "status": "proved",
   "theorems": [
    "C107_joint",
    "C107_circuits",
    "C107_dual"
   ],
   "note": ""
  },
  {
   "property": "C108",
   "status": "proved",
   "theorems": [
    "C108_circuit",
    "C108_numbers",
    "C108_bound",
    "C108_outputs",
    "C108_directions",
    "C108_exact",
    "C108_square_refuted"
   ],
   "note": ""
  },
  {
   "property": "C109",
   "status": "proved",
   "theorems": [
    "C109_template",
    "C109_from_asoh",
    "C109_rest_voltage"
   ],
   "note": ""
  },
  {
   "property": "C110",
   "status": "proved",
   "theorems": [
    "C110_template",
    "C110_wrong_number",
    "C110_one_cell",
    "C110_default_capacitor",
    "C110_default_voltages",
    "C110_style"
   ],
   "note": ""
  },
  {
   "property": "C111",
   "status": "proved",
   "theorems": [
    "C111_joint",
    "C111_dual"
   ],
   "note": ""
  },
  {
   "property": "C112",
   "status": "proved",
   "theorems": [
    "C112_slopes",
    "C112_rest_voltages",
    "C112_soc_from_voltage",
    "C112_every_voltage"
   ],
   "note": ""
  },
  {
   "property": "C113",
   "status": "proved",
   "theorems": [
    "C113_decay",
    "C113_voltage",
    "C113_converges"
   ],
   "note": ""
  },
  {
   "property": "C114",
   "status": "proved",
   "theorems": [
    "C114_truth_has_no_loss",
    "C114_truth_minimises",
    "C114_estimate",
    "C114_circuit"
   ],
   "note": ""
  },
  {
   "property": "C115",
   "status": "proved",
   "theorems": [
    "C115_closed_form",
    "C115_sampling",
    "C115_insertion",
    "C115_varying_refuted"
   ],
   "note": ""
  },
  {
   "property": "C116",
   "status": "proved",
   "theorems": [
    "C116_clock",
    "C116_order"
   ],
   "note": ""
  },
  {
   "property": "C117",
   "status": "proved",
   "theorems": [
    "C117_data",
    "C117_not_stored",
    "C117_joint",
    "C117_dual"
   ],
   "note": ""
  },
  {
   "property": "C118",
   "status": "proved",
   "theorems": [
    "C118_joint",
    "C118_dual_raises"
   ],
   "note": ""
  },
  {
   "property": "C119",
   "status": "proved",
   "theorems": [
    "C119_missing_is_reference",
    "C119_loss_of_truth",
    "C119_fit",
    "C119_other_reference_refuted"
   ],
   "note": ""
  },
  {
   "property": "C120",
   "status": "proved",
   "theorems": [
    "C120_currents",
    "C120_voltage",
    "C120_hysteresis",
    "C120_linear_refuted"
   ],
   "note": ""
  },
  {
   "property": "C121",
   "status": "proved",
   "theorems": [
    "C121_pack",
    "C121_no_raise",
    "C121_small_currents_refuted"
   ],
   "note": ""
  },
  {
   "property": "C122",
   "status": "proved",
   "theorems": [
    "C122_selection",
    "C122_joint",
    "C122_dual"
   ],
   "note": ""
  },
  {
   "property": "C123",
   "status": "proved",
   "theorems": [
    "C123_circuit",
    "C123_state",
    "C123_input",
    "C123_thevenin",
    "C123_thevenin_state",
    "C123_temperature",
    "C123_cell"
   ],
   "note": ""
  },
  {
   "property": "C124",
   "status": "proved",
   "theorems": [
    "C124_charge",
    "C124_voltage",
    "C124_tiny_currents_refuted"
   ],
   "note": ""
  },
  {
   "property": "C125",
   "status": "proved",
   "theorems": [
    "C125_joint",
    "C125_dual"
   ],
   "note": ""
  },
  {
   "property": "C126",
   "status": "proved",
   "theorems": [
    "C126_superposition",
    "C126_charge",
    "C126_efficiency_refuted"
   ],
   "note": ""
  },
  {
   "property": "C127",
   "status": "proved",
   "theorems": [
    "C127_band",
    "C127_charge",
    "C127_linear_refuted"
   ],
   "note": ""
  },
  {
   "property": "C128",
   "status": "proved",
   "theorems": [
    "C128_slower",
    "C128_no_raise"
   ],
   "note": ""
  },
  {
   "property": "C129",
   "status": "proved",
   "theorems": [
    "C129_joint",
    "C129_skip",
    "C129_dual_skip",
    "C129_dual",
    "C129_dual_atomic_refuted"
   ],
   "note": ""
  },
  {
   "property": "C130",
   "status": "proved",
   "theorems": [
    "C130_resume",
    "C130_gap"
   ],
   "note": ""
  }
 ]
}