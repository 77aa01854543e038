{
 "claims": [
  {
   "property": "C01",
   "status": "proved",
   "theorems": [
    "C01_two_layer_shape",
    "C01_impulse_response_shape",
    "C01_impulse_response_success"
   ],
   "note": ""
  },
  {
   "property": "C02",
   "status": "proved",
   "theorems": [
    "C02_two_layer_causality",
    "C02_impulse_response_causality",
    "C02_last_driver_inert"
   ],
   "note": ""
  },
  {
   "property": "C03",
   "status": "proved",
   "theorems": [
    "C03_two_layer_history",
    "C03_two_layer_fresh",
    "C03_impulse_response_history"
   ],
   "note": ""
  },
  {
   "property": "C04",
   "status": "proved",
   "theorems": [
    "C04_two_layer_steps",
    "C04_impulse_response_steps",
    "C04_two_layer_overrun",
    "C04_impulse_response_overrun",
    "C04_two_layer_keeps_earlier",
    "C04_impulse_response_keeps_earlier"
   ],
   "note": ""
  },
  {
   "property": "C05",
   "status": "proved",
   "theorems": [
    "C05_two_layer_no_stale_values",
    "C05_impulse_response_no_stale_values"
   ],
   "note": ""
  },
  {
   "property": "C06",
   "status": "proved",
   "theorems": [
    "C06_two_layer_setters",
    "C06_impulse_response_setters",
    "C06_set_drivers",
    "C06_two_layer_construction"
   ],
   "note": ""
  },
  {
   "property": "C07",
   "status": "proved",
   "theorems": [
    "C07_two_layer_reset",
    "C07_impulse_response_reset"
   ],
   "note": ""
  },
  {
   "property": "C08",
   "status": "proved",
   "theorems": [
    "C08_two_layer_uncomputed_are_nan",
    "C08_impulse_response_uncomputed_are_nan"
   ],
   "note": ""
  },
  {
   "property": "C09",
   "status": "proved",
   "theorems": [
    "C09_two_layer_run_without_drivers",
    "C09_impulse_response_run_without_drivers"
   ],
   "note": ""
  },
  {
   "property": "C10",
   "status": "proved",
   "theorems": [
    "C10_forward_euler",
    "C10_heat_capacities",
    "C10_units_are_consistent",
    "C10_zero_depth_is_not_finite"
   ],
   "note": ""
  },
  {
   "property": "C11",
   "status": "proved",
   "theorems": [
    "C11_heat_uptake_is_reported",
    "C11_energy_balance",
    "C11_efficacy_1_is_top_of_atmosphere"
   ],
   "note": ""
  },
  {
   "property": "C12",
   "status": "proved",
   "theorems": [
    "C12_no_heat_is_lost"
   ],
   "note": ""
  },
  {
   "property": "C13",
   "status": "proved",
   "theorems": [
    "C13_linear_in_the_forcing",
    "C13_fails_with_state_dependence"
   ],
   "note": ""
  },
  {
   "property": "C14",
   "status": "proved",
   "theorems": [
    "C14_linear_in_the_forcing"
   ],
   "note": ""
  },
  {
   "property": "C15",
   "status": "proved",
   "theorems": [
    "C15_two_layer_time_shift",
    "C15_impulse_response_time_shift"
   ],
   "note": ""
  },
  {
   "property": "C16",
   "status": "proved",
   "theorems": [
    "C16_sign_under_step_condition",
    "C16_monotone_under_step_condition",
    "C16_bounded_under_step_condition",
    "C16_fails_without_it"
   ],
   "note": ""
  },
  {
   "property": "C17",
   "status": "proved",
   "theorems": [
    "C17_two_layer_equilibrium",
    "C17_impulse_response_equilibrium",
    "C17_impulse_response_heat_uptake",
    "C17_impulse_response_heat_uptake_any_efficacy"
   ],
   "note": ""
  },
  {
   "property": "C18",
   "status": "proved",
   "theorems": [
    "C18_boxes_are_exact_solutions"
   ],
   "note": ""
  },
  {
   "property": "C19",
   "status": "proved",
   "theorems": [
    "C19_step_size_does_not_matter",
    "C19_finer_run_succeeds",
    "C19_two_layer_depends_on_the_step"
   ],
   "note": ""
  },
  {
   "property": "C20",
   "status": "proved",
   "theorems": [
    "C20_sign",
    "C20_monotone",
    "C20_bounded"
   ],
   "note": ""
  },
  {
   "property": "C21",
   "status": "proved",
   "theorems": [
    "C21_helper_parameters",
    "C21_impulse_response_parameters"
   ],
   "note": ""
  },
  {
   "property": "C22",
   "status": "proved",
   "theorems": [
    "C22_round_trip_two_layer"
   ],
   "note": ""
  },
  {
   "property": "C23",
   "status": "proved",
   "theorems": [
    "C23_round_trip_impulse_response"
   ],
   "note": ""
  },
  {
   "property": "C24",
   "status": "proved",
   "theorems": [
    "C24_state_dependence_is_refused",
    "C24_all_outcomes",
    "C24_one_layer_and_positive"
   ],
   "note": ""
  },
  {
   "property": "C25",
   "status": "proved",
   "theorems": [
    "C25_same_continuous_system"
   ],
   "note": ""
  },
  {
   "property": "C26",
   "status": "proved",
   "theorems": [
    "C26_surface_temperatures_agree",
    "C26_deep_temperatures_agree"
   ],
   "note": ""
  },
  {
   "property": "C27",
   "status": "proved",
   "theorems": [
    "C27_heat_uptake_of_the_equivalent_model",
    "C27_both_runs_succeed",
    "C27_converted_heat_uptake",
    "C27_heat_uptakes_agree"
   ],
   "note": ""
  },
  {
   "property": "C28",
   "status": "proved",
   "theorems": [
    "C28_units_do_not_matter"
   ],
   "note": ""
  },
  {
   "property": "C29",
   "status": "proved",
   "theorems": [
    "C29_temperatures",
    "C29_heat_uptake_factor",
    "C29_heat_uptake",
    "C29_other_unit_sizes_are_wrong"
   ],
   "note": ""
  },
  {
   "property": "C30",
   "status": "proved",
   "theorems": [
    "C30_efficacy_one_never_asserts",
    "C30_which_units_abort",
    "C30_same_unit",
    "C30_kelvin_aborts"
   ],
   "note": ""
  },
  {
   "property": "C31",
   "status": "proved",
   "theorems": [
    "C31_constructor",
    "C31_setters_do_not_check",
    "C31_same_two_layer_system",
    "C31_reversed_heat_uptake",
    "C31_reversed_order_is_wrong",
    "C31_value_error_means_order"
   ],
   "note": ""
  },
  {
   "property": "C32",
   "status": "proved",
   "theorems": [
    "C32_scenarios_are_separate_runs",
    "C32_each_scenario_alone",
    "C32_history_irrelevant",
    "C32_success_iff_each_succeeds"
   ],
   "note": ""
  },
  {
   "property": "C33",
   "status": "proved",
   "theorems": [
    "C33_exactly_the_world_rows",
    "C33_name_without_star_is_literal",
    "C33_nothing_to_run"
   ],
   "note": ""
  },
  {
   "property": "C34",
   "status": "proved",
   "theorems": [
    "C34_output_rows",
    "C34_row_values"
   ],
   "note": ""
  },
  {
   "property": "C35",
   "status": "proved",
   "theorems": [
    "C35_timestep_choice",
    "C35_calendar",
    "C35_yearly_gaps",
    "C35_one_day_counts_as_a_year"
   ],
   "note": ""
  },
  {
   "property": "C36",
   "status": "proved",
   "theorems": [
    "C36_missing_points_are_dropped",
    "C36_elapsed_time_is_ignored"
   ],
   "note": ""
  },
  {
   "property": "C37",
   "status": "proved",
   "theorems": [
    "C37_earlier_delta_t_irrelevant",
    "C37_delta_t_afterwards"
   ],
   "note": ""
  },
  {
   "property": "C38",
   "status": "proved",
   "theorems": [
    "C38_type_error",
    "C38_unit",
    "C38_value",
    "C38_limit_of_the_warming",
    "C38_limit_of_the_impulse_response",
    "C38_linear",
    "C38_inverts_itself",
    "C38_default"
   ],
   "note": ""
  },
  {
   "property": "C39",
   "status": "proved",
   "theorems": [
    "C39_no_exchange_is_one_layer",
    "C39_deep_lower_layer_bound",
    "C39_deep_lower_layer_limit"
   ],
   "note": ""
  },
  {
   "property": "C40",
   "status": "proved",
   "theorems": [
    "C40_impulse_response_efficacy",
    "C40_efficacy_not_identifiable"
   ],
   "note": ""
  },
  {
   "property": "C41",
   "status": "proved",
   "theorems": [
    "C41_steady_states",
    "C41_limits_are_roots",
    "C41_no_steady_state_above_threshold",
    "C41_runaway_lower_bound",
    "C41_runaway",
    "C41_settles_at_the_smallest_root",
    "C41_settles_below_threshold"
   ],
   "note": ""
  },
  {
   "property": "C42",
   "status": "proved",
   "theorems": [
    "C42_non_unique_only_if",
    "C42_only_climate_model_differs",
    "C42_returned_rows_differ"
   ],
   "note": ""
  },
  {
   "property": "C43",
   "status": "proved",
   "theorems": [
    "C43_driver_named_like_an_output",
    "C43_error_is_non_unique_metadata"
   ],
   "note": ""
  },
  {
   "property": "C44",
   "status": "proved",
   "theorems": [
    "C44_two_layer_step",
    "C44_two_layer_run",
    "C44_impulse_response_step",
    "C44_impulse_response_run"
   ],
   "note": ""
  },
  {
   "property": "C45",
   "status": "proved",
   "theorems": [
    "C45_tagged",
    "C45_release",
    "C45_untagged",
    "C45_tag_v_alone",
    "C45_injective",
    "C45_tagged_vs_untagged",
    "C45_untagged_injective",
    "C45_parse",
    "C45_parse_unique",
    "C45_render_never_fails",
    "C45_unknown_style",
    "C45_unparseable",
    "C45_import_errors",
    "C45_import_fails",
    "C45_describe_long_round_trip",
    "C45_other_styles",
    "C45_archive",
    "C45_date",
    "C45_old_archive",
    "C45_archive_unknown",
    "C45_archive_total",
    "C45_parent_directory"
   ],
   "note": ""
  },
  {
   "property": "C46",
   "status": "proved",
   "theorems": [
    "C46_impulse_response_similarity",
    "C46_two_layer_similarity"
   ],
   "note": ""
  },
  {
   "property": "C47",
   "status": "proved",
   "theorems": [
    "C47_impulse_response_warming",
    "C47_two_layer_warming"
   ],
   "note": ""
  },
  {
   "property": "C48",
   "status": "proved",
   "theorems": [
    "C48_heat_uptake_formula"
   ],
   "note": ""
  },
  {
   "property": "C49",
   "status": "proved",
   "theorems": [
    "C49_two_layer_defaults",
    "C49_impulse_response_defaults",
    "C49_two_layer_sensitivity",
    "C49_impulse_response_sensitivity"
   ],
   "note": ""
  },
  {
   "property": "C50",
   "status": "proved",
   "theorems": [
    "C50_callers_arrays_untouched"
   ],
   "note": ""
  },
  {
   "property": "C51",
   "status": "proved",
   "theorems": [
    "C51_other_models_untouched",
    "C51_two_layer_interleaving",
    "C51_impulse_response_interleaving"
   ],
   "note": ""
  },
  {
   "property": "C52",
   "status": "proved",
   "theorems": [
    "C52_two_layer_call_by_value",
    "C52_impulse_response_call_by_value",
    "C52_quiet_histories_by_value"
   ],
   "note": ""
  },
  {
   "property": "C53",
   "status": "proved",
   "theorems": [
    "C53_two_layer_shared_driver",
    "C53_two_layer_converted_driver",
    "C53_two_layer_ito_driver",
    "C53_impulse_response_shared_driver",
    "C53_impulse_response_converted_driver",
    "C53_impulse_response_ito_driver"
   ],
   "note": ""
  },
  {
   "property": "C54",
   "status": "proved",
   "theorems": [
    "C54_returned_table",
    "C54_running_again"
   ],
   "note": ""
  },
  {
   "property": "C55",
   "status": "proved",
   "theorems": [
    "C55_exact_solution",
    "C55_error_of_a_refined_run",
    "C55_smaller_steps_converge",
    "C55_refined_runs"
   ],
   "note": ""
  },
  {
   "property": "C56",
   "status": "proved",
   "theorems": [
    "C56_two_layer_sign",
    "C56_impulse_response_sign",
    "C56_two_layer_leading_zeros",
    "C56_impulse_response_leading_zeros",
    "C56_impulse_response_order",
    "C56_impulse_response_rise"
   ],
   "note": ""
  },
  {
   "property": "C57",
   "status": "proved",
   "theorems": [
    "C57_file_round_trip",
    "C57_rebuild",
    "C57_rewrite_identical",
    "C57_import",
    "C57_setup_as_import",
    "C57_keywords",
    "C57_chain",
    "C57_tagged_release"
   ],
   "note": ""
  },
  {
   "property": "C58",
   "status": "proved",
   "theorems": [
    "C58_response_formula",
    "C58_step_response",
    "C58_below_the_limit",
    "C58_beyond_the_limit",
    "C58_at_the_limit",
    "C58_converges_iff",
    "C58_bounded_below_the_limit",
    "C58_resonance",
    "C58_limit_in_parameters"
   ],
   "note": ""
  },
  {
   "property": "C59",
   "status": "proved",
   "theorems": [
    "C59_feedback",
    "C59_slower_warming",
    "C59_sensitivities",
    "C59_timescales"
   ],
   "note": ""
  },
  {
   "property": "C60",
   "status": "proved",
   "theorems": [
    "C60_two_layer",
    "C60_impulse_response",
    "C60_two_layer_heat_uptake",
    "C60_two_layer_energy_balance",
    "C60_two_layer_heat_is_conserved"
   ],
   "note": ""
  },
  {
   "property": "C61",
   "status": "proved",
   "theorems": [
    "C61_forcing_from_surface_temperature",
    "C61_forcing_from_heat_uptake",
    "C61_forcing_from_deep_temperature",
    "C61_every_surface_temperature",
    "C61_every_heat_uptake",
    "C61_every_deep_temperature",
    "C61_impulse_response_forcing_from_surface_temperature",
    "C61_impulse_response_forcing_from_box_1",
    "C61_impulse_response_forcing_from_heat_uptake",
    "C61_parameters_from_temperature",
    "C61_parameters_from_temperature_and_heat_uptake",
    "C61_impulse_response_every_temperature",
    "C61_impulse_response_parameters_from_temperature",
    "C61_impulse_response_parameters_from_temperature_and_heat_uptake"
   ],
   "note": ""
  },
  {
   "property": "C62",
   "status": "proved",
   "theorems": [
    "C62_settles",
    "C62_settles_only_then",
    "C62_forgets",
    "C62_cycles",
    "C62_averages",
    "C62_ramp",
    "C62_totals",
    "C62_impulse_response_settles",
    "C62_impulse_response_settles_only_then",
    "C62_impulse_response_heat_uptake",
    "C62_impulse_response_forgets",
    "C62_impulse_response_cycles",
    "C62_impulse_response_averages",
    "C62_impulse_response_ramp",
    "C62_impulse_response_totals"
   ],
   "note": ""
  },
  {
   "property": "C63",
   "status": "proved",
   "theorems": [
    "C63_columns",
    "C63_constructor",
    "C63_run",
    "C63_independent",
    "C63_missing",
    "C63_ir_columns",
    "C63_ir_constructor",
    "C63_ir_run"
   ],
   "note": ""
  },
  {
   "property": "C64",
   "status": "proved",
   "theorems": [
    "C64_two_layer_repeats",
    "C64_impulse_response_repeats",
    "C64_impulse_response_settles"
   ],
   "note": ""
  },
  {
   "property": "C65",
   "status": "proved",
   "theorems": [
    "C65_installed",
    "C65_kept",
    "C65_staged",
    "C65_interrupted",
    "C65_again",
    "C65_again_writes",
    "C65_unconfigured",
    "C65_scan",
    "C65_exit",
    "C65_blank_in_path",
    "C65_longer_name",
    "C65_needs_line_end"
   ],
   "note": ""
  },
  {
   "property": "C66",
   "status": "proved",
   "theorems": [
    "C66_read_back",
    "C66_then_installs",
    "C66_sample",
    "C66_sample_once",
    "C66_twice"
   ],
   "note": ""
  },
  {
   "property": "C67",
   "status": "proved",
   "theorems": [
    "C67_uninterrupted_two_layer",
    "C67_uninterrupted_impulse_response",
    "C67_two_layer_settled",
    "C67_impulse_response_settled",
    "C67_two_layer_scenarios",
    "C67_impulse_response_scenarios",
    "C67_two_layer_again",
    "C67_impulse_response_again",
    "C67_two_layer_partial_run",
    "C67_impulse_response_partial_run",
    "C67_two_layer_cut_assignment",
    "C67_impulse_response_cut_assignment",
    "C67_two_layer_cut_driver",
    "C67_two_layer_first_driver",
    "C67_impulse_response_cut_driver",
    "C67_impulse_response_first_driver"
   ],
   "note": ""
  },
  {
   "property": "C68",
   "status": "proved",
   "theorems": [
    "C68_assign_during_run",
    "C68_one_assignment",
    "C68_impulse_response_assign_during_run",
    "C68_impulse_response_one_assignment",
    "C68_alone",
    "C68_different_objects",
    "C68_different_objects_end",
    "C68_two_layer_parameters",
    "C68_impulse_response_parameters"
   ],
   "note": ""
  },
  {
   "property": "C69",
   "status": "proved",
   "theorems": [
    "C69_uptake_total",
    "C69_stored_heat",
    "C69_uptake_exceeds_storage",
    "C69_balance_error",
    "C69_condition"
   ],
   "note": ""
  },
  {
   "property": "C70",
   "status": "proved",
   "theorems": [
    "C70_range",
    "C70_compare",
    "C70_forcings_added",
    "C70_forcing_multiplied",
    "C70_rising",
    "C70_no_tipping"
   ],
   "note": ""
  },
  {
   "property": "C71",
   "status": "proved",
   "theorems": [
    "C71_exact_solutions",
    "C71_impulse_response_error",
    "C71_impulse_response_lags",
    "C71_two_layer_error",
    "C71_two_layer_converges",
    "C71_impulse_response_converges",
    "C71_two_layer_heat",
    "C71_impulse_response_heat",
    "C71_two_layer_heat_converges",
    "C71_two_layer_converges_continuous",
    "C71_impulse_response_converges_continuous",
    "C71_two_layer_binary64",
    "C71_impulse_response_binary64"
   ],
   "note": ""
  }
 ]
}