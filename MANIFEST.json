{
 "claims": [
  {
   "property": "C01",
   "status": "proved",
   "theorems": [
    "C01_options_refine_flat_map",
    "C01_options_outcome",
    "C01_last_write_wins"
   ],
   "note": ""
  },
  {
   "property": "C02",
   "status": "proved",
   "theorems": [
    "C02_option_context_restores",
    "C02_histories_are_bodies",
    "C02_option_context_repeated_names",
    "C02_option_context_duplicate_refuted",
    "C02_option_context_odd"
   ],
   "note": "With repeated names restoring fails; the exact restored value and a counterexample are proved as well."
  },
  {
   "property": "C03",
   "status": "proved",
   "theorems": [
    "C03_deprecated_kwargs",
    "C03_future_version"
   ],
   "note": "For alias tables with distinct keys whose replacement names are not themselves deprecated (all tables in the repository)."
  },
  {
   "property": "C04",
   "status": "proved",
   "theorems": [
    "C04_tables_invariant",
    "C04_raising_call_changes_nothing",
    "C04_empty_snapshots_refuted"
   ],
   "note": "For distinct, non-empty snapshot indices and rectangular arguments; the empty-index call is proved to break the invariant."
  },
  {
   "property": "C05",
   "status": "proved",
   "theorems": [
    "C05_add_leaves_others",
    "C05_added_values_read_back",
    "C05_add_then_remove",
    "C05_existing_ignored",
    "C05_existing_ignored_refuted",
    "C05_overwrite_static_refuted",
    "C05_custom_series_refuted"
   ],
   "note": "Add then remove restores every observable value; fresh names read back what was passed; names not in the call are untouched; existing names without overwrite keep their row and their values, with the one exception (a series for a component without a column) characterised exactly. Three defects refuted by witness."
  },
  {
   "property": "C06",
   "status": "proved",
   "theorems": [
    "C06_set_snapshots"
   ],
   "note": ""
  },
  {
   "property": "C07",
   "status": "proved",
   "theorems": [
    "C07_dense_view",
    "C07_dense_view_defined"
   ],
   "note": ""
  },
  {
   "property": "C08",
   "status": "proved",
   "theorems": [
    "C08_no_period",
    "C08_no_build_years",
    "C08_periods",
    "C08_unknown_period",
    "C08_complete",
    "C08_activity_mask"
   ],
   "note": ""
  },
  {
   "property": "C09",
   "status": "proved",
   "theorems": [
    "C09_slice",
    "C09_slice_closed",
    "C09_slice_snapshots",
    "C09_slice_defined",
    "C09_slice_refused",
    "C09_multiport_refuted"
   ],
   "note": "As stated, with the multi-port exception proved as a counterexample."
  },
  {
   "property": "C10",
   "status": "proved",
   "theorems": [
    "C10_rename_buses",
    "C10_not_injective_refuted",
    "C10_other_classes_refuted"
   ],
   "note": "For mappings that keep bus names distinct; the two defects are proved as counterexamples."
  },
  {
   "property": "C11",
   "status": "proved",
   "theorems": [
    "C11_complete",
    "C11_sound",
    "C11_kinds_differ",
    "C11_network_reflexive",
    "C11_network_sound",
    "C11_network_exact",
    "C11_symmetric_refuted",
    "C11_bool_int_refuted",
    "C11_contents_refuted"
   ],
   "note": "Soundness up to the listed confusions, completeness, reflexivity; asymmetry proved as counterexample."
  },
  {
   "property": "C12",
   "status": "proved",
   "theorems": [
    "C12_merge",
    "C12_merge_skipped_classes",
    "C12_overlap_refused",
    "C12_other_snapshots_refused",
    "C12_other_weightings_refused",
    "C12_merge_defined",
    "C12_custom_series_refuted"
   ],
   "note": "Custom series held by both networks are the proved exception."
  },
  {
   "property": "C13",
   "status": "proved",
   "theorems": [
    "C13_round_trip",
    "C13_import_succeeds",
    "C13_hidden_default_refuted"
   ],
   "note": "Under the stated proviso, whose necessity is proved by a counterexample."
  },
  {
   "property": "C14",
   "status": "proved",
   "theorems": [
    "C14_registered_is_returned",
    "C14_last_accepted",
    "C14_nothing_lost",
    "C14_refused_changes_nothing",
    "C14_attribute_flags",
    "C14_boolean_default",
    "C14_string_default",
    "C14_declared_default",
    "C14_missing_default",
    "C14_unique_name_refuted",
    "C14_replaced_silently_refuted"
   ],
   "note": "Missing uniqueness check and silent replacement proved as counterexamples."
  },
  {
   "property": "C15",
   "status": "proved",
   "theorems": [
    "C15_sub_networks",
    "C15_members",
    "C15_class_order_irrelevant",
    "C15_unknown_bus",
    "C15_last_class_unused_refuted",
    "C15_last_class_unused",
    "C15_inactive_branch_refuted"
   ],
   "note": "Under the stated proviso; its necessity and the inactive-branch anomaly are proved as counterexamples."
  },
  {
   "property": "C16",
   "status": "proved",
   "theorems": [
    "C16_entries",
    "C16_column_sums",
    "C16_net_outflow",
    "C16_unknown_bus"
   ],
   "note": ""
  },
  {
   "property": "C17",
   "status": "proved",
   "theorems": [
    "C17_circulation",
    "C17_entries",
    "C17_column_count",
    "C17_no_key_error"
   ],
   "note": "networkx.cycle_basis is a parameter: any list of cycles that are closed walks over existing branches."
  },
  {
   "property": "C18",
   "status": "proved",
   "theorems": [
    "C18_kvl_iff_angles",
    "C18_dispatch_flows_are_lpf",
    "C18_inactive_branch_refuted",
    "C18_phase_shift_refuted"
   ],
   "note": "networkx.cycle_basis enters as its contract (closed walks spanning the cycle space); branches joining a bus to itself excluded; inactive branches and phase shifts are proved exceptions."
  },
  {
   "property": "C19",
   "status": "proved",
   "theorems": [
    "C19_lpf_solves",
    "C19_flows_unique"
   ],
   "note": "Exact arithmetic over any ordered field; spsolve is the exact inverse. Non-zero, finite reactances."
  },
  {
   "property": "C20",
   "status": "proved",
   "theorems": [
    "C20_invertible_iff_connected",
    "C20_angles_unique",
    "C20_negative_reactance_refuted"
   ],
   "note": "Exact arithmetic over any ordered field."
  },
  {
   "property": "C21",
   "status": "proved",
   "theorems": [
    "C21_ptdf_is_lpf",
    "C21_ptdf_solves",
    "C21_slack_choice_irrelevant"
   ],
   "note": "Exact arithmetic over any ordered field."
  },
  {
   "property": "C22",
   "status": "proved",
   "theorems": [
    "C22_bodf_predicts_outage",
    "C22_denominator_zero_iff_bridge"
   ],
   "note": "Exact arithmetic over any ordered field; includes phase shifts."
  },
  {
   "property": "C23",
   "status": "proved",
   "theorems": [
    "C23_slack_generator",
    "C23_bus_controls",
    "C23_buses_partitioned",
    "C23_one_slack",
    "C23_repeat_changes_nothing",
    "C23_succeeds",
    "C23_inactive_slack_refuted",
    "C23_stale_generator_refuted"
   ],
   "note": "As stated; selection of an inactive generator and the stale bus entry are proved as counterexamples."
  },
  {
   "property": "C24",
   "status": "proved",
   "theorems": [
    "C24_trace",
    "C24_converged_iff",
    "C24_not_converged",
    "C24_good_guess",
    "C24_nan_tolerance_refuted"
   ],
   "note": "Residual and Jacobian solve are arbitrary functions; a NaN tolerance is the proved exception."
  },
  {
   "property": "C25",
   "status": "proved",
   "theorems": [
    "C25_wye_to_delta",
    "C25_t_model",
    "C25_other_models_untouched"
   ],
   "note": "Exact arithmetic over any field with the needed denominators non-zero."
  },
  {
   "property": "C26",
   "status": "proved",
   "theorems": [
    "C26_branch_currents",
    "C26_bus_currents",
    "C26_bus_powers",
    "C26_total_power",
    "C26_symmetric",
    "C26_lossless_branch"
   ],
   "note": "Exact arithmetic over any numFieldType with a conjugation automorphism."
  },
  {
   "property": "C27",
   "status": "proved",
   "theorems": [
    "C27_bounds_iff",
    "C27_off_means_zero",
    "C27_inactive_dispatches_nothing",
    "C27_whole_modules",
    "C27_branch_flow"
   ],
   "note": "linopy's constraint generation modelled as lists of linear constraints over Q."
  },
  {
   "property": "C28",
   "status": "proved",
   "theorems": [
    "C28_sound",
    "C28_complete",
    "C28_rolling_state",
    "C28_rolling_before",
    "C28_rolling_spurious_start_refuted",
    "C28_rolling_min_down_refuted"
   ],
   "note": "Completeness for units active throughout; in later windows a unit without minimum up time loses its state (proved counterexamples)."
  },
  {
   "property": "C29",
   "status": "proved",
   "theorems": [
    "C29_non_committable",
    "C29_unidirectional",
    "C29_committable",
    "C29_nothing_else",
    "C29_reversal_refuted",
    "C29_start_limit_refuted",
    "C29_start_limit_ones_refuted",
    "C29_series_refuted",
    "C29_cannot_stop_refuted",
    "C29_cannot_start_refuted"
   ],
   "note": "Under the side conditions stated; six counterexamples are proved."
  },
  {
   "property": "C30",
   "status": "proved",
   "theorems": [
    "C30_bus_balance",
    "C30_conservation",
    "C30_lossless",
    "C30_unserved_rejected",
    "C30_otherwise_built",
    "C30_unknown_bus_refuted"
   ],
   "note": "Components attached to unknown buses are the proved exception."
  },
  {
   "property": "C31",
   "status": "proved",
   "theorems": [
    "C31_one_source",
    "C31_balance",
    "C31_closed_form",
    "C31_cyclic",
    "C31_no_net_source",
    "C31_spill",
    "C31_initial_decayed_refuted",
    "C31_refilled_refuted"
   ],
   "note": "The factor (1-standing_loss)^hours is a parameter; initial level and default flags are proved counterexamples to the documentation."
  },
  {
   "property": "C32",
   "status": "proved",
   "theorems": [
    "C32_balance",
    "C32_closed_form",
    "C32_cyclic",
    "C32_no_net_source",
    "C32_initial_decayed_refuted",
    "C32_refilled_refuted",
    "C32_cycles_per_period_refuted"
   ],
   "note": "As for storage units."
  },
  {
   "property": "C33",
   "status": "proved",
   "theorems": [
    "C33_tangents",
    "C33_error",
    "C33_at_points",
    "C33_exact_feasible",
    "C33_rejected",
    "C33_excess_refuted"
   ],
   "note": "Over Q; includes the error bound of the approximation. Excess losses proved possible."
  },
  {
   "property": "C34",
   "status": "proved",
   "theorems": [
    "C34_rejected",
    "C34_windows",
    "C34_stores",
    "C34_storage_units",
    "C34_whole_horizon",
    "C34_standing_loss_refuted",
    "C34_initial_kept_refuted",
    "C34_negative_overlap_refuted"
   ],
   "note": "For non-negative overlap; the solver of a window is an arbitrary function meeting the storage balance. Three counterexamples proved."
  },
  {
   "property": "C35",
   "status": "proved",
   "theorems": [
    "C35_shape",
    "C35_near",
    "C35_at_most",
    "C35_rule",
    "C35_threshold_zero_refuted",
    "C35_rounds_up_refuted",
    "C35_monotone_refuted"
   ],
   "note": "Over Q (exact arithmetic); three counterexamples proved."
  },
  {
   "property": "C36",
   "status": "proved",
   "theorems": [
    "C36_scaling",
    "C36_restored",
    "C36_final_capacity",
    "C36_first_iteration_refuted",
    "C36_zero_capacity_refuted",
    "C36_min_iterations_refuted",
    "C36_fixed_lines_refuted"
   ],
   "note": "The optimisation and the convergence test are arbitrary functions; four counterexamples proved."
  },
  {
   "property": "C37",
   "status": "proved",
   "theorems": [
    "C37_snapshots",
    "C37_primary_energy",
    "C37_operational_limit",
    "C37_depletion",
    "C37_skipped",
    "C37_refill_refuted",
    "C37_earlier_refuted",
    "C37_inactive_refuted"
   ],
   "note": "The snapshot weighting (times years for multi-period networks) is a parameter; final levels are those of the last active snapshot; three counterexamples proved."
  },
  {
   "property": "C38",
   "status": "proved",
   "theorems": [
    "C38_objective",
    "C38_total",
    "C38_single",
    "C38_periods",
    "C38_defined",
    "C38_spill_refuted",
    "C38_start_up_weight_refuted",
    "C38_cancel_refuted"
   ],
   "note": "Capacity, dispatch, storage, spill, quadratic, stand-by, start-up and shut-down costs of all six classes; the fixed variable objective_constant is a hypothesis (its bounds); three counterexamples proved."
  },
  {
   "property": "C39",
   "status": "proved",
   "theorems": [
    "C39_branch",
    "C39_line",
    "C39_link",
    "C39_storage_unit",
    "C39_injection",
    "C39_rolling",
    "C39_rolling_losses_refuted",
    "C39_inactive_line_refuted",
    "C39_trafo_losses_refuted",
    "C39_inactive_load_refuted"
   ],
   "note": "Columns as partial functions of the snapshot (None is NaN); four counterexamples proved. Voltage angles and duals are not modelled."
  },
  {
   "property": "C40",
   "status": "proved",
   "theorems": [
    "C40_sum_to_one",
    "C40_nonnegative",
    "C40_length",
    "C40_proportional"
   ],
   "note": "Values are rationals or NaN; infinite values are not modelled."
  },
  {
   "property": "C41",
   "status": "proved",
   "theorems": [
    "C41_totals",
    "C41_one_each",
    "C41_averages",
    "C41_available",
    "C41_default_totals",
    "C41_default_available",
    "C41_extremes",
    "C41_mean",
    "C41_agreed",
    "C41_conflict",
    "C41_defined",
    "C41_lines",
    "C41_ratings",
    "C41_impedance",
    "C41_links",
    "C41_third_port_refuted",
    "C41_transformer_refuted",
    "C41_names_refuted",
    "C41_unmapped_refuted"
   ],
   "note": "Static columns with sum, capacity average, mean, min, max, constant and consense strategies; the four exceptions are proved as counterexamples."
  },
  {
   "property": "C42",
   "status": "proved",
   "theorems": [
    "C42_terminates",
    "C42_idempotent",
    "C42_component",
    "C42_attributes",
    "C42_mesh_kept",
    "C42_no_stub_left",
    "C42_trees_collapse"
   ],
   "note": "Including maximality and collapse of trees."
  },
  {
   "property": "C43",
   "status": "proved",
   "theorems": [
    "C43_value",
    "C43_difference",
    "C43_rounded",
    "C43_nonnegative",
    "C43_mean",
    "C43_sum_of_mean",
    "C43_conservation",
    "C43_weightings_refuted"
   ],
   "note": "Supply, withdrawal and balance as group sums of the dispatch tables (StatsModel), for every grouping key and port set; refutation for differing weightings."
  },
  {
   "property": "C44",
   "status": "proved",
   "theorems": [
    "C44_opex",
    "C44_objective",
    "C44_system_cost",
    "C44_link_refuted",
    "C44_weightings_refuted"
   ],
   "note": "Opex/capex over the tables written by assign_solution against the objective of C38. Refuted for links (costs omitted) and for differing weightings."
  },
  {
   "property": "C45",
   "status": "proved",
   "theorems": [
    "C45_dropped",
    "C45_kept",
    "C45_drop_false_refuted"
   ],
   "note": "drop_zero=True/None as stated; drop_zero=False refuted with a concrete series."
  },
  {
   "property": "C46",
   "status": "proved",
   "theorems": [
    "C46_lenient",
    "C46_reports",
    "C46_strict",
    "C46_error",
    "C46_invalid",
    "C46_unknown_buses",
    "C46_limits",
    "C46_carriers_refuted",
    "C46_bus_column_refuted",
    "C46_global_constraint_refuted",
    "C46_error_class_refuted"
   ],
   "note": "All 14 checks as written, for components visited in any order. Four counterexamples: misspelt carriers key, custom bus column, mixed global constraints, error class of investment periods."
  },
  {
   "property": "C47",
   "status": "proved",
   "theorems": [
    "C47_great_circle",
    "C47_range",
    "C47_symmetric",
    "C47_zero",
    "C47_triangle",
    "C47_turn",
    "C47_meridian",
    "C47_equator",
    "C47_matrix",
    "C47_box",
    "C47_box_exact"
   ],
   "note": "Over the reals (stdlib axioms only); floats not modelled. Distance shown equal to radius times the spherical angle, a metric on the sphere."
  },
  {
   "property": "C48",
   "status": "proved",
   "theorems": [
    "C48_copy_snapshots",
    "C48_copy_defined",
    "C48_unknown_snapshot_refused",
    "C48_plain_copy",
    "C48_with_time_refuted"
   ],
   "note": "The reversed with_time argument is proved as counterexample."
  },
  {
   "property": "C49",
   "status": "proved",
   "theorems": [
    "C49_set_periods",
    "C49_set_periods_again",
    "C49_not_increasing",
    "C49_raising_call_changes_nothing"
   ],
   "note": ""
  },
  {
   "property": "C50",
   "status": "proved",
   "theorems": [
    "C50_keeps_schedules",
    "C50_can_never_start_refuted",
    "C50_falling_availability_refuted"
   ],
   "note": "Under the stated proviso; its necessity is proved by two counterexamples."
  },
  {
   "property": "C51",
   "status": "proved",
   "theorems": [
    "C51_total",
    "C51_at_bus",
    "C51_enforced",
    "C51_raises",
    "C51_bus_column",
    "C51_column_other",
    "C51_column_defined",
    "C51_default_period_refuted",
    "C51_absent_bus_refuted",
    "C51_positional_refuted",
    "C51_bad_column_refuted",
    "C51_min_unmet_refuted"
   ],
   "note": "All classes, carriers, buses, periods and column names; equivalence with sums over assets. merge by position is a parameter; five refutations."
  },
  {
   "property": "C52",
   "status": "proved",
   "theorems": [
    "C52_growth",
    "C52_retired_refuted",
    "C52_positional_refuted"
   ],
   "note": "Equivalence for assets that outlast the period they are built in; refuted for one-period assets and positional merging."
  },
  {
   "property": "C53",
   "status": "proved",
   "theorems": [
    "C53_carriers",
    "C53_volume",
    "C53_cost",
    "C53_volume_enforced",
    "C53_cost_enforced",
    "C53_volume_skipped",
    "C53_unweighted_refuted"
   ],
   "note": "Parser of the carrier list, both limits, exact conditions for written/skipped/raised; one refutation."
  },
  {
   "property": "C54",
   "status": "proved",
   "theorems": [
    "C54_supply",
    "C54_windows"
   ],
   "note": "Equivalence with weighted sums for every generator active at some snapshot; bound over windows."
  },
  {
   "property": "C55",
   "status": "proved",
   "theorems": [
    "C55_residual",
    "C55_residual_distributed",
    "C55_jacobian",
    "C55_partials",
    "C55_newton_direction",
    "C55_negative_magnitude_refuted"
   ],
   "note": "Over the standard library's reals (axioms listed in DESIGN.md). The negative-magnitude case is refuted by witness."
  },
  {
   "property": "C56",
   "status": "proved",
   "theorems": [
    "C56_injections",
    "C56_injections_linear",
    "C56_inactive_link_refuted"
   ],
   "note": "nodal powers for all tables; defect: inactive links (refuted)"
  },
  {
   "property": "C57",
   "status": "proved",
   "theorems": [
    "C57_balanced",
    "C57_untouched",
    "C57_needs_generator",
    "C57_linear",
    "C57_single_bus",
    "C57_inactive_slack_refuted",
    "C57_sign_refuted",
    "C57_linear_no_generator_refuted",
    "C57_single_zero_refuted"
   ],
   "note": "from the controls found by find_bus_controls; solver result a parameter within tol; defects as _refuted"
  },
  {
   "property": "C58",
   "status": "proved",
   "theorems": [
    "C58_balanced",
    "C58_proportional",
    "C58_succeeds",
    "C58_single_bus_refuted",
    "C58_zero_p_nom_refuted",
    "C58_dict_refuted",
    "C58_some_generators_refuted",
    "C58_inactive_refuted",
    "C58_bus_without_generator_refuted",
    "C58_p_nom_opt_refuted"
   ],
   "note": "balance within tol, exact proportionality for exact solutions, success; six defects as _refuted"
  },
  {
   "property": "C59",
   "status": "proved",
   "theorems": [
    "C59_angles_drive_flows",
    "C59_angles_centred",
    "C59_pinv",
    "C59_slack_refuted"
   ],
   "note": "np.linalg.pinv by its four equations; branches of one sub-network"
  },
  {
   "property": "C60",
   "status": "proved",
   "theorems": [
    "C60_price",
    "C60_rolling",
    "C60_mu",
    "C60_global",
    "C60_default_nothing",
    "C60_default_refuted",
    "C60_storage_unit_refuted",
    "C60_stale_refuted",
    "C60_zero_weight_refuted"
   ],
   "note": "constraint arrays by name with one value per component and snapshot"
  },
  {
   "property": "C61",
   "status": "proved",
   "theorems": [
    "C61_multipliers",
    "C61_optimal",
    "C61_load",
    "C61_settlement",
    "C61_merit_order",
    "C61_earning",
    "C61_apart",
    "C61_emissions",
    "C61_no_loss",
    "C61_recovery",
    "C61_break_even"
   ],
   "note": "optimality conditions of the solver are a hypothesis (market/kkt); plants are generators and links"
  },
  {
   "property": "C62",
   "status": "proved",
   "theorems": [
    "C62_secure",
    "C62_exact",
    "C62_flows_exist",
    "C62_raises",
    "C62_selection",
    "C62_multiindex_refuted"
   ],
   "note": "Composed with C18 and C22: constraints of the model hold iff the flows after each selected non-bridge outage are within limits. The documented MultiIndex of outages is refuted (always ValueError); a switched-off branch in the sub-network makes the call fail. Outages of bridges (infinite factors), phase shifters and several investment periods are not covered."
  },
  {
   "property": "C63",
   "status": "proved",
   "theorems": [
    "C63_flows",
    "C63_defined",
    "C63_other_areas_refuted",
    "C63_default_refuted"
   ],
   "note": "Flows within the sub-network proved equal to the DC flow without the branch. Refuted: flows of other sub-networks become NaN; calls without snapshots or with an Index fail; a bus without passive branches makes it fail."
  },
  {
   "property": "C64",
   "status": "proved",
   "theorems": [
    "C64_budget",
    "C64_optimum_allowed",
    "C64_best",
    "C64_default",
    "C64_sense",
    "C64_defined",
    "C64_unsolved",
    "C64_compounds",
    "C64_second_run_refuted",
    "C64_links_refuted",
    "C64_weightings_refuted",
    "C64_negative_refuted",
    "C64_quadratic_refuted",
    "C64_series_refuted"
   ],
   "note": "Networks without investment periods, without links and with equal weightings (otherwise refuted); also refuted: negative costs, quadratic costs, Series or dict weights for dispatch, slack of repeated runs. Rounding by the statistics accessor is not modelled."
  },
  {
   "property": "C65",
   "status": "proved",
   "theorems": [
    "C65_line",
    "C65_transformer",
    "C65_shunt",
    "C65_line_types",
    "C65_transformer_types",
    "C65_effective_line",
    "C65_effective_transformer",
    "C65_carriers",
    "C65_twice",
    "C65_raises",
    "C65_rating_refuted",
    "C65_levels_refuted",
    "C65_name_plate_refuted"
   ],
   "note": "Exact arithmetic; refuted: rating of parallel transformers, lines between voltage levels, name plates without reactance. The line's own g is not scaled by num_parallel, so the parallel claim assumes g = 0."
  },
  {
   "property": "C66",
   "status": "proved",
   "theorems": [
    "C66_rows",
    "C66_cost_rows",
    "C66_again",
    "C66_same_operation",
    "C66_optimal",
    "C66_operational",
    "C66_builds",
    "C66_set_refuted",
    "C66_costs_refuted",
    "C66_losses_refuted",
    "C66_transformer_refuted",
    "C66_type_refuted"
   ],
   "note": "Dispatch bounds, ramp limits and the objective are modelled; all other constraints enter as conditions on operation or on capacities only. Extendable committable units are excluded. Refuted: losses (tangents move), transformers (impedance depends on s_nom), typed transformers (rating is reset), <nom>_set (KeyError), no operating costs (ValueError)."
  },
  {
   "property": "C67",
   "status": "proved",
   "theorems": [
    "C67_tables",
    "C67_set_points",
    "C67_linear",
    "C67_linear_losses",
    "C67_nonlinear",
    "C67_losses_refuted",
    "C67_shunt_refuted",
    "C67_flows"
   ],
   "note": "Composes the models of nodal balance (C30), assignment of results (C39), power flow tables (C57) and linear flows (C18). Refuted: shunt conductance, transmission losses. The generators of the sub-network are switched on and have sign 1."
  },
  {
   "property": "C68",
   "status": "proved",
   "theorems": [
    "C68_controls",
    "C68_power_flow",
    "C68_one_free_bus",
    "C68_defined",
    "C68_pq_bus_refuted",
    "C68_other_snapshots_refuted"
   ],
   "note": "Sub-networks and their slack generators are those found when the network topology was determined (C23). Refuted: that some bus is PQ afterwards, that set points of other snapshots survive."
  },
  {
   "property": "C69",
   "status": "proved",
   "theorems": [
    "C69_defined",
    "C69_completes",
    "C69_built",
    "C69_cost",
    "C69_optimum_stays",
    "C69_no_shedding",
    "C69_price_cap",
    "C69_taken",
    "C69_again",
    "C69_excess_refuted",
    "C69_carrier_refuted"
   ],
   "note": "add_load_shedding against the models of nodal balance, generator limits, objective and prices. Excess power is not absorbed (C69_excess_refuted); the new generators carry carrier 'load' although 'Load' is added (C69_carrier_refuted)."
  },
  {
   "property": "C70",
   "status": "proved",
   "theorems": [
    "C70_revenue",
    "C70_split",
    "C70_settlement",
    "C70_settlement_refuted",
    "C70_branch",
    "C70_market_value",
    "C70_quotient",
    "C70_range",
    "C70_storage_refuted",
    "C70_time",
    "C70_worthless_refuted"
   ],
   "note": "Exact identities without rounding; settlement, branch rents, price range; counterexamples for storage, zero revenue and unequal weightings."
  },
  {
   "property": "C71",
   "status": "proved",
   "theorems": [
    "C71_optimal",
    "C71_installed",
    "C71_storage",
    "C71_expanded",
    "C71_expanded_there",
    "C71_expanded_capex",
    "C71_curtailment",
    "C71_curtailment_only",
    "C71_available",
    "C71_nonnegative",
    "C71_series_refuted",
    "C71_factor",
    "C71_range",
    "C71_columns",
    "C71_ports_refuted"
   ],
   "note": "Sums exact without rounding; capacity factor range for every rounding; counterexamples for at_port=True and for assets without p_max_pu series."
  },
  {
   "property": "C72",
   "status": "proved",
   "theorems": [
    "C72_balance",
    "C72_store_refuted",
    "C72_port_refuted",
    "C72_split",
    "C72_directed",
    "C72_supply_refuted",
    "C72_capacity",
    "C72_capacity_dropped",
    "C72_capacity_refuted",
    "C72_capex",
    "C72_capex_dropped",
    "C72_capex_refuted",
    "C72_capex_extendable",
    "C72_opex",
    "C72_opex_only",
    "C72_operation",
    "C72_operation_stores",
    "C72_curtailment",
    "C72_curtailment_refuted",
    "C72_transmission",
    "C72_transmission_opposite",
    "C72_transmission_refuted",
    "C72_across"
   ],
   "note": "Proved for the energy balance of all classes but stores (each port connected), supply/withdrawal where nothing runs backwards, capacity and capex for classes with an extendable asset, curtailment, operation; opex as explicit sums. Refuted for stores (energy level used), ports a link does not have, supply of storage units, classes without extendable assets, capex of lines/transformers/stores, the sign of transmission, curtailment of links. linopy aligns by label (assumption)."
  },
  {
   "property": "C73",
   "status": "proved",
   "theorems": [
    "C73_multipliers",
    "C73_discharge",
    "C73_charge",
    "C73_store",
    "C73_prices",
    "C73_level",
    "C73_level_defined",
    "C73_arbitrage",
    "C73_no_arbitrage",
    "C73_both_ways",
    "C73_recovery",
    "C73_break_even",
    "C73_no_loss",
    "C73_initial"
   ],
   "note": "For storage units and stores, extendable or not, any investment periods (contiguous blocks), cyclic or not, standing losses, inflow and spilling, given series and further constraints. Existence of multipliers is the solver's; the recovery theorems assume no further constraint on the device and no given series."
  },
  {
   "property": "C74",
   "status": "proved",
   "theorems": [
    "C74_defined",
    "C74_seen",
    "C74_values",
    "C74_admittance",
    "C74_lines",
    "C74_transformers",
    "C74_charged",
    "C74_charging_refuted",
    "C74_rating_refuted",
    "C74_buses",
    "C74_generators",
    "C74_loads"
   ],
   "note": "Whole import modelled; equality of admittance matrices for any case meeting the stated conditions; the two conditions are necessary (refuted without)."
  },
  {
   "property": "C75",
   "status": "proved",
   "theorems": [
    "C75_defined",
    "C75_merged",
    "C75_placed",
    "C75_buses",
    "C75_loads",
    "C75_generators",
    "C75_lines",
    "C75_lines_extra",
    "C75_types",
    "C75_transformers",
    "C75_shunts",
    "C75_parallel_refuted",
    "C75_limit_refuted",
    "C75_plate_refuted",
    "C75_mixed_refuted",
    "C75_chain_refuted",
    "C75_held_refuted",
    "C75_shunt_refuted"
   ],
   "note": "Exact arithmetic over any closed field with norm; names of non-bus components left out. Seven deviations from pandapower's meaning are refuted with witnesses."
  },
  {
   "property": "C76",
   "status": "proved",
   "theorems": [
    "C76_relaxes",
    "C76_bound",
    "C76_built",
    "C76_cost_refuted",
    "C76_voltage_refuted",
    "C76_schedule_refuted",
    "C76_loss_refuted"
   ],
   "note": "Every feasible operation has a counterpart in the clustered network with equal production, transfers, generation costs (where merged generators cost the same) and no higher link costs; lower bounds carry over; the clustered problem is defined. Refuted: averaged marginal costs, single schedules, lossy inner links, voltage law."
  },
  {
   "property": "C77",
   "status": "proved",
   "theorems": [
    "C77_schedule",
    "C77_whole_horizon",
    "C77_ramps",
    "C77_min_up_zero_refuted",
    "C77_time_before_refuted"
   ],
   "note": "For units active throughout with min_up_time of at least one; solver as an oracle returning feasible solutions in which statuses are exactly 0 or 1. Min_up_time 0 and up_time_before refuted."
  },
  {
   "property": "C78",
   "status": "proved",
   "theorems": [
    "C78_selection",
    "C78_defined",
    "C78_value",
    "C78_across",
    "C78_total",
    "C78_refines",
    "C78_bus_carrier",
    "C78_carrier",
    "C78_nice",
    "C78_pattern_refuted",
    "C78_no_carrier_refuted",
    "C78_missing_refuted"
   ],
   "note": "quantity and pattern search are arbitrary functions; the carrier filter theorem needs the carrier to occur at every port counted (else the pattern fallback, refuted); only aggregate_groups=sum; registered groupers not modelled"
  },
  {
   "property": "C79",
   "status": "proved",
   "theorems": [
    "C79_feasible",
    "C79_cost",
    "C79_optimal",
    "C79_back",
    "C79_defined",
    "C79_ramps_refuted",
    "C79_bounds_refuted",
    "C79_volume_refuted",
    "C79_columns_refuted",
    "C79_levels_refuted",
    "C79_losses_refuted",
    "C79_spill_refuted"
   ],
   "note": "Whole single-period problem with and without deactivated components: same solutions up to capacities of deactivated extendable assets, same costs and optima, under stated conditions; seven refutations outside them."
  },
  {
   "property": "C80",
   "status": "proved",
   "theorems": [
    "C80_feasible",
    "C80_onto",
    "C80_cost",
    "C80_defined",
    "C80_optimal",
    "C80_cycles"
   ],
   "note": "Row by row: same labels, coefficients times the unit of the variable proportional to the original coefficients by the unit of the row. Kirchhoff's voltage law is an oracle; C80_cycles gives a condition on its rows (flows only, no constant) under which it is homogeneous."
  },
  {
   "property": "C81",
   "status": "proved",
   "theorems": [
    "C81_expansion_named",
    "C81_limits_named",
    "C81_both_named",
    "C81_updown_named",
    "C81_sums_named",
    "C81_strict",
    "C81_expansion",
    "C81_limits",
    "C81_limits_capacity",
    "C81_limits_status",
    "C81_sums",
    "C81_updown",
    "C81_quiet",
    "C81_line_refuted",
    "C81_unit_refuted",
    "C81_link_refuted",
    "C81_harmless"
   ],
   "note": "Over the whole problem of Whole. The nan and inf checks are left out (data are numbers). C81_quiet covers the rows on capacity and dispatch, not ramps, set points, modules or unit commitment. Refuted parts record contradictions the check does not report."
  },
  {
   "property": "C82",
   "status": "proved",
   "theorems": [
    "C82_feasible",
    "C82_cost",
    "C82_optimal",
    "C82_defined"
   ],
   "note": "Rows and terms of the whole problem shown equal up to order; Kirchhoff's voltage law a parameter that must not depend on the order."
  },
  {
   "property": "C83",
   "status": "proved",
   "theorems": [
    "C83_repeat",
    "C83_average",
    "C83_cost_repeat",
    "C83_cost_average",
    "C83_optimal",
    "C83_defined",
    "C83_storage_refuted",
    "C83_ramps_refuted"
   ],
   "note": "C83_repeat, C83_average: feasibility either way; C83_cost_repeat, C83_cost_average: cost (convex quadratic costs for the latter); C83_optimal, C83_defined; C83_storage_refuted and C83_ramps_refuted show that neither storage nor ramp limits can be admitted. The cycles of Kirchhoff's voltage law are a parameter that does not read time series (cycles_ok)."
  },
  {
   "property": "C84",
   "status": "proved",
   "theorems": [
    "C84_split",
    "C84_join",
    "C84_cost",
    "C84_optimal_join",
    "C84_optimal_split",
    "C84_defined",
    "C84_limits_refuted",
    "C84_ramps_refuted"
   ],
   "note": "Islands decouple: feasibility in both directions, costs, optimality in both directions and definedness for the whole problem of WholeModel; needs no global constraint and that dropping ramp limits by class treats the parts as the whole, both shown necessary by refuted theorems."
  },
  {
   "property": "C85",
   "status": "proved",
   "theorems": [
    "C85_feasible",
    "C85_cost",
    "C85_cost_linear",
    "C85_optimal",
    "C85_improve",
    "C85_units_refuted",
    "C85_modules_refuted"
   ],
   "note": "Convexity of the whole problem of WholeModel without integer variables: feasibility, costs, optimality, improvement by small steps; refuted with unit commitment and with modules."
  },
  {
   "property": "C86",
   "status": "proved",
   "theorems": [
    "C86_feasible",
    "C86_cost",
    "C86_optimum",
    "C86_still_optimal",
    "C86_losses_refuted",
    "C86_ramps_refuted",
    "C86_must_run_refuted"
   ],
   "note": "Monotonicity of the whole problem of WholeModel in its limits (looser); refuted where limits also enter as data: losses, ramp limits of one, minimum output."
  },
  {
   "property": "C87",
   "status": "proved",
   "theorems": [
    "C87_again",
    "C87_onto_former",
    "C87_registered",
    "C87_round_trip",
    "C87_csv_removed_refuted",
    "C87_csv_unreadable_refuted",
    "C87_csv_subfolder_refuted",
    "C87_own_series_refuted",
    "C87_no_bus_refuted"
   ],
   "note": "C87_again (any earlier content that fits), C87_onto_former (an earlier export of a network that has grown), C87_registered (Excel and HDF5, any two networks without series of the user's own), C87_round_trip (every value, on top of C13). Refuted parts with witnesses: removed components come back from a CSV folder, the folder becomes unreadable with fewer snapshots, a user's file in a sub-folder is deleted before the export raises TypeError, series of own attributes stay, a network without buses loses its other components on reading. Reading a file is taken to return what was written; netCDF is in C88."
  },
  {
   "property": "C88",
   "status": "proved",
   "theorems": [
    "C88_as_csv",
    "C88_round_trip",
    "C88_t_column_refuted",
    "C88_prefix_refuted"
   ],
   "note": "C88_as_csv: a netCDF dataset is read like a CSV folder of the same network (class by class: same rows, same series), for any visiting order. C88_round_trip: hence the values of C13 come back. NetcdfProps.prefix_free_names: the list names in components.csv meet the hypothesis. Refuted without the hypotheses: C88_t_column_refuted (own column t_amb makes the file unreadable, a defect), C88_prefix_refuted (a list name continuing another one). xarray's alignment of a Series to the coordinate is modelled by name; compression, float32, and a column named i (overwrites the coordinate) are not modelled."
  },
  {
   "property": "C89",
   "status": "proved",
   "theorems": [
    "C89_apart",
    "C89_independent",
    "C89_older_links",
    "C89_later_refuted",
    "C89_earlier_refuted",
    "C89_first_port_refuted"
   ],
   "note": "Simulation between the process and the process with only the calls of one network. C89_apart for all programs, equality on what the package knows at import; C89_independent is exact equality with the single-network model of C05 when no new port is brought; three refuted theorems record what leaks and the missing efficiency2 of the first link with a new port."
  },
  {
   "property": "C90",
   "status": "proved",
   "theorems": [
    "C90_feasible",
    "C90_cost",
    "C90_optimal",
    "C90_onto",
    "C90_defined",
    "C90_empty_name_refuted"
   ],
   "note": "On the whole problem of C79 to C86 (single period, deterministic). Hypothesis on Kirchhoff's voltage law: its rows have the same solutions under the new names (met by any rows built from the branches' own labels, see C90_ex; the choice of cycle basis may depend on names, its solutions do not, C18). Carriers keep their names. C90_empty_name_refuted: the hypothesis on the empty name is needed."
  },
  {
   "property": "C91",
   "status": "proved",
   "theorems": [
    "C91_feasible",
    "C91_cost",
    "C91_optimal",
    "C91_onto",
    "C91_defined",
    "C91_kirchhoff",
    "C91_optimal_kirchhoff",
    "C91_links_refuted"
   ],
   "note": "Theorem for every network, every choice of turned branches and every solution of the assembled problem (WholeModel), first for any voltage rows that follow the turned branches, then for the rows the code builds from cycles (KirchhoffModel over CyclesModel) for any cycle basis that ignores directions. Links are refuted with a concrete pair of networks."
  },
  {
   "property": "C92",
   "status": "proved",
   "theorems": [
    "C92_join",
    "C92_share",
    "C92_cost",
    "C92_optimal",
    "C92_defined",
    "C92_kirchhoff",
    "C92_only",
    "C92_quadratic_refuted",
    "C92_committable_refuted"
   ],
   "note": "All rows, domains and costs of the whole problem under splitting of one generator, in both directions; several parts by repetition. Voltage law first for any rows that read branch flows only, then for the rows of the code. Refuted for quadratic costs and for committable generators (both intended, recorded as limits of the property)."
  },
  {
   "property": "C93",
   "status": "proved",
   "theorems": [
    "C93_total",
    "C93_slack",
    "C93_column",
    "C93_entries",
    "C93_serves",
    "C93_with_cycles",
    "C93_radial",
    "C93_parallel_refuted"
   ],
   "note": "find_tree over branch positions; nx.minimum_spanning_tree and nx.shortest_path are parameters with simple paths inside the tree as hypothesis. The claim that T uses only branches of sub_network.tree is refuted for parallel branches."
  },
  {
   "property": "C94",
   "status": "proved",
   "theorems": [
    "C94_quiet",
    "C94_raises",
    "C94_loses",
    "C94_flow",
    "C94_admittance",
    "C94_limit",
    "C94_relaxed",
    "C94_cost",
    "C94_admittance_refuted",
    "C94_limit_refuted",
    "C94_cost_refuted"
   ],
   "note": "The documented replacement is refuted for every sub-network with parallel branches (C94_raises, C94_loses); C94_flow/_admittance/_limit/_relaxed/_cost are about the values worked out before the exception, with refutations of the unconditional versions."
  },
  {
   "property": "C95",
   "status": "proved",
   "theorems": [
    "C95_same",
    "C95_defined",
    "C95_order",
    "C95_inactive",
    "C95_merged",
    "C95_mixed",
    "C95_convex",
    "C95_mixture",
    "C95_units_refuted"
   ],
   "note": "Over WholeModel (C79); C95_same/_defined with C95_order/_inactive/_merged as cases, C95_mixed and C95_convex with C95_mixture; refuted with committable units (C95_units_refuted)."
  },
  {
   "property": "C96",
   "status": "proved",
   "theorems": [
    "C96_rises",
    "C96_own"
   ],
   "note": "C96_rises from C61_load in both directions; the optimality conditions of the solver are a hypothesis (kkt), as in C61; integer variables have no multipliers."
  },
  {
   "property": "C97",
   "status": "proved",
   "theorems": [
    "C97_feasible",
    "C97_cost",
    "C97_less",
    "C97_bounds",
    "C97_single",
    "C97_concave",
    "C97_rise"
   ],
   "note": "marginal costs do not enter the constraints; the two optimality conditions applied to each other's solution; an asset named once for the single-asset form; start-up and shut-down costs not negative (negative ones are left out of the objective, C38)"
  }
 ]
}