{"id": "C01", "title": "Options: last write wins, reset restores defaults", "statement": "After any sequence of set_option / attribute assignment / reset_all calls on pypsa.options, get_option(name) returns the value of the last successful write to exactly that name since the last reset, or the registered default if there was none; writing one option never changes another; a write to an unknown name, or to a category name, or a nested assignment that would replace an option by a category, raises and leaves every option unchanged.", "quantifier": "for every option tree, every sequence of set/reset calls (valid and invalid names mixed), and every option name", "why_tests_cant": "the claim is about all interleavings of writes, failing writes and resets over arbitrarily nested names; a test fixes one history", "anchors": ["pypsa/_options.py: OptionsNode.set_option, get_option, reset_all, __setattr__, __getattr__, _add_option"]}
{"id": "C02", "title": "option_context restores all options on every exit path", "statement": "with pypsa.option_context(n1,v1,...): body — when the option names are pairwise distinct, then after leaving the block every option it named has the value it had on entry, whether the body returns, raises, or entering fails half way because a later name is invalid; options not named in the call keep whatever the body gave them. If the same name is passed twice the original value is not restored (a counterexample exists).", "quantifier": "for all option states, all argument lists, all bodies (arbitrary state transformers that return or raise)", "why_tests_cant": "quantifies over arbitrary bodies and over the point at which entering fails; duplicates in the argument list are a corner tests do not reach", "anchors": ["pypsa/_options.py: option_context"]}
{"id": "C03", "title": "Deprecated keyword renaming never loses or overrides a value silently", "statement": "For a function decorated with deprecated_kwargs, every call either raises (exactly when some deprecated keyword and its replacement are both given, or two deprecated keywords map to the same replacement) or reaches the wrapped function with a keyword set in which each deprecated name is replaced by its new name with the same value and every other keyword is untouched; no keyword is lost or duplicated. An alias whose deprecation version is newer than the running package makes every call raise a version error.", "quantifier": "for all alias tables and all keyword dictionaries", "why_tests_cant": "all combinations of old and new names cannot be enumerated", "anchors": ["pypsa/common.py: rename_deprecated_kwargs, deprecated_kwargs"]}
{"id": "C04", "title": "Component tables stay consistent over any add/remove history", "statement": "Starting from an empty network, after any sequence of n.add / n.remove / set_snapshots calls (including calls that raise, except set_snapshots with an empty index, for which a counterexample exists), for every component type the static index has no duplicate names, every time-dependent table has exactly the network's snapshots as rows, every column of every time-dependent table is the name of an existing component, and removing a component removes all its time-dependent columns.", "quantifier": "for every finite history of add/remove/set_snapshots operations with arbitrary arguments", "why_tests_cant": "invariant over unbounded histories including failing operations", "anchors": ["pypsa/networks.py: Network.add, Network.remove, Network.set_snapshots", "pypsa/io.py: _import_components_from_df, _import_series_from_df"]}
{"id": "C05", "title": "add then remove is the identity on all other components", "statement": "n.add(c, names) with fresh names followed by n.remove(c, names) leaves static data and time series of every other component exactly as before; adding a name that already exists without overwrite leaves the existing component's static values unchanged.", "quantifier": "for every network state satisfying the table invariant, component type, fresh name list and attribute assignment", "why_tests_cant": "holds for all table contents and all name lists", "anchors": ["pypsa/networks.py: Network.add, Network.remove", "pypsa/io.py: _import_components_from_df"]}
{"id": "C06", "title": "set_snapshots keeps data at retained snapshots and fills defaults elsewhere", "statement": "After n.set_snapshots(S) succeeds, n.snapshots is S, every time-dependent table and the snapshot weightings are indexed exactly by S; the value at a snapshot that existed before is unchanged and at a new snapshot it is the attribute's default (weightings: the given default weighting). An empty S is rejected with ValueError.", "quantifier": "for all networks, all old and new snapshot lists", "why_tests_cant": "all overlaps between old and new snapshots cannot be enumerated", "anchors": ["pypsa/networks.py: Network.set_snapshots"]}
{"id": "C07", "title": "Dense view: a time series overrides the static value, otherwise the static value is used at every snapshot", "statement": "n.get_switchable_as_dense(c, attr, snapshots, inds) returns a table with exactly the requested snapshots and components, where the entry for component i at snapshot t is the value of its time series at t if a time-series column exists for i, and its static value otherwise.", "quantifier": "for all component tables, attributes, snapshot selections and component selections", "why_tests_cant": "all mixtures of static and time-dependent data", "anchors": ["pypsa/descriptors.py: get_switchable_as_dense"]}
{"id": "C08", "title": "Active assets per investment period", "statement": "get_active_assets(period) marks an asset active exactly if its active flag is set and build_year <= period < build_year + lifetime; for a list of periods exactly if this holds for at least one of them; without period exactly its active flag; an unknown period raises ValueError. The per-snapshot activity mask at a snapshot of period p agrees with this for p.", "quantifier": "for all build years, lifetimes, flags, period lists", "why_tests_cant": "boundary cases over all integers/reals", "anchors": ["pypsa/components/descriptors.py: get_active_assets", "pypsa/descriptors.py: get_activity_mask"]}
{"id": "C09", "title": "Slicing a network keeps referential integrity", "statement": "n[buses] (and n[snapshots, buses]) contains exactly the selected buses, exactly the one-port components whose bus is selected, exactly the two-terminal branches both of whose ends are selected, with their static data and time series unchanged on the selected snapshots; hence every bus/bus0/bus1 of the slice refers to a bus of the slice. For links with additional ports (bus2, ...) the guarantee does not extend to those ports (a counterexample exists).", "quantifier": "for all networks and all bus selections", "why_tests_cant": "all bus selections and incidence structures", "anchors": ["pypsa/networks.py: Network.__getitem__"]}
{"id": "C10", "title": "rename_component_names renames consistently", "statement": "Renaming buses with an injective mapping onto fresh names renames the static index, all time-dependent columns and every bus/bus0/bus1/... reference in all components simultaneously, so that each component is attached to the same (renamed) bus and all values are unchanged; in particular mappings that swap two names work. A mapping onto an existing name is accepted and leaves duplicate names, and renaming any other component type raises KeyError after its own table has been renamed (counterexamples exist).", "quantifier": "for all networks and all injective rename mappings", "why_tests_cant": "simultaneous substitution must be right for chains and swaps of any length", "anchors": ["pypsa/components/abstract.py: Components.rename_component_names"]}
{"id": "C11", "title": "Network equality", "statement": "n.equals(n) is True, and equals is True for any two nested values with the same contents at every path; when it returns True, everything recorded in n's attributes at any path is found in m at the same path, up to a short list of confusions (True against 1, list against tuple, two empty tables, an empty dict against an empty list). It is not symmetric: attributes present only in m are ignored, and the reverse comparison raises KeyError (counterexamples exist).", "quantifier": "for all pairs of networks (as nested attribute dictionaries)", "why_tests_cant": "all pairs of networks", "anchors": ["pypsa/networks.py: Network.equals", "pypsa/common.py: equals"]}
{"id": "C12", "title": "merge combines disjoint networks losslessly or fails without change", "statement": "n.merge(other) raises if any component name occurs in both or (with time) if snapshots or weightings differ; otherwise the result's components are exactly the union with each component's data unchanged. A custom time series that both networks carry is the exception: other's values are lost (a counterexample exists).", "quantifier": "for all pairs of networks", "why_tests_cant": "all pairs of component tables", "anchors": ["pypsa/io.py: merge"]}
{"id": "C13", "title": "Export/import round trip", "statement": "Exporting a network's component table and importing it again yields, for every component and attribute, the same static value and (at every snapshot) the same effective value get_switchable_as_dense reports, although default-valued columns are skipped on export — provided no time-dependent column that is entirely equal to the attribute default overrides a non-default static value (without that proviso a counterexample exists).", "quantifier": "for all component tables and defaults", "why_tests_cant": "all combinations of default/non-default static and dynamic values", "anchors": ["pypsa/io.py: _export_to_exporter, _import_from_importer, _import_components_from_df, _import_series_from_df"]}
{"id": "C14", "title": "Component type registry", "statement": "After add_component_type(name, list_name, ...) succeeds, get(list_name) returns that type and all other registered types are still retrievable; registering two types with different list_names keeps both. Uniqueness of `name`, documented as required, is not enforced, and a registration under an existing list_name silently replaces it (counterexamples exist).", "quantifier": "for all registration histories", "why_tests_cant": "all registration histories", "anchors": ["pypsa/components/types.py: add_component_type, get"]}
{"id": "C15", "title": "Sub-networks are exactly the connected components of active passive branches", "statement": "After determine_network_topology, two buses are assigned the same sub-network iff they are connected by a path of usable lines/transformers, every bus gets exactly one sub-network, every branch is recorded with the sub-network of its bus0 (which is also that of bus1 for usable branches), the order of the branch classes does not matter and links never join sub-networks - provided each branch class that has branches at all has a usable one; otherwise the class visited last can split every sub-network (a defect, with counterexample).", "quantifier": "for all finite bus sets and branch multigraphs with arbitrary active flags", "why_tests_cant": "all graphs", "anchors": ["pypsa/networks.py: Network.determine_network_topology", "pypsa/graph.py: adjacency_matrix"]}
{"id": "C16", "title": "Incidence matrix", "statement": "incidence_matrix(busorder) has for every branch exactly +1 at bus0 and -1 at bus1 (0 everywhere if the ends coincide) and zero elsewhere; hence all columns sum to zero, and K applied to a vector of branch flows is the net outflow at each bus.", "quantifier": "for all bus orders and branch lists", "why_tests_cant": "all graphs", "anchors": ["pypsa/graph.py: incidence_matrix"]}
{"id": "C17", "title": "Cycle matrix columns are circulations", "statement": "Every column of the cycle matrix computed by find_cycles is a circulation: the incidence matrix times the column is zero, with entries in {-1,0,1}, including cycles formed by parallel branches.", "quantifier": "for all multigraphs and every list of cycles consisting of closed walks over existing branches", "why_tests_cant": "all graphs", "anchors": ["pypsa/pf.py: find_cycles"]}
{"id": "C18", "title": "Kirchhoff voltage constraints characterise linear power flow", "statement": "Flows satisfying the voltage constraints of the optimisation (built from find_cycles) are exactly those obtainable from bus angles, x_l f_l = theta_bus0 - theta_bus1; together with nodal balance they are the flows of the linear power flow. This fails (counterexamples) when a branch is switched off without investment periods, because it stays in the cycles while its variable is dropped, and for phase-shifting transformers, whose shift the constraints ignore.", "quantifier": "for all networks with non-zero reactances and every basis of the cycle space", "why_tests_cant": "all graphs and all real flow vectors", "anchors": ["pypsa/optimization/constraints.py: define_kirchhoff_voltage_constraints", "pypsa/pf.py: find_cycles"]}
{"id": "C19", "title": "Linear power flow satisfies nodal balance and Ohm's law", "statement": "After n.lpf, in every sub-network whose buses are connected by branches with positive susceptance, the branch flows equal susceptance times angle difference (plus phase-shift offset), the net outflow at every bus equals the reported nodal injection, injections at non-slack buses equal the given ones, slack angle is zero, total injection is zero and both branch ends report opposite power.", "quantifier": "for all sub-networks, susceptances, phase shifts and injections", "why_tests_cant": "holds for all linear systems", "anchors": ["pypsa/pf.py: sub_network_lpf, calculate_B_H"]}
{"id": "C20", "title": "The linear power flow system is always solvable on connected sub-networks", "statement": "With positive reactances the slack-reduced weighted Laplacian is invertible exactly when the sub-network is connected, so lpf and PTDF are well defined, and angles are unique; with negative reactances it can be singular.", "quantifier": "for all connected weighted graphs and every choice of slack", "why_tests_cant": "all graphs", "anchors": ["pypsa/pf.py: calculate_B_H, calculate_PTDF, sub_network_lpf"]}
{"id": "C21", "title": "PTDF reproduces the linear power flow", "statement": "PTDF times the nodal injections equals the branch flows of lpf for every injection vector (slack balancing), the slack column is zero, and for balanced injections the result does not depend on the chosen slack bus.", "quantifier": "for all networks and injections", "why_tests_cant": "all linear systems", "anchors": ["pypsa/pf.py: calculate_PTDF"]}
{"id": "C22", "title": "BODF predicts post-outage flows exactly", "statement": "For every outage of a non-bridge branch l, f_k + BODF_kl f_l equals the flow on k computed by linear power flow on the network without l, and the predicted flow on l itself is zero.", "quantifier": "for all networks, injections and single outages with PTDF_ll != 1", "why_tests_cant": "all linear systems", "anchors": ["pypsa/contingency.py: calculate_BODF, network_lpf_contingency"]}
{"id": "C23", "title": "Slack and bus control selection", "statement": "find_slack_bus designates exactly one slack generator per sub-network with generators (the first declared Slack; otherwise the first generator), demotes all other Slack generators to PV, and find_bus_controls then classifies buses so that the slack bus is Slack, buses with at least one PV generator are PV and all other buses are PQ, the three classes partitioning the buses.", "quantifier": "for all generator tables", "why_tests_cant": "all control configurations", "anchors": ["pypsa/pf.py: find_slack_bus, find_bus_controls"]}
{"id": "C24", "title": "Newton-Raphson reports convergence truthfully", "statement": "newton_raphson_sparse returns converged=True only if the residual norm of the returned point is at most the tolerance, never performs more than the iteration limit, returns after zero iterations if the guess already satisfies the tolerance, and otherwise reports False.", "quantifier": "for all residual functions, Jacobians, guesses, tolerances and iteration limits", "why_tests_cant": "arbitrary functions", "anchors": ["pypsa/pf.py: newton_raphson_sparse"]}
{"id": "C25", "title": "T-model to pi-model conversion preserves terminal behaviour", "statement": "wye_to_delta returns branch impedances such that, for all terminal voltages, the terminal currents of the delta network equal those of the wye network with its inner node eliminated; hence apply_transformer_t_model does not change the two-port seen from the buses.", "quantifier": "for all non-degenerate complex impedances and voltages", "why_tests_cant": "algebraic identity over all numbers", "anchors": ["pypsa/pf.py: wye_to_delta, apply_transformer_t_model"]}
{"id": "C26", "title": "Admittance matrix reproduces branch currents", "statement": "With Y from calculate_Y, Y V is at every bus the sum of currents entering the attached branches and shunts, and Y0 V / Y1 V are the branch end currents of the two-port with tap ratio on either side and phase shift; without phase shifters Y is symmetric.", "quantifier": "for all branch parameters and voltages", "why_tests_cant": "algebraic identity", "anchors": ["pypsa/pf.py: calculate_Y"]}
{"id": "C27", "title": "Dispatch respects capacity and availability", "statement": "Any solution of the operational constraints keeps each dispatch variable between min_pu*nominal and max_pu*nominal for fixed, extendable (using the chosen capacity) and committable (scaled by status: zero when off) components, and inactive components dispatch nothing.", "quantifier": "for all feasible points, all parameters", "why_tests_cant": "all feasible points of the linear program", "anchors": ["pypsa/optimization/constraints.py: define_operational_constraints_for_non_extendables, define_operational_constraints_for_extendables, define_operational_constraints_for_committables"]}
{"id": "C28", "title": "Unit commitment: transitions and minimum up/down times", "statement": "In every feasible solution start_up is 1 exactly when a unit switches from off to on and shut_down exactly when it switches on to off (at optimum-relevant bounds: at least then), and once started a unit stays on for min_up_time snapshots (or to the horizon), once shut down it stays off for min_down_time snapshots; units that must stay up/down from before the horizon do so.", "quantifier": "for all binary status sequences, horizons and min up/down times", "why_tests_cant": "all schedules", "anchors": ["pypsa/optimization/constraints.py: define_operational_constraints_for_committables"]}
{"id": "C29", "title": "Ramp limits", "statement": "In every feasible solution consecutive dispatch of a non-committable unit changes by at most ramp_limit times nominal capacity; for committable units the start-up and shut-down limits apply at transitions. Exceptions, each shown by a counterexample: limits of 1 throughout are dropped (a reversible link may swing by twice its capacity), start-up limits without a ramp limit or with limits of 1 and time-dependent limits of committable units have no effect, and a unit may be unable to stop or start although its limits allow it.", "quantifier": "for all dispatch sequences and limits", "why_tests_cant": "all sequences", "anchors": ["pypsa/optimization/constraints.py: define_ramp_limit_constraints"]}
{"id": "C30", "title": "Nodal balance implies system-wide energy conservation", "statement": "If the nodal balance constraints hold at all buses and a snapshot, total injection of one-port components equals load plus link conversion losses plus branch losses; in a lossless network generation equals load.", "quantifier": "for all networks and feasible points", "why_tests_cant": "all networks", "anchors": ["pypsa/optimization/constraints.py: define_nodal_balance_constraints"]}
{"id": "C31", "title": "Storage unit energy balance", "statement": "In every feasible solution the final state of charge equals the decayed initial one plus the decayed sum of inflow and charging (times store efficiency) minus dispatch (over dispatch efficiency) minus spillage; with cyclic_state_of_charge the first snapshot continues from the last one of the horizon (or period), and without losses total charge equals total discharge. Exceptions, shown by counterexamples: the standing loss of the first snapshot is not applied to the initial level, and with the default per-period flags a non-cyclic unit is refilled to its initial level at every investment period.", "quantifier": "for all horizons, efficiencies and feasible points", "why_tests_cant": "unbounded horizon", "anchors": ["pypsa/optimization/constraints.py: define_storage_unit_constraints"]}
{"id": "C32", "title": "Store energy balance", "statement": "In every feasible solution e_t = (1-standing_loss)^w e_{t-1} - w p_t, with initial or cyclic boundary per horizon or investment period; a cyclic lossless store has zero net energy over the cycle and is never a net source when standing losses are non-negative. The exceptions listed for storage units apply here too.", "quantifier": "for all horizons and feasible points", "why_tests_cant": "unbounded horizon", "anchors": ["pypsa/optimization/constraints.py: define_store_constraints"]}
{"id": "C33", "title": "Loss tangents", "statement": "With transmission losses, every feasible (flow, loss) pair has loss between the tangent envelope of r*p^2 and its maximum; each tangent lies below the quadratic loss curve, touches it at its support point, so with n tangents the modelled loss misses the quadratic one by at most the quadratic loss of a flow of 1/(2n) of the largest one, and the exact quadratic loss is always feasible (larger losses are feasible as well: counterexample). Infinite capacity limits are rejected.", "quantifier": "for all resistances, capacities, numbers of tangents and flows", "why_tests_cant": "continuum of flows", "anchors": ["pypsa/optimization/constraints.py: define_loss_constraints"]}
{"id": "C34", "title": "Rolling horizon covers all snapshots and hands over storage states", "statement": "optimize_with_rolling_horizon with horizon > overlap visits windows whose union is all snapshots, consecutive windows overlap in exactly `overlap` snapshots (except at the end), each window is non-empty and at most `horizon` long, and each window after the first starts from the stored state at the snapshot immediately preceding it; horizon <= overlap is rejected. For non-cyclic stores and storage units the stored levels of all windows together form one trajectory. Exceptions, shown by counterexamples: standing losses are skipped at the start of each window, the initial levels of the network are left changed, and a negative overlap silently skips snapshots.", "quantifier": "for all numbers of snapshots, horizons and overlaps", "why_tests_cant": "all integers", "anchors": ["pypsa/optimization/abstract.py: optimize_with_rolling_horizon"]}
{"id": "C35", "title": "Discretised capacity", "statement": "For a positive unit size, discretized_capacity returns a non-negative multiple of the unit size or nom_max, within one unit of the optimum and, for positive thresholds, never more than nom_max; where nom_max is infinite, a multiple of the unit or a whole unit away, it rounds up exactly when the remainder reaches the threshold. Elsewhere (counterexamples) it refuses the next multiple though it fits, and more optimal capacity can give less discretised capacity; threshold 0 exceeds nom_max.", "quantifier": "for all optima, limits, unit sizes and thresholds", "why_tests_cant": "continuum of values", "anchors": ["pypsa/optimization/abstract.py: discretized_capacity"]}
{"id": "C36", "title": "Iterative transmission expansion keeps impedance times capacity constant", "statement": "Over any number of update steps of optimize_transmission_expansion_iteratively that start from a positive previous s_nom_opt and see positive capacities, x*s_nom_opt of untyped AC lines and r*s_nom_opt of untyped DC lines are invariant, typed lines get num_parallel = s_nom_opt/base capacity, everything else is unchanged, s_nom and s_nom_extendable of extendable lines are restored and the number of iterations never exceeds max_iterations. Counterexamples: an ordinary first run (s_nom_opt = 0) sets x to 0, a zero capacity in between makes x NaN, min_iterations=3 allows two iterations, discretising permanently changes s_nom of non-extendable lines.", "quantifier": "for all capacity histories of any length", "why_tests_cant": "unbounded iteration", "anchors": ["pypsa/optimization/abstract.py: optimize_transmission_expansion_iteratively"]}
{"id": "C37", "title": "Primary energy / CO2 limit bounds true emissions", "statement": "The primary-energy (and operational-limit) global constraint holds exactly when the weighted emissions of all generators at the snapshots it is about plus the carrier-weighted depletion (initial minus final level) of non-cyclic storage units and stores stand in the given relation to the constant; within one horizon and without standing losses the depletion is the energy delivered. Three cases fall outside (counterexamples exist): stores with default flags are refilled every investment period but counted once, a limit for a single period counts earlier depletion, and an inactive store counts as fully released.", "quantifier": "for all dispatch sequences, weightings and efficiencies", "why_tests_cant": "all feasible points", "anchors": ["pypsa/optimization/global_constraints.py: define_primary_energy_limit"]}
{"id": "C38", "title": "Objective accounting", "statement": "The optimised objective plus its constant equals weighted operating cost plus investment cost of active extendable capacity; costs of existing capacity only enter via the constant, so n.objective + n.objective_constant is total system cost; with several investment periods it is the sum over periods of the period weighting times the costs of the assets active and the snapshots in it. Three exceptions (counterexamples exist): start-up and shut-down costs are not weighted with the period, are left out when they sum up to zero over a class, and a spill cost without any inflow makes building the objective fail.", "quantifier": "for all cost parameters and feasible points", "why_tests_cant": "all feasible points", "anchors": ["pypsa/optimization/optimize.py: define_objective"]}
{"id": "C39", "title": "Solution assignment conserves power in branches", "statement": "After assign_solution, each passive branch reports p1 = -p0 and each link reports p_i = -efficiency_i * p0 at every port i that has a bus (0 at empty ports); storage units report p = p_dispatch - p_store. For every solution of the nodal balances the injection reported for a bus equals the reported branch flows leaving it; with transmission losses p0 + p1 of a line is its loss; later windows of a rolling horizon keep earlier flows. Four exceptions (counterexamples exist): with losses, the flows of all but the last window of a rolling horizon and of inactive lines become NaN, losses of transformers are not reported, and inactive loads count in the reported injection.", "quantifier": "for all solutions", "why_tests_cant": "all solutions", "anchors": ["pypsa/optimization/optimize.py: assign_solution, set_from_frame"]}
{"id": "C40", "title": "Clustering weights", "statement": "normed_or_uniform returns one weight per value, summing to one for every non-empty input (also all-zero, negative-sum or NaN inputs), non-negative if the values are, and proportional to the values if their sum is positive.", "quantifier": "for all weight vectors, including NaN entries", "why_tests_cant": "all vectors including all-zero", "anchors": ["pypsa/clustering/spatial.py: normed_or_uniform"]}
{"id": "C41", "title": "Clustering preserves totals and drops only intra-cluster branches", "statement": "Aggregating one-port components by busmap and carrier preserves the total of every summed attribute (p_nom, p_nom_max, p_set, ...) per cluster and carrier, capacity-weighted averages lie within the range of the aggregated values and preserve available power; exactly one line is left between two clusters joined by lines, with the total s_nom and the parallel impedance, regardless of orientation; links are kept exactly if their ends lie in different clusters. Counterexamples: a third link port keeps a bus that no longer exists, transformers between clusters vanish, aggregated names can clash, components at unmapped buses vanish silently.", "quantifier": "for all busmaps, strategies and component tables", "why_tests_cant": "all busmaps", "anchors": ["pypsa/clustering/spatial.py: aggregateoneport, aggregatelines, get_clustering_from_busmap"]}
{"id": "C42", "title": "Stub reduction", "statement": "busmap_by_stubs terminates for every graph, is idempotent, maps every bus to one of the same connected component agreeing in the matching attributes, leaves meshed buses alone, leaves no reducible stub, and collapses each tree to a single bus.", "quantifier": "for all graphs and attribute tables", "why_tests_cant": "all graphs, repeated merging", "anchors": ["pypsa/clustering/spatial.py: busmap_by_stubs"]}
{"id": "C43", "title": "Statistics: supply minus withdrawal is the energy balance", "statement": "For every component and port, supply - withdrawal = energy balance, both are non-negative, supply is the balance where positive, for time aggregation by sum or weighted mean (weights normalised to one); the mean lies within the range of the values. With equal weightings the energy balance of a bus whose nodal balance holds sums to zero; with different generators/stores/objective weightings it need not (a counterexample exists).", "quantifier": "for all dispatch tables and weights", "why_tests_cant": "all tables", "anchors": ["pypsa/statistics/expressions.py: StatisticsAccessor.energy_balance, supply, withdrawal", "pypsa/statistics/abstract.py: _aggregate_timeseries"]}
{"id": "C44", "title": "Statistics: opex equals the operating-cost part of the objective", "statement": "statistics.opex summed over components equals the operating part of the optimisation objective for the same dispatch when the three snapshot weightings agree and there are no links; then capex + opex = objective + objective constant + capital cost of the non-extendable assets. It fails for links, whose costs are left out silently (there is no links_t.p table), and when the generators weighting differs from the objective weighting (counterexamples exist).", "quantifier": "for all dispatch tables, costs and weightings", "why_tests_cant": "all tables", "anchors": ["pypsa/statistics/expressions.py: StatisticsAccessor.opex", "pypsa/optimization/optimize.py: define_objective"]}
{"id": "C45", "title": "Statistics: drop_zero option", "statement": "With drop_zero=True no zero entry is returned and all non-zero entries are; with drop_zero=False all entries should be returned — this fails: zeros are dropped whenever drop_zero is not None (a counterexample exists).", "quantifier": "for all result series", "why_tests_cant": "all series", "anchors": ["pypsa/statistics/expressions.py: StatisticsAccessor._apply_option_kwargs"]}
{"id": "C46", "title": "Consistency check: strict mode", "statement": "consistency_check(strict=[...]) raises exactly for violated checks that are listed, reports every kind of fault exactly when it is there, lists exactly the components with unknown buses, and refuses unknown words. Exceptions (counterexamples exist): 'unknown_carriers' can never be made strict because of a misspelt key; a custom branch column starting with 'bus' makes the check itself fail; a global constraint without a bus next to one with a bus counts as an unknown bus (so optimize raises); the strict investment-period check raises ValueError instead of ConsistencyError.", "quantifier": "for all networks and strict lists", "why_tests_cant": "all networks", "anchors": ["pypsa/consistency.py: consistency_check, check_for_unknown_buses, check_for_unknown_carriers"]}
{"id": "C47", "title": "Bounding box contains all points", "statement": "compute_bbox with non-negative margin returns a box containing every bus coordinate; the box is the smallest such box widened by margin times its extent. The haversine distance is the radius times the angle between the points on the sphere: symmetric, between 0 and 6371*pi, zero exactly for the same place, unaffected by whole turns of longitude, and it obeys the triangle inequality.", "quantifier": "for all coordinates", "why_tests_cant": "continuum", "anchors": ["pypsa/geo.py: compute_bbox, haversine_pts"]}
{"id": "C48", "title": "Copying selected snapshots keeps everything at those snapshots", "statement": "n.copy(snapshots=S) has exactly the snapshots S, the same components, and every static value and every value at a snapshot of S is the one of n. The deprecated with_time argument does the opposite of its name: copy(with_time=True) drops all time series, copy(with_time=False) keeps them (a counterexample exists).", "quantifier": "for all networks and snapshot selections", "why_tests_cant": "quantifies over all tables, including components with only some time series", "anchors": ["pypsa/networks.py: Network.copy"]}
{"id": "C49", "title": "Setting investment periods repeats the data for each period", "statement": "n.set_investment_periods(ps) on a network with plain snapshots gives exactly the snapshots (p, t) for p in ps and t an old snapshot, repeats every time series and the snapshot weightings for each period and gives each period weight 1; a second call keeps all data and succeeds only for the same set of periods; periods that are not strictly increasing are rejected; a call that raises changes nothing.", "quantifier": "for all networks (as snapshot index, weightings and time series tables) and all period lists", "why_tests_cant": "all tables, all period lists, repeated calls", "anchors": ["pypsa/networks.py: Network.set_investment_periods"]}
{"id": "C50", "title": "Linearised unit commitment does not lose schedules", "statement": "The extra constraints added for linearized_unit_commitment keep every operation of a whole unit that respects its output, ramp, start-up and shut-down limits. This holds for constant limits with ramp_limit_shut_down at most ramp_limit_down plus the minimum output; it fails otherwise: a unit with a default shut-down limit and a small ramp-down limit can never be started, and a falling availability forbids staying on (counterexamples exist).", "quantifier": "for all units, horizons, schedules and outputs", "why_tests_cant": "all schedules and continuous outputs", "anchors": ["pypsa/optimization/constraints.py: define_operational_constraints_for_committables"]}
{"id": "C51", "title": "Capacity limits per technology bound exactly the capacities of that technology", "statement": "After n.optimize, a global constraint of type tech_capacity_expansion_limit for a carrier and an investment period holds if and only if the capacities of the extendable assets of that carrier that are active in the period (at the given bus, if any) add up as demanded; columns nom_min_{carrier}[_{period}] and nom_max_... of the buses do the same for one-port components bus by bus. Exceptions (counterexamples exist): a limit without investment_period is silently dropped; a limit for a bus without such assets raises KeyError; with several component classes linopy may merge by position, so that a limit for one bus counts assets of another; a misspelt column raises ValueError for networks with investment periods instead of a warning; a minimum at a bus without such assets is dropped.", "quantifier": "for all networks, limits, column names and solutions", "why_tests_cant": "all combinations of classes, carriers, buses, periods and column names; all solutions of the problem", "anchors": ["pypsa/optimization/global_constraints.py: define_tech_capacity_expansion_limit, define_nominal_constraints_per_bus_carrier"]}
{"id": "C52", "title": "Growth limits bound the capacity built per period", "statement": "With multi-period investment, for every carrier with a finite max_growth and every period, the capacity of extendable assets that are active for the first time in that period is at most max_growth plus max_relative_growth (if positive) times what was built in the period before, and nothing else is demanded. This holds if assets live for more than one period; an asset active in one period only counts as newly built in every later period, and carriers of different component classes are mixed up where linopy merges by position (counterexamples exist).", "quantifier": "for all networks, carriers, periods and solutions", "why_tests_cant": "all sets of build years and lifetimes, all solutions", "anchors": ["pypsa/optimization/global_constraints.py: define_growth_limit"]}
{"id": "C53", "title": "Transmission limits bound length or cost of the listed carriers", "statement": "A global constraint transmission_volume_expansion_limit (transmission_expansion_cost_limit) holds if and only if the sum of length (capital cost, over the periods an asset is active in) times capacity over the extendable lines and links whose carrier is among the comma separated carriers, and that are active in the period, stands in the given relation to the constant; brackets and surrounding spaces in the carrier list do not matter; a limit that is skipped concerns no asset. The cost limit raises if the snapshots have investment periods but multi_investment_periods is not set, where the volume limit works (a counterexample exists).", "quantifier": "for all networks, carrier lists, limits and solutions", "why_tests_cant": "all strings and networks; all solutions", "anchors": ["pypsa/optimization/global_constraints.py: define_transmission_volume_expansion_limit, define_transmission_expansion_cost_limit"]}
{"id": "C54", "title": "Energy sums of generators are respected", "statement": "After n.optimize, every generator that is active at some snapshot produces at least e_sum_min and at most e_sum_max in total, weighted with the generator weightings; generators without limits are unrestricted. Optimised window by window, the total is at most the number of windows times e_sum_max.", "quantifier": "for all generators, snapshots, weightings and solutions", "why_tests_cant": "all horizons and continuous outputs", "anchors": ["pypsa/optimization/constraints.py: define_total_supply_constraints"]}
{"id": "C55", "title": "The Jacobian of the non-linear power flow is the derivative of its mismatch", "statement": "The residual that n.pf() drives to zero vanishes exactly when the textbook AC power equations hold: active power at every bus but the slack bus (with distributed slack: at every bus up to its share), reactive power at every PQ bus. The matrix dfdx used for the Newton step is square and is the derivative of that residual at every guess in which the voltage magnitudes of PQ buses are positive, so a Newton step reduces every residual at the rate of its value. If an iterate has a negative magnitude, its column of dfdx has the wrong sign (a counterexample exists).", "quantifier": "for all numbers of PV and PQ buses, admittance matrices, injections, guesses, slack weights", "why_tests_cant": "derivatives are a statement about a continuum; tests compare a converged flow of a few networks only", "anchors": ["pypsa/pf.py: sub_network_pf (f, dfdx)"]}
{"id": "C56", "title": "Nodal injections of the power flow are the set points", "statement": "n.pf() and n.lpf() start from nodal powers that are, at every bus, the sum of sign times p_set (q_set) of the active one-port components there plus what links exchange: -p_set at bus0 and efficiency times p_set at every further port; the linear power flow adds the conductance of shunts as constant load. Exception (a counterexample exists): links that are switched off still exchange their set point.", "quantifier": "for all component tables, snapshots and buses", "why_tests_cant": "all tables with any number of components, ports, signs and inactive rows", "anchors": ["pypsa/pf.py: _calculate_controllable_nodal_power_balance", "pypsa/pf.py: sub_network_lpf", "pypsa/pf.py: network_pf"]}
{"id": "C57", "title": "Power flow results balance at every bus", "statement": "After n.pf() or n.lpf() on a sub-network whose generators are active and have sign 1, the reported powers of the components at each bus add up to the reported power of the bus, and to what the branches carry away, within the tolerance of the solver; only the slack generator changes its active power and only the generators that control the voltage of a slack or PV bus change their reactive power; the linear power flow adds up to zero. n.pf() raises KeyError for a sub-network without generator. Exceptions (counterexamples exist): an inactive generator may be chosen as slack and then does not balance; a generator with sign -1 moves the wrong way; lpf without generator reports power at the first bus that no component provides.", "quantifier": "for all sub-networks, controls, tables and solutions of the power equations", "why_tests_cant": "all networks and controls; all solver results within a tolerance", "anchors": ["pypsa/pf.py: sub_network_pf", "pypsa/pf.py: sub_network_pf_singlebus", "pypsa/pf.py: sub_network_lpf", "pypsa/pf.py: find_bus_controls"]}
{"id": "C58", "title": "Distributed slack is shared in proportion to the weights", "statement": "With distribute_slack=True, every generator of the sub-network changes its active power by its weight (p_set, p_nom or custom generator weights) divided by the total weight times the total slack power, and every bus balances; this also holds for bus weights at buses with generators as far as balance is concerned; for non-negative p_set and for positive p_nom the distribution succeeds. Exceptions (counterexamples exist): one generator with p_nom zero raises AttributeError; generator weights given as dict raise TypeError; weights for some generators only raise KeyError; inactive generators are given a share, which is lost; so is the share of a bus without generators; p_nom_opt counts between buses but p_nom within a bus; on a single bus only p_set works.", "quantifier": "for all sub-networks, weights, tables and solutions of the power equations", "why_tests_cant": "all weights, numbers of generators and slack powers", "anchors": ["pypsa/pf.py: sub_network_pf", "pypsa/pf.py: sub_network_pf_singlebus", "pypsa/pf.py: normed"]}
{"id": "C59", "title": "Voltage angles after optimisation explain the flows", "statement": "After n.optimize() with Kirchhoff's voltage law, the reported buses_t.v_ang are angles for the optimised flows: on every passive branch of a connected sub-network with positive reactances, reactance times flow is the difference of the angles at its ends. The angles add up to zero over the sub-network and differ from those of n.lpf() for the same injections by one constant only; the pseudo-inverse they are computed with exists and is unique. Exception (a counterexample exists): the slack bus does not get angle zero.", "quantifier": "for all connected sub-networks, positive reactances, cycle bases, injections and flows", "why_tests_cant": "all topologies and a continuum of reactances and flows", "anchors": ["pypsa/optimization/optimize.py: post_processing (v_ang_for_)"]}
{"id": "C60", "title": "Shadow prices reach their place", "statement": "After a successful n.optimize(), buses_t.marginal_price is the multiplier of the nodal balance of that bus and snapshot divided by the weighting of the snapshot; optimisations of other snapshots leave it alone. With assign_all_duals the multiplier of the constraint <class>-...-<spec> is reported as mu_<spec> unless a later constraint of the same class and spec has the component too, and the multiplier of a global constraint is its mu. Exceptions (counterexamples exist): without assign_all_duals no mu_... series is ever reported, although lines, generators and others have attributes for it; of a storage unit's limits only the last one stays; if the solver provides no multipliers, prices of the previous run are divided a second time; at weight zero there is no finite price.", "quantifier": "for all lists of constraint arrays, component tables, weightings, windows and previous tables", "why_tests_cant": "all sequences of windows, names of constraints and tables", "anchors": ["pypsa/optimization/optimize.py: assign_duals, post_processing, optimize", "pypsa/optimization/common.py: set_from_frame"]}
{"id": "C61", "title": "Prices mean what economics says they mean", "statement": "For a solved model whose multipliers meet the optimality conditions: the solution is cheapest among all feasible ones; no solution for other loads is cheaper than the old cost plus weighting times marginal_price times the change of load, summed over buses and snapshots; what loads pay at the prices is what generators, storage, links and branches receive. A generator or link without unit commitment runs at full output if a unit earns more at the prices (a link: at its outputs, minus what it pays at bus0) than its marginal cost, at least output if less, and earning equals marginal cost in between; it never runs at a loss if it may be idle. An extendable one earns exactly its annualised capital cost if its capacity is not at a limit, at least that if only p_nom_max binds, at most if only p_nom_min binds. An emission limit adds its multiplier times specific emissions over efficiency to the earning.", "quantifier": "for all networks, costs, weightings, investment periods, solutions and multipliers", "why_tests_cant": "statements about all networks and all optimal solutions; solvers give one", "anchors": ["pypsa/optimization/optimize.py: define_objective, assign_duals, post_processing", "pypsa/optimization/constraints.py: define_nodal_balance_constraints, define_operational_constraints_for_extendables, define_operational_constraints_for_non_extendables, define_nominal_constraints_for_extendables", "pypsa/optimization/global_constraints.py: define_primary_energy_limit"]}
{"id": "C62", "title": "Security-constrained dispatch survives the selected branch outages", "statement": "When optimize.optimize_security_constrained succeeds, then for every selected outage of a passive branch that leaves its sub-network connected, the linear power flow without that branch and with the same injections stays within s_max_pu times s_nom (or the optimised s_nom) on every other branch. Conversely a dispatch that respects its limits and survives all selected outages is not excluded. By default all passive branches are outages; a list or Index names lines, a MultiIndex names (component, branch) pairs.", "quantifier": "for all sub-networks, reactances, capacities, extendable or not, dispatches and sets of outages", "why_tests_cant": "A test checks one network and one solver outcome; the claim concerns every feasible dispatch and every outage.", "anchors": ["pypsa/optimization/abstract.py:355-454", "pypsa/contingency.py:24-64", "pypsa/optimization/constraints.py:39-129"]}
{"id": "C63", "title": "Contingency analysis reports the flows after each outage", "statement": "n.lpf_contingency returns one column per outage with the linear power flow without that branch: the flows of the reduced network within the sub-network, zero on the branch itself, and unchanged flows in all other sub-networks. It works without arguments for all passive branches.", "quantifier": "for all networks of connected sub-networks, phase shifts, injections and lists of outages", "why_tests_cant": "A test compares one network with one sub-network; the claim is about all networks, also of several sub-networks.", "anchors": ["pypsa/contingency.py:67-136"]}
{"id": "C64", "title": "Near-optimal alternatives stay within the cost slack and are best among them", "statement": "After n.optimize, n.optimize.optimize_mga allows exactly those feasible candidates whose system cost (capital cost of capacities, running and switching costs) is at most (1 + slack) times that of the stored solution, so the stored optimum is allowed, and returns the one with the least (sense 'min...' or a positive int) or greatest (sense 'max...' or a negative int) weighted sum of the chosen variables; by default the capacity of extendable generators. Runs in a row multiply the slacks.", "quantifier": "for all networks without investment periods, stored solutions, slacks, weights, senses and feasible sets", "why_tests_cant": "A test compares the cost of one alternative with one budget; the claim is about every network, every alternative and every objective.", "anchors": ["pypsa/optimization/abstract.py:513-659", "pypsa/statistics/expressions.py:573-577"]}
{"id": "C65", "title": "Per-unit values and standard types reproduce the physical devices", "statement": "After n.calculate_dependent_values the non-linear power flow computes, for every line between buses of equal v_nom, every transformer (constants in per unit of s_nom, T or pi model, tap and phase shift) and every shunt, the physical powers in MVA at all voltages. A line with a type behaves as num_parallel lines with the type's constants per length, a transformer with a type as num_parallel devices that meet the name plate (vsc, vscr, pfe, i0). x_pu_eff and r_pu_eff are the impedance between both ends. Missing carriers come from the first bus. Calling it again changes nothing; it raises exactly if a type is unknown.", "quantifier": "for all networks, types, voltages and currents", "why_tests_cant": "Tests compare a few tabulated impedances; the claim is about every device at every voltage.", "anchors": ["pypsa/pf.py: apply_line_types, apply_transformer_types, calculate_dependent_values"]}
{"id": "C66", "title": "Fixing optimal capacities keeps the optimal dispatch", "statement": "After n.optimize and n.optimize.fix_optimal_capacities every extendable asset has its optimal capacity and is not extendable, nothing else changes and a second call changes nothing. The operations allowed then are exactly those that were allowed together with these capacities; the dispatch cost is the former objective without the cost of expansion. So the former dispatch is optimal, and every optimal dispatch together with the capacities is an optimum of the expansion problem. The problem can be built if some operating costs are left and no <nom>_set is given.", "quantifier": "for all networks, dispatch bounds, ramp limits, modules, objectives, further conditions on operation or capacities, and solutions", "why_tests_cant": "A test solves one network twice; the claim concerns all optima of all networks.", "anchors": ["pypsa/optimization/optimize.py: fix_optimal_capacities", "pypsa/optimization/constraints.py:39-216,363-570,725-812", "pypsa/optimization/optimize.py: define_objective"]}
{"id": "C67", "title": "The optimised dispatch as set points of a power flow", "statement": "After n.optimize and n.optimize.fix_optimal_dispatch the set points at every bus add up to what the lines and transformers take away in the optimum. lpf then reports these injections at all buses of a sub-network, leaves the power of every generator, load, storage unit and store as optimised and, without phase shifts, yields the optimised branch flows. With transmission losses only the slack generator changes, by the losses of its sub-network. pf keeps the injections at all buses but the slack bus and the dispatch of all generators but the slack generator.", "quantifier": "for all networks with switched-on generators of sign 1, solutions of the nodal balance, sub-networks closed under branches, and solutions of the power flow equations", "why_tests_cant": "Tests compare a few optimised networks numerically; whether injections and flows agree follows from balance, signs and topology of every network.", "anchors": ["pypsa/optimization/optimize.py: fix_optimal_dispatch, assign_solution", "pypsa/pf.py: sub_network_lpf, sub_network_pf, _calculate_set_points", "pypsa/optimization/constraints.py: define_nodal_balance_constraints, define_kirchhoff_voltage_constraints"]}
{"id": "C68", "title": "Generator controls set between optimisation and power flow", "statement": "n.optimize.optimize_and_run_non_linear_powerflow makes every generator PV, except the slack generator of every sub-network, which becomes Slack, and the first other generator in the order of names, which becomes PQ. The power flow then balances every sub-network with the slack generator found before, changes no control any more, holds the voltage at every bus with a generator but at most one, and buses are not changed. This works exactly if all sub-networks found by the optimisation have a generator.", "quantifier": "for all networks, lists of sub-networks and declared controls", "why_tests_cant": "Tests run one meshed network; which generators stay in control depends on names, buses and declared controls of every network.", "anchors": ["pypsa/optimization/abstract.py: optimize_and_run_non_linear_powerflow", "pypsa/pf.py: find_slack_bus, find_bus_controls"]}
{"id": "C69", "title": "Load shedding completes every shortage, costs what is shed and caps the price", "statement": "n.optimize.add_load_shedding adds at each given bus one generator between 0 and p_nom that feeds in sign times its power at marginal_cost. An operation of everything else that keeps its limits can then be completed to a solution exactly where every bus with shedding lacks between 0 and sign * p_nom and every other bus is balanced; with shedding at all buses the nodal balance is never refused. The objective grows by weighting * marginal_cost * power shed. Solutions of the network before stay solutions at the same cost; an optimum with prices of at most marginal_cost / sign stays optimal. In an optimum, sign * price is at most marginal_cost where shedding is below its limit and at least where it is used. A second call, or a name in use, leaves the existing generators as they are.", "quantifier": "for all networks, buses, signs, costs, limits, snapshots, further constraints and solutions", "why_tests_cant": "Tests add load shedding to one network and check that it solves; that it repairs every shortage, no excess, and never changes an affordable optimum concerns all solutions of all networks.", "anchors": ["pypsa/optimization/optimize.py:749-791", "pypsa/networks.py:1225-1349", "pypsa/optimization/constraints.py:573-666", "pypsa/optimization/optimize.py:78-209"]}
{"id": "C70", "title": "Statistics: revenue and market value", "statement": "statistics.revenue reports for each group the weighted sum over its components, ports and snapshots of the power given to the bus times the marginal price there; revenue of inputs plus revenue of outputs is the revenue; if power is balanced at every bus and snapshot weightings agree, the revenues of all components add up to zero, and a branch earns flow times (efficiency * price at bus1 - price at bus0). statistics.market_value is revenue divided by supply, independent of aggregating time by sum or mean, and lies between lowest and highest price for groups that only sell. It fails for storage (value below all prices), for zero revenue (NaN reported), and settlement fails with different weightings (counterexamples exist).", "quantifier": "for all networks, dispatch tables, prices, groupings and filters", "why_tests_cant": "sums over arbitrary tables; the settlement identity must hold for every dispatch and every price table", "anchors": ["pypsa/statistics/expressions.py: StatisticsAccessor.revenue, market_value", "pypsa/statistics/abstract.py: _aggregate_components"]}
{"id": "C71", "title": "Statistics: capacities, curtailment and capacity factors", "statement": "statistics.optimal_capacity and installed_capacity report the sum of a group's (optimal) nominal capacities, at ports weighted by -1 where power is taken and the efficiency where it is delivered; with storage=True energy capacities of stores and storage units only. expanded_capacity is their difference where the optimum is larger in size, expanded_capex the cost of the difference. curtailment is the available minus the dispatched energy where positive, hence non-negative, and adds up with dispatch to the available energy. capacity_factor is mean use over capacity and lies in [0, 1] when operation is within capacity, for any rounding. Violated: curtailment also counts assets without p_max_pu series and storage units; capacity_factor(at_port=True) can be negative (counterexamples exist).", "quantifier": "for all networks, dispatch tables, groupings, filters and rounding digits", "why_tests_cant": "sums over arbitrary tables and groupings; range must survive rounding of both parts of the quotient", "anchors": ["pypsa/statistics/expressions.py: StatisticsAccessor.optimal_capacity, installed_capacity, expanded_capacity, expanded_capex, curtailment, capacity_factor, port_efficiency, get_operation"]}
{"id": "C72", "title": "Expressions of the optimisation agree with the statistics of the result", "statement": "Evaluated at the solution, the linear expressions of n.optimize.expressions (capex, capacity, opex, energy_balance, supply, withdrawal, transmission, curtailment, operation) give what the same method of n.statistics reports for the network holding that solution, group by group; so a constraint on an expression limits the statistic of that name. Supply minus withdrawal is always the balance, and aggregation across components adds up the classes.", "quantifier": "for every network, every assignment of the variables, every grouping, filter, choice of ports and time aggregation", "why_tests_cant": "tests evaluate some expressions on one or two networks, mostly only checking that they are not empty; the agreement must hold for every solution and for every class", "anchors": ["pypsa/optimization/expressions.py:48-627", "pypsa/statistics/expressions.py:1593-1622", "pypsa/statistics/abstract.py:222-302"]}
{"id": "C73", "title": "Storage is operated and sized at the prices", "statement": "At an optimum with its shadow prices, the multiplier of the energy balance of a storage unit or store is the value of the energy in it. A storage unit discharges fully when the price at its bus is above the value of the energy drawn plus the cost of operation, not at all when below, and charges fully, or not at all, when the energy gained is worth more, or less, than the price. For a store, whose power is not limited, value of energy and price differ by the cost of operation. Energy is worth now what the part of it that remains is worth at the snapshot it is passed on to (the next active one, or the first one of the horizon or period if cyclic), less the cost of holding it, unless the device is empty or full. Hence energy bought at one snapshot and sold at a later one pays for all losses and costs on the way, and no further trade of that kind would; a lossy storage unit charges and discharges at the same time only where the price is not positive. An extendable device earns exactly the annual costs of its size plus the value of inflow and initial level, up to what the limits of the size are worth; one of given size makes no loss. The multipliers of the energy balances of the starting snapshots bound what a different initial level can save.", "quantifier": "for every network, horizon, investment periods, cyclic or not, given series, further constraints, and every solution with multipliers satisfying the optimality conditions", "why_tests_cant": "tests compare a few solver results with stored numbers; that prices, state of charge multipliers, efficiencies, standing losses, cyclicity, inflow and investment costs fit together concerns every network and every solution", "anchors": ["pypsa/optimization/constraints.py:808-975", "pypsa/optimization/constraints.py:75-230", "pypsa/optimization/variables.py:110-150", "pypsa/optimization/optimize.py:48-220", "pypsa/optimization/optimize.py:506-560"]}
{"id": "C74", "title": "Import of PYPOWER cases keeps the power flow problem", "statement": "import_from_pypower_ppc gives a network whose power flow has the admittance matrix of the case, brought to base 1 MVA, provided transformers have a rating and no charging: lines from the per-unit values of the case to Ohm and Siemens at the level of bus0, transformers from the base of the case to that of their rating, taps and phase shifts on the side of bus0, shunts at the level of their bus. Branches are lines exactly when they join buses of one level without tap and shift. Linear power flow uses impedance times tap ratio. At each bus the loads add up to the demand of the case, generators keep powers and get the control of their bus, and buses the voltage of the last generator there. The import raises only for bus types above 3. Violated: charging of transformers (taken as a T circuit), transformers without rating (impedance lost).", "quantifier": "for every case, number of buses and branches, rating to overwrite zeros, and numbering of buses", "why_tests_cant": "tests import two cases and compare flows with stored results; the equality of the matrices concerns every case, and base conversions cancel for particular bases and ratings", "anchors": ["pypsa/io.py:1674-1882", "pypsa/pf.py:990-1027", "pypsa/pf.py:1190-1290"]}
{"id": "C75", "title": "Import of pandapower nets keeps elements and merges switched buses", "statement": "import_from_pandapower_net succeeds exactly when all referenced buses exist and no bus is merged away twice. Without switches in a row, two elements are at the same bus afterwards exactly when their buses were joined by closed bus switches; buses that stay keep level and set point (last external grid, else last generator, else 1); loads, generators, static generators and external grids keep scaled powers and controls; lines keep type, length and number of systems, or impedance, charging and limit up to stated factors; transformers keep type and tap position or obey stated relations to their name plate; shunts draw the stated power. Refuted: that parallel lines, line limits, name plates, shunt reactive power, mixed types, chained switches and set points at merged buses are imported as pandapower means them.", "quantifier": "for every net with distinct bus ids and names, any tables of elements and switches", "why_tests_cant": "tests import a couple of example nets and look at bus names; which buses coincide depends on the whole graph of switches, and factors are invisible for rating 1 and one system", "anchors": ["pypsa/io.py:1885-2110"]}
{"id": "C76", "title": "Clustering relaxes the dispatch problem", "statement": "If operation of a network satisfies balances at all buses, limits of generators, lines and links and fixed schedules, then the network clustered by a busmap admits operation with the same production per cluster and carrier, the same flows between clusters and over links that remain, the same generation costs where generators that become one cost the same, and link costs no higher; so a lower bound on the costs of the clustered network is one for the network. Conditions: links inside a cluster have efficiency 1 and generators that become one either all have a schedule or none. The clustered problem can be written down. Refuted without these conditions: that costs never rise, that feasibility survives a schedule of one generator or a lossy link inside a cluster, and that it survives the voltage law of passive branches.", "quantifier": "for every network of generators, loads, lines and links with time series, every busmap total on its buses, any choice of generators to aggregate, every solution of the constraints", "why_tests_cant": "tests compare sums of capacities before and after; that every feasible operation survives quantifies over all solutions of a linear program, and the exceptions need particular cost, schedule and loop structures", "anchors": ["pypsa/clustering/spatial.py:171-292", "pypsa/clustering/spatial.py:329-451", "pypsa/clustering/spatial.py:470-596", "pypsa/optimization/constraints.py:30-180", "pypsa/optimization/constraints.py:544-680"]}
{"id": "C77", "title": "Rolling horizon keeps unit commitment and ramp limits", "statement": "After optimize_with_rolling_horizon with 0 <= overlap < horizon, in which every window was solved, the stored statuses of a committable unit with positive min_up_time form one schedule over all snapshots that keeps minimum up and down times also across window borders and honours the state before the horizon; stored start-ups and shut-downs are at least its transitions, so that it is feasible, at no higher transition counts, for one optimisation of all snapshots. Dispatch of assets with given capacity keeps ramp, start-up and shut-down limits across borders. Violated: min_down_time of units with min_up_time 0; and up_time_before is forgotten after the first window, which forbids admissible stops.", "quantifier": "for every number of snapshots, horizon and overlap, unit, class of assets, and every sequence of feasible solutions the solver may return", "why_tests_cant": "tests check one rolling run against stored numbers; which transitions fall on a border and what the solver returns in overlaps varies without bound", "anchors": ["pypsa/optimization/abstract.py:457-510", "pypsa/optimization/constraints.py:132-290", "pypsa/optimization/constraints.py:393-570"]}
{"id": "C78", "title": "Statistics group and filter assets as asked", "statement": "A statistic grouped by any list of keys (carrier, bus_carrier, bus, country, location, unit, name, any column) reports under each key exactly once the sum over the active assets, at the ports asked for, that pass the filters bus_carrier and carrier and have this key; it is defined unless a key does not exist for a class with counted assets; its entries sum to the assets with a complete key; a further key that no asset lacks splits the values; filtering by carriers of buses, or by carriers, gives the entries with these carriers of the finer grouping; nice names merge the carriers shown alike. Violated: a carrier given as text falls back to a search by pattern in each class without it, so that adding an asset removes others; transformers pass every carrier filter; assets at buses without a country vanish from a grouping by country.", "quantifier": "for every network (tables of any content), quantity, list of keys, filter, choice of ports and pattern semantics", "why_tests_cant": "tests group one small network by a few keys and compare shapes or single sums; fallbacks depend on which carriers occur in which class", "anchors": ["pypsa/statistics/grouping.py:91-362", "pypsa/statistics/abstract.py:136-157", "pypsa/statistics/abstract.py:222-302", "pypsa/statistics/abstract.py:323-379", "pypsa/statistics/expressions.py:206-269"]}
{"id": "C79", "title": "Deactivated assets are as good as removed", "statement": "n.optimize() with some components at active=False has the solutions it has after removing these components, together with any capacities of deactivated extendable assets within their own bounds (also p_nom_set and modules); costs agree, optima agree both ways, all other variables equal. Conditions: deactivated assets out of reach of functions that ignore activity. Violated outside them: a deactivated generator without ramp limits brings to life limits of one of the others; contradictory capacity bounds of deactivated assets make the problem infeasible; their capacities count towards transmission volume and cost limits and nom_min_/nom_max_ columns; their initial levels towards primary energy and operational limits; an unbounded deactivated line raises with transmission losses, a spillage cost without inflow raises.", "quantifier": "for every network of generators, lines, transformers, links, stores, storage units and loads with any data, unit commitment, losses, global constraints and bus columns, every set of deactivated components and every solution", "why_tests_cant": "tests deactivate one generator or line of one network and compare an objective value; the interplay with ramp gates, limits and capacity bounds is not sampled", "anchors": ["pypsa/optimization/optimize.py:212-333", "pypsa/optimization/constraints.py:363-420", "pypsa/optimization/global_constraints.py:95-175", "pypsa/optimization/global_constraints.py:240-520", "pypsa/descriptors.py:403-470"]}
{"id": "C80", "title": "Results do not depend on the units of power and money", "statement": "Giving every power and energy of a network (capacities, bounds, module sizes, set points, loads, inflows, initial levels, limits on volume and operation) in numbers k times as large and every amount of money in numbers m times as large, with costs per unit, emissions per unit and per-unit resistances converted accordingly, makes n.optimize() solve the same problem: a solution is a solution after conversion (numbers of modules and states of units stay), there are no others, its objective value is m times as large, the objective is defined in both cases or in none, and the cheapest solutions correspond.", "quantifier": "for all positive k and m, every network of the six component classes with any data, unit commitment, losses, global constraints and bus columns, and every solution", "why_tests_cant": "tests use one system of units; a coefficient that misses a capacity or a stray constant shows only in an optimum that happens to depend on it", "anchors": ["pypsa/optimization/optimize.py:66-333", "pypsa/optimization/constraints.py:39-1094", "pypsa/optimization/variables.py:22-155", "pypsa/optimization/global_constraints.py:95-520"]}
{"id": "C81", "title": "Warnings of infeasibility are right, and silence means consistent limits", "statement": "The messages of n.consistency_check() about expansion limits, operational limits, committable and extendable assets, initial states and energy sums name exactly the assets (and snapshots) they describe. An extendable asset with p_nom_max < p_nom_min, an active asset of fixed positive capacity with p_max_pu < p_min_pu in some snapshot, an active generator with e_sum_max < e_sum_min and a generator both up and down before that has to stay so make n.optimize() infeasible whatever the rest of the network; an extendable asset with p_max_pu < p_min_pu gets no capacity, a committable one is off. Without messages the limits on capacity and dispatch of all assets have a common point, given non-negative capacities and s_max_pu and storage units that need neither store nor dispatch. Not found by the check: negative s_max_pu, storage units with p_min_pu > 0, links both up and down before. With strict=[...] exactly the messages of the options given (all of them for 'all') are errors; an unknown option is a ValueError.", "quantifier": "for every network of the six component classes with unique names, every such asset and every solution", "why_tests_cant": "tests check that a warning is logged for one bad network each; they neither solve it nor ask which contradictions stay unreported", "anchors": ["pypsa/consistency.py:280-523", "pypsa/consistency.py:780-880", "pypsa/optimization/constraints.py:39-129", "pypsa/optimization/constraints.py:190-270", "pypsa/optimization/constraints.py:363-390", "pypsa/optimization/constraints.py:1033-1094"]}
{"id": "C82", "title": "The order of components does not matter to the optimisation", "statement": "Adding the same components, loads, buses, carriers and global constraints in another order leaves the set of feasible solutions, the objective value of every solution, the set of optimal solutions and whether the problem can be built at all unchanged (n.optimize, apart from which optimum a solver picks). Kirchhoff's voltage law is assumed to admit the same flows for every order (any cycle basis will do, C18).", "quantifier": "for every network of the six component classes, every permutation of its tables and every solution", "why_tests_cant": "tests build networks in one order; alignment by position instead of by name goes unnoticed as long as the orders agree", "anchors": ["pypsa/optimization/optimize.py:78-333", "pypsa/optimization/constraints.py:39-1094", "pypsa/optimization/global_constraints.py:26-521", "pypsa/optimization/variables.py:22-157"]}
{"id": "C83", "title": "Snapshots of equal data can be merged", "statement": "In a network without storage, unit commitment and ramp limits, replacing a group of snapshots with the same data by one snapshot that carries their summed weightings changes nothing: a feasible operation of the merged snapshot can be repeated over the group at the same cost, a feasible operation of the group can be averaged at no higher cost (given no negative quadratic costs), and the optima of both problems correspond; one problem is rejected exactly if the other one is. With a store or with ramp limits this is false in either direction.", "quantifier": "all networks of generators, lines, transformers and links with any loads, limits, losses and bus columns, all groupings of snapshots, all positive weightings where objective and generator weightings are in the same proportion within a group", "why_tests_cant": "tests compare one aggregated network with one original up to solver tolerance; that every kind of constraint scales with the weightings in the same way is not checked", "anchors": ["pypsa/optimization/optimize.py:78-333", "pypsa/optimization/constraints.py:39-1094", "pypsa/optimization/global_constraints.py:240-521"]}
{"id": "C84", "title": "Parts of a network that no branch connects are optimised independently", "statement": "If the buses of a network split into two sets and every line, transformer and link has all its ports on one side, n.optimize() of the network is n.optimize() of n[buses] of either side put together: a solution restricted to a side is a solution of that side, any two solutions of the sides together are one of the network, costs add up, the result is optimal exactly if both parts are, and the problem can be built exactly if both can. This needs that there is no global constraint, and that dropping ramp limits by class has the same effect on the parts as on the whole.", "quantifier": "for all networks, all such sets of buses, all solutions; two refuted theorems show that a global constraint or the rule by which ramp limits of one are dropped couples parts that nothing connects", "why_tests_cant": "That unconnected parts do not influence each other depends on every function that writes rows or costs; tests solve one network and never compare it to its parts.", "anchors": ["pypsa/optimization/optimize.py:78-209", "pypsa/optimization/optimize.py:212-333", "pypsa/optimization/constraints.py:393-570", "pypsa/optimization/constraints.py:573-668", "pypsa/networks.py:1590-1677"]}
{"id": "C85", "title": "Without integer variables the problem is convex", "statement": "If no capacity comes in modules and units are not committed (or linearized_unit_commitment is on), the mixture of two solutions of n.optimize() in any proportion is a solution and costs no more than the mixture of their costs, exactly that without quadratic costs. Mixtures of optimal solutions are optimal, and a solution that is not optimal can be improved by arbitrarily small changes, so what a local solver finds is optimal.", "quantifier": "for all networks, all pairs of solutions and all proportions; refuted with units that are on or off and with modules", "why_tests_cant": "Convexity is about all pairs of solutions; a single non-linear row or a bound that depends on the solution would break it in places a test does not visit.", "anchors": ["pypsa/optimization/optimize.py:78-209", "pypsa/optimization/optimize.py:212-333", "pypsa/optimization/variables.py:43-157", "pypsa/optimization/constraints.py:39-1094"]}
{"id": "C86", "title": "Looser limits never make the optimum worse", "statement": "Loosening limits of a network - ranges of operation and capacity, prescribed values, ramp limits, minimum up and down times, sums of generation, global constraints, limits per bus and carrier - keeps every solution of n.optimize() at the same cost, so the optimal objective does not increase; an optimum that keeps the tighter limits is optimal for them too.", "quantifier": "for all networks, all loosened versions of them and all solutions; refuted for the capacity of lossy lines, for ramp limits of one next to ones given up, and for the capacity of generators that have to run", "why_tests_cant": "Monotonicity compares the feasible sets of two networks; tests compare two optima of single instances.", "anchors": ["pypsa/optimization/optimize.py:212-333", "pypsa/optimization/constraints.py:39-570", "pypsa/optimization/constraints.py:725-812", "pypsa/optimization/constraints.py:978-1094", "pypsa/optimization/global_constraints.py:95-521"]}
{"id": "C87", "title": "Exporting over an earlier export", "statement": "Exporting a network to a CSV folder, Excel workbook or HDF5 file that already holds something, and reading it back, gives the same network as exporting to an empty place: the same rows, time series, snapshots, weightings and texts, hence (together with the round trip of every value) the network that was written. For Excel and HDF5 this holds whatever network was exported before, as long as it had no time series of attributes of the user's own; for a CSV folder it needs in addition that every class with components then still has components now. The order in which classes are visited does not matter. Otherwise it fails: in a CSV folder the table of a class that has lost all its components is never removed, so the removed components are back after reading or the folder cannot be read at all.", "quantifier": "for all registries of classes with plain list names, all consistent networks, all earlier contents of the store, all orders of the classes, three formats", "why_tests_cant": "whether something stale survives depends on pairs of networks and on how file names are taken apart; tests export once into a fresh folder", "anchors": ["pypsa/io.py: ExporterCSV, ImporterCSV, ExporterExcel, ImporterExcel, ExporterHDF5, ImporterHDF5, _export_to_exporter, _import_from_importer"]}
{"id": "C88", "title": "Networks survive netCDF files", "statement": "Exporting a network to a netCDF dataset and reading it back gives the same network as going through a CSV folder, and hence the network that was written: the same names in every class, the same texts, snapshots and weightings, and every attribute of every component at every snapshot (with the exceptions of C13). All tables share one flat space of variable names and are told apart by prefixes only; this works because no list name of the package continues another one and because no column of a static table may start with t_. A column of the user's own that does start with t_ breaks it: the export succeeds and the file can never be read again, while CSV has no such limit.", "quantifier": "for all registries of classes with prefix-free list names (those of the package are), all consistent networks without columns i or t_..., all orders of the classes", "why_tests_cant": "whether two names collide depends on the names of classes and of the user's columns, of which tests try a handful", "anchors": ["pypsa/io.py: ExporterNetCDF, ImporterNetCDF, _export_to_exporter, _import_from_importer"]}
{"id": "C89", "title": "Networks of one process do not disturb each other", "statement": "A program that creates several networks and adds to, removes from and re-indexes them in any interleaving leaves each network as if its own calls had been made in a process of their own: the same snapshots, weightings and components, every table of every other class identical, and for links every attribute the package knows. The qualification matters, since the table of link attributes is one object for the whole process and is extended in place when a link with a further port (bus2, ...) is added. Without such links the networks are exactly independent and the table never changes; with them, a network created later starts with the frames of the further port, one created earlier gets its columns with the next link (NaN for its older links) but not the frame p2 that the power flow then asks for, and the very first link with a third port gets no efficiency2. Older links of the network that brings the port are left unconnected at it.", "quantifier": "for all attribute tables, all programs over any number of networks, all interleavings, all networks of the process", "why_tests_cant": "state shared between networks shows only in particular interleavings within one process, and the test suite runs each test in a process where earlier tests have already registered the ports", "anchors": ["pypsa/descriptors.py: update_linkports_component_attrs, additional_linkports", "pypsa/io.py: _import_components_from_df", "pypsa/components/abstract.py: attrs, _get_data_containers", "pypsa/components/types.py: get, all_components"]}
{"id": "C90", "title": "Names do not matter to the optimisation", "statement": "Giving other names to components and buses, consistently and without making two of them one, gives the same optimisation problem: create_model fails for both networks or for none, the solutions of one are the solutions of the other read under the new names, at exactly the same objective, so the cheapest are the same. Names may be exchanged between components, be shared by components of different classes, contain spaces, dashes or the names of attributes. Two things are not mere names and stay: the carriers, which capacity columns of the bus table (nom_max_wind) spell out, and the empty text, which for the further ports of a link means no bus. A bus that is given the empty name is out of reach of those ports.", "quantifier": "for all networks, all one-to-one renamings of components per class and of buses that keep the empty text, all candidate solutions", "why_tests_cant": "tests use a handful of harmless names; a lookup by position, by prefix or across classes that depends on a name goes unnoticed", "anchors": ["pypsa/optimization/optimize.py: create_model, define_objective", "pypsa/optimization/constraints.py: define_nodal_balance_constraints, define_operational_constraints_for_extendables, define_ramp_limit_constraints", "pypsa/optimization/global_constraints.py: define_nominal_constraints_per_bus_carrier, define_primary_energy_limit"]}
{"id": "C91", "title": "The direction in which lines and transformers are entered does not matter", "statement": "Exchanging bus0 and bus1 of any lines and transformers (and the sign of a prescribed s_set, where there is one) leaves the optimisation problem as it was: the solutions are those of the original network with the flows of the turned branches counted the other way; capacities, losses, dispatch, storage levels, objective and hence the optimum are the same; and building the model fails for the one exactly when it fails for the other. Links do have a direction: entering one the other way round can make a solvable network infeasible.", "quantifier": "for all networks with components of the known classes, all sets of lines and transformers turned around, all solutions, and any Kirchhoff voltage rows that follow the turned branches", "why_tests_cant": "Which end of a line becomes bus0 is an accident of the data source; tests use fixed networks, and a sign error in the flow bounds, balance, losses or limits for some orientation pattern would only show in a comparison over all patterns and all solutions.", "anchors": ["pypsa/optimization/constraints.py", "pypsa/optimization/optimize.py", "pypsa/optimization/global_constraints.py"]}
{"id": "C92", "title": "Splitting a generator into shares does not matter", "statement": "Modellers represent the same fleet with one generator or with several equal ones. Replacing a generator by two at the same bus, with shares q and 1-q of its p_nom, p_nom_min, p_nom_max, p_nom_set, p_set, e_sum_min and e_sum_max and all relative quantities and costs unchanged, leaves the optimisation problem the same: every solution of the split network, with dispatch and capacity of both parts added, solves the original one at the same costs; every solution of the original one, with dispatch and capacity shared out in proportion, solves the split one at the same costs; hence optimal solutions correspond and create_model fails for both or for none. The same does not hold for committable generators or generators with quadratic costs.", "quantifier": "for every network with any generators, lines, transformers, links, stores, storage units, loads, global and bus limits and losses, every generator that is not committable, not modular and without quadratic costs, every share between 0 and 1, every free name for the second part and every solution", "why_tests_cant": "a test compares optima of a few networks; whether rows exist that see the number of generators (ramping, energy sums, limits by carrier, limits per bus, constant costs) needs all networks and all solutions", "anchors": ["pypsa/optimization/constraints.py", "pypsa/optimization/optimize.py", "pypsa/optimization/global_constraints.py", "pypsa/optimization/variables.py"]}
{"id": "C93", "title": "The tree matrix carries every injection", "statement": "find_tree records in sub_network.T, for every bus, the path through a spanning tree to the bus of highest degree. The column of a bus carries exactly one unit from this bus to the tree slack: the incidence matrix times T is the unit matrix minus the slack row. So the flows T p serve any injections p that sum to zero (a surplus ends at the slack), they still do after adding any flows along the cycles of find_cycles, and in a network without cycles they are the only flows that serve p. find_tree finds a branch for every step. Of parallel branches T always takes the first, which need not be the one in sub_network.tree.", "quantifier": "for every list of branches in any direction, with parallel branches and infinite impedances, every spanning tree and simple paths in it, all injections, all flows along cycles and all buses", "why_tests_cant": "a test looks at one matrix of a small grid; signs along paths against the direction of branches, repeated assignments and uniqueness of flows need all trees and all injections", "anchors": ["pypsa/pf.py", "pypsa/graph.py"]}
{"id": "C94", "title": "Replacing parallel lines by one keeps the corridor as it was", "statement": "pf.aggregate_multi_graph(sub_network) is documented to replace the branches between two buses by a single one with aggregated properties. Without parallel branches it leaves the network as it is. With parallel branches it never does what is documented: it raises AttributeError after all but one line between the two buses have been removed, and the line that stays keeps its own values (KeyError for parallel transformers, or a line elsewhere is removed that has the name of one of them). The values it works out are right for the linear power flow: the new reactance carries the sum of the flows at any angle difference. They are right for the full admittance only if all lines have the same ratio of r and x, for the limit only if all lines reach theirs at the same angle difference (otherwise too much is admitted, never too little), and for the capital costs if all lines have the same ones; each is refuted otherwise.", "quantifier": "for all sub-networks, node orders, tables of lines and values of the attributes", "why_tests_cant": "the function has no test at all; a test on equal parallel lines would show the exception but not for which lines the aggregated values are the right ones", "anchors": ["pypsa/pf.py:1298-1343", "pypsa/graph.py:54-90"]}
{"id": "C95", "title": "Only the net demand of a bus matters, and costs are convex in it", "statement": "For the problem n.optimize() builds, two tables of loads with the same net demand at every bus and snapshot are as good as each other: the same solutions are feasible and optimal, with the same costs, and the model can be built for one exactly if for the other. So the order of loads, inactive loads and merging the loads of a bus do not matter. Without integer variables, a mixture of two demands is met by the mixture of solutions for both, and with quadratic costs that do not fall the least costs are a convex function of the demand (of all buses and snapshots together). With units that are on or off this is refuted.", "quantifier": "for all networks, tables of loads, mixtures, solutions and laws of voltage", "why_tests_cant": "a test compares two runs on one network; convexity is about all pairs of demands and all points between them", "anchors": ["pypsa/optimization/constraints.py:573-667", "pypsa/optimization/optimize.py:212-333"]}
{"id": "C96", "title": "Marginal prices do not fall when demand rises", "statement": "Solve a network twice, with different loads and everything else the same. If both solutions come with multipliers that satisfy the optimality conditions, the changes of buses_t.marginal_price and of the demand, multiplied with each other and with the weighting of the snapshot and added up over all buses and snapshots, are not negative. In particular, more demand at one bus and snapshot alone does not lower the price there. This holds with links, losses, storage, emission limits and any other constraints, as long as they are linear, are the same in both runs and the costs are convex.", "quantifier": "for all networks, loads, solutions, prices and multipliers of both runs, and all further linear constraints", "why_tests_cant": "a test sees one pair of loads on one network; whether prices could fall elsewhere depends on all constraints that may bind", "anchors": ["pypsa/optimization/optimize.py:390-467", "pypsa/optimization/constraints.py:573-667"]}
{"id": "C97", "title": "An asset that gets dearer does not run more", "statement": "Solve a network twice, with different marginal costs of generators, links, stores and storage units and everything else the same. The same dispatch and capacities are feasible in both. Let extra(x) be the cost differences times the dispatch in x, weighted with the snapshots and added up. Then the new optimum y has extra(y) <= extra(x) for the old optimum x: if a single asset gets dearer by the same amount at all times, its weighted dispatch does not rise. The least system costs change by at least extra(y) and at most extra(x). They are a concave function of the marginal costs, and do not fall when marginal costs rise and no output is negative. This holds with unit commitment and modular capacities too, that is for integer variables, and for quadratic costs of any sign.", "quantifier": "for all networks, changes of marginal costs, and optimal solutions of both problems", "why_tests_cant": "a test solves one network for a few prices; alternative optima, commitment and quadratic costs leave infinitely many cases", "anchors": ["pypsa/optimization/optimize.py:78-209", "pypsa/optimization/optimize.py:212-333"]}
