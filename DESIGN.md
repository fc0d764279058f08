# Formal model of PyPSA in Rocq: design

The model is in `rocq/theories/`. Each area has up to four files:

* `XModel.v`  – executable Gallina functions mirroring `/repo/pypsa`, each citing file and lines;
* `XSpec.v`   – independent specification vocabulary (left out when it is a line or two);
* `XProofs.v` – lemmas;
* `XProps.v`  – only the property theorems (`exact lemma`), `Print Assumptions`, and non-vacuity examples.

Theorems are named after their property (`C27_…`). A claim that the code violates is stated with the proviso under
which it holds, and the violation itself is a theorem `…_refuted : exists …` with a concrete witness; all of them are
listed under "Defects" below. `MANIFEST.json` lists the theorems of each property.

## Trusted base

* Coq 8.16.1's kernel (including `vm_compute`, used for examples and counterexamples).
* What `Print Assumptions` prints under each theorem, see "Assumptions".
* The reading of the Python source: the code is never executed; each definition cites its source.
* The contracts of other libraries listed under "Contracts".
* Floating point is replaced by exact arithmetic: `Q` for tables, optimisation constraints, clustering and statistics; an
  arbitrary mathcomp (number, real) field for power-flow linear algebra; the reals for distances. Round-off, overflow
  and the float representation of values are not modelled. NaN and infinities are explicit constructors where the code
  treats them specially, and are excluded (as stated at the record) elsewhere.

### Assumptions

Every theorem is "Closed under the global context" except those of `GeoProps.v` (C47) and `JacProps.v` (C55), which use the real numbers of the
standard library and hence its axioms `ClassicalDedekindReals.sig_forall_dec`, `ClassicalDedekindReals.sig_not_dec`,
`FunctionalExtensionality.functional_extensionality_dep` and `Classical_Prop.classic`
(further files that use the standard reals are listed in "Scope by area"). No other axiom is used; no axiom is declared.

### Contracts

* pandas: a frame is an ordered list of labelled rows or columns; `reindex`, `loc`, `groupby` (rows with a NaN key belong
  to no group), `replace`, `fillna`, `get_indexer` as documented. Dtypes matter only where stated (C11, C46).
* linopy: a variable array maps coordinates to labels; label -1 (masked out, or shifted in from outside) and missing
  coefficients contribute no term; a constraint row whose mask is false, or without any term, is not part of the
  problem; `add_constraints` keeps one row for each coordinate. A solution is any assignment of rationals; theorems on
  the optimisation hold for every assignment that satisfies the constraints, hence for whatever a correct solver returns.
  `merge` of expressions is by label, or by position when all sizes agree and the version of linopy overrides labels (C51, C52).
  A constraint on a quadratic expression is refused (C64).
* scipy: `spsolve(A, b)` is `A^-1 b` for invertible `A` (mathcomp `invmx`); `csr/coo` sum entries with equal position;
  `connected_components` numbers components in the order of their first node (a verified function stands for it).
* solver: multipliers meet feasibility, sign, complementary slackness and stationarity (`kkt` in PriceSpec, hypothesis of C61 only); bounds of
  variables count as constraints there.
* numpy: `linalg.pinv(B)` meets the four Penrose equations (C59); it is proved that exactly one matrix does.
* networkx: `cycle_basis` returns a basis of the cycle space of the simple graph, each cycle as a closed walk along edges
  (hypotheses of C17/C18); adjacency as documented.
* Python: dict and set semantics; iteration over sets in an arbitrary order (a parameter, C15, C46).
* File formats: reader after writer returns the frames it was given (C13).

## Scope by area

| area | properties | modelled source | left out |
|------|------------|-----------------|----------|
| Options | C01, C02 | `_options.py` | docs and printing; names starting with `_` |
| Kwargs | C03 | `common.py` 308-399 | warnings |
| Tables | C04-C07 | `networks.py` 691-788, 1125-1389; `io.py` 1399-1587; `descriptors.py` 31-83 | type coercion of values, log messages |
| Transfer | C09, C12, C13, C48 | `networks.py` 1466-1675; `io.py` 778-849, 1251-1299, 1591-1670 | standard types, meta data, projections, the file formats themselves |
| Periods | C08, C49 | `components/descriptors.py` 22-61; `descriptors.py` 293-343; `networks.py` 879-901, 1025-1094 | |
| Registry | C14 | `components/types.py` 30-220; `deprecations.py` | units and descriptions |
| Rename | C10 | `components/abstract.py` 618-729 | |
| Equals | C11 | `common.py` 180-305; `networks.py` 394-459 | log modes |
| Topology | C15 | `networks.py` 1701-1790, 1902-1962; `graph.py` 97-164 | carrier warnings |
| Cycles, Kvl | C16-C18 | `graph.py` 22-93, 168-225; `pf.py` 1376-1423; `constraints.py` 669-725 | the algorithm of `cycle_basis` |
| Linflow | C19-C22 | `pf.py` 1108-1200, 1426-1527; `contingency.py` 53-130 | zero impedances (infinite susceptance) |
| Secure | C62, C63 | `abstract.py` 355-454; `contingency.py` 67-136; `constraints.py` 65-83, 111-129 | outages of bridges (infinite factors); several investment periods; sub-networks are treated one by one |
| Mga | C64 | `abstract.py` 513-633; `expressions.py` 573-577 | investment periods; rounding of statistics to 5 digits; variables of unit commitment and modules as weights; `meta` |
| Control | C23 | `pf.py` 1029-1105 | |
| Newton | C24 | `pf.py` 275-317 | the Jacobian (an oracle here, see C55) |
| Jac | C55 | `pf.py` 523-601, 604-612 | writing iterates into the tables |
| Pfout | C56-C58 | `pf.py` 75-125, 150-165, 320-420, 604-657, 740-820, 1464-1535 | solving the power equations (a parameter, see C24-C26, C55); branch flows and shunt powers; several snapshots (each is treated alone) |
| Admit | C25, C26 | `pf.py` 942-986, 1203-1295, 709-742 | |
| Perunit | C65 | `pf.py` 848-937, 990-1024 | zero voltages, ratings and numbers (infinite values); NaN carriers; `update_linkports_component_attrs` |
| Runpf | C68 | `optimization/abstract.py` 713-721 on the controls of C23 (sub-networks and slack generators as found before); set points as in C67 | the optimisation and the power flow themselves, the returned dict; the row without a name that `.loc[None]` adds |
| Shed | C69 | `optimize.py` 749-791 with `networks.py` 1229-1242 (names) and the skipping of names in use; the new rows in the views of C30, C27, C38 with the defaults of `generators.csv` | conversion of scalars and series to one number per bus; the warning for skipped names |
| Setpoint, Setpointkvl | C67 | `optimize.py` 735-747 at one snapshot on the tables of Pfout (C57), as filled by Assign (C39) from a solution of Balance (C30); flows through Kvl and Linflow (C18) with rationals read in an ordered field | shunt `p_set`; that `p_set` and `p` are one object (visible only with `skip_pre=True`) |
| Fix, Fixkvl | C66 | `optimize.py` 720-733; the problem of C27, C29, C38 built before and after | constraints other than dispatch bounds and ramp limits (any condition on operation or on capacities only); committable extendable units |
| Lin, Dispatch, Commit, Ramp, Balance, Storage, Loss | C27-C33, C50 | `constraints.py` 39-390, 393-666, 725-1020; `variables.py`; `optimize.py` 292-311 | the power function of standing losses (a parameter) |
| Cap | C51-C54 | `global_constraints.py` 26-237, 386-521; `constraints.py` 1023-1094; `components/descriptors.py` 22-61 | warnings; whitespace beyond ASCII |
| Rolling, Iter | C34-C36 | `abstract.py` 27-352, 457-510 | logging, the solver (an oracle) |
| Limit | C37 | `global_constraints.py` 240-367 | |
| Objective, Assign | C38, C39 | `optimize.py` 78-209, 336-386, 446-499; `common.py` 39-48 | |
| Angles | C59 | `optimize.py` 503-521 | sub-networks of several investment periods |
| Price | C61 | composition of Objective, Balance, Dispatch, Limit | storage units and stores, committable units (no multipliers in mixed-integer problems), modular capacities |
| Duals | C60 | `optimize.py` 388-443, 453-463, 607-610; `common.py` 39-48; `components/types.py` 95 | constraint arrays over snapshots alone; arrays of three dimensions fail (`to_pandas`) and are skipped |
| Cluster, Stubs | C40-C42 | `clustering/spatial.py` 28-105, 138-596, 957-999 | infinite values; k-means and other busmaps (any busmap is allowed) |
| Stats, Opex | C43-C45 | `statistics/abstract.py` 172-379; `statistics/expressions.py` 43-51, 184-273, 468-471, 1127-1184, 1625-1756 | investment periods in statistics, plotting |
| Market | C70 | `statistics/expressions.py` 2060-2097, 2180-2196, on `statistics/abstract.py` 222-302 for any quantity | as for Stats; missing values in the power and price tables |
| Capfac | C71 | `statistics/expressions.py` 33-41, 54-70, 467-471, 573-577, 674-705, 785-817, 905-934, 1007-1037, 1841-1866, 1947-1971 | as for Stats; time-dependent efficiencies in `port_efficiency` |
| Exprs | C72 | `optimization/expressions.py` 48-627, `statistics/expressions.py` 71-92, 1593-1622 | as for Stats; linopy aligns by label when adding and merging; `nice_names`; losses of lines in the written powers; a coefficient 1/0 * 0 counts as 0 (linopy skips NaN) |
| Stoprice | C73 | no code of its own: the constraints of Dispatch, Storage and Balance and the objective of Objective, with multipliers as in Price (C61) | the multipliers satisfy the optimality conditions (solver); the same device in the four models is related by `same_device` |
| Pypower | C74 | `io.py` import_from_pypower_ppc (1674-1882), on top of Perunit (C65) and Admit | reading the arrays, names of components, columns PyPSA never reads (status, area, costs, angle limits); `ex d` stands for exp(1j d pi / 180), only `ex 0 = 1` is used; a rating of 0 gives inf or NaN there, 0 here, no positive theorem relies on it |
| Pandapower | C75 | `io.py` import_from_pandapower_net (1885-2110), on top of Perunit (C65) and Pypower's record of an imported network | names of loads, generators and branches (so `use_pandapower_index` has no effect here); unknown buses of switches raise in the model, NaN names in the code; `sqrt` of a negative number is 0 after `fillna(0)` as in the code |
| Coarse | C76 | `clustering/spatial.py` get_clustering_from_busmap (470-596) with static data and time series of generators, loads, lines and links, on Cluster (C41); the constraints by Balance (C30) and Dispatch | transformers, storage, shunts, further ports of links, extendable, committable or inactive components; series resulting from an earlier run; lengths and investment costs; global constraints; `with_time=False` |
| Rollu | C77 | `optimize_with_rolling_horizon` (abstract.py 457-510) over the unit commitment of Commit (C28) and the ramp limits of Ramp (C29), each window reading the stored statuses and dispatch (constraints.py 168-187, 417-447) | the solver (any oracle; stored statuses are exactly 0 or 1, a value like 0.9999 would end the count in `cumsum().eq(ref)`); inactive units; extendable capacities, re-optimised per window |
| Group | C78 | groupers carrier, bus_carrier, bus, country, location, unit, name and columns (statistics/grouping.py 91-362), `_get_grouping`, `_aggregate_components`, `_filter_bus_carrier`, `_filter_carrier` (abstract.py 136-157, 222-302, 323-379), concatenation (expressions.py 206-241, 265-269) | the quantity (any function of class, port and asset; C43, C45); `re.search` an oracle; only sums; registered groupers (`add_grouper`), callables and tuples (ValueError); missing carriers raise in a search by pattern, here they do not match; at_port a text or list counts as True (C43); every column whose name starts with "bus" is a port; investment periods; rounding and dropping of zeros |
| Whole | C79 | `create_model` (optimize.py 212-333) put together from Dispatch, Ramp, Commit, Balance, Storage, Limit, Cap, Loss and Objective: all rows, bounds and the objective over one record for assets of all classes; network with all `active=False` components removed | a single period and the first window; Kirchhoff's voltage law an oracle on the passive branches (rows over their own variables, unchanged by deactivated branches: C18); splitting of the balance for strongly meshed buses (same rows, C10); global constraints without period, technology limits without period are skipped; stochastic and multi-period parts; a fixed `p_nom_set` for a non-extendable asset |
| Unit | C80 | (no further code) the network of Whole with all data converted to other units of power and money | as for Whole; conversion of `r_pu_eff` as a per-unit value on a fixed base; lengths, hours and snapshot weightings keep their units |
| Warn | C81 | `check_static_power_attributes`, `check_time_series_power_attributes`, `check_assets`, `check_generators` and the strict mode of `consistency_check` (consistency.py 280-523, 780-880) over the network of Whole | checks for nan and inf; order of classes; the other checks (C46) |
| Order | C82 | nothing new: WholeModel and its parts | the choice of a solver among several optima |
| Stretch | C83 | nothing new: WholeModel and its parts, with Kirchhoff's voltage law as the same list of cycles in every snapshot | storage, unit commitment and ramp limits (refuted or excluded by hypothesis) |
| Island | C84 | nothing new: WholeModel of a network and of its parts at two sets of buses (n[buses], networks.py 1590-1677) | global constraints (excluded by hypothesis, refuted otherwise); that cycles of the network are those of its parts is a hypothesis about Kirchhoff's voltage law |
| Mix | C85 | nothing new: WholeModel | integer variables (excluded by hypothesis, refuted otherwise) |
| Loose | C86 | nothing new: WholeModel | start-up and shut-down ramp limits (both bounds at once, C29); limits of committable units under the linearised commitment |
| File | C87 | CSV, Excel and HDF5 exporters and importers, `_export_to_exporter`, `_import_from_importer` (io.py 99-581, 719-846, 1192-1303) on top of Transfer | number formats and types of what is read; multi-level snapshots; standard types; sheet names longer than 31 characters; positions instead of column names in HDF5; attribute names with a slash |
| Netcdf | C88 | ExporterNetCDF, ImporterNetCDF (io.py 584-715) with `_export_to_exporter`, `_import_from_importer` | types of what is read, compression, float32; a static column named `i` (it would overwrite the coordinate of its class); alignment by xarray is by name |
| Shared | C89 | `types.py` (one attribute table per class and process), `descriptors.py` 421-480, `io.py` 1417-1434 for links, on top of Tables (C05) | order and texts of the attribute table (`update_linkports_doc_changes` is called with its arguments swapped, which only affects descriptions); a column named exactly `bus`; user-registered component types |
| Naming | C90 | the whole problem of C79 (WholeModel) under one-to-one renamings of components (per class) and buses; nothing new of the code is modelled | names of carriers (they stay); Kirchhoff's voltage law enters by a hypothesis (same solutions under the new names); investment periods and user-defined extra functionality |
| Turn | C91 | the whole problem of C79 (WholeModel) with bus0 and bus1 of any lines and transformers exchanged; KirchhoffModel: the rows of `constraints.py` 669-725 over the cycles of `find_cycles` (CyclesModel) as rows of that problem | `nx.cycle_basis` (a parameter that looks at neighbours only, not at directions); branches from a bus to itself (excluded by hypothesis); the linear and non-linear power flow; investment periods and user-defined extra functionality |
| Split | C92 | the whole problem of C79 (WholeModel) with one generator replaced by two shares of it; the voltage law of KirchhoffModel | committable and modular generators and quadratic costs (excluded by hypothesis, two of them refuted); splitting of links, stores and storage units; investment periods and user-defined extra functionality |
| Tree | C93 | `pf.py` 1345-1373 find_tree (TreeModel): tree slack, paths, assignments to T; the loop body shared with find_cycles (CyclesModel) | `nx.minimum_spanning_tree` and `nx.shortest_path` (parameters; hypothesis: edges of the graph, simple paths from each bus to the slack), pandas indices, the sparse matrix format |
| Corridor | C94 | `pf.aggregate_multi_graph` (pf.py 1298-1343) with the order of `MultiGraph.edges()`, `n.lines.loc`, `n.remove("Line", ...)` as removal of the row, the dictionary of aggregated values, `setattr` on the key tuple | -inf and NaN; time series of removed lines (C04); the log message |
| Demand | C95 | nothing new: WholeModel, with the loads exchanged | integer variables for the mixtures (excluded by hypothesis, refuted otherwise) |
| Rise | C96 | nothing new: Price (C61) | optimality of solution and multipliers is a hypothesis on the solver; integer variables |
| Dear | C97 | the whole problem of C79 (WholeModel) with other marginal costs (`optimize.py` 78-209: the terms of `marginal_cost`) | as C79; changes of capital costs (they also change the objective constant); investment periods |
| Check | C46 | `consistency.py` | `calculate_dependent_values` |
| Geo | C47 | `geo.py` 24-157 | projections |

Not modelled at all: plotting and maps, importers from other programs (pypower, pandapower), the command line, web
requests, logging, documentation strings, solver options and status handling.

## Per-property plan

| id | modelled | proof |
|----|----------|-------|
| C01 | options tree as nested association tree with set/get/reset | refinement to a finite map over write histories |
| C02 | `option_context` with arbitrary body and failing enter | case analysis over entry position; refutation for duplicates |
| C03 | `rename_deprecated_kwargs` over keyword dictionaries | induction over alias table |
| C04 | static / dynamic tables, `add`, `remove`, `set_snapshots` as state machine | invariant over op lists |
| C05 | same state machine | extensional equality of tables |
| C06 | `set_snapshots` reindexing | pointwise lookup |
| C07 | `get_switchable_as_dense` | pointwise lookup |
| C08 | `get_active_assets`, `get_activity_mask` | decision rule equivalence |
| C09 | `Network.__getitem__` | membership characterisation; refutation for multi-port links |
| C10 | `rename_component_names` | simultaneous substitution |
| C11 | recursive `equals` on value trees | induction; refutation of symmetry |
| C12 | `merge` | lookup in union |
| C13 | export/import column skipping and default filling | round trip; refutation without the proviso |
| C14 | component type registry | history induction; refutation of name uniqueness |
| C15 | topology with a verified connected-components function | path equivalence |
| C16-C17 | incidence matrix, cycles | list sums; columns are circulations, their number is the cycle rank |
| C18 | KVL constraints | kernel / image duality |
| C19-C22 | B, H, PTDF, LPF, BODF | mathcomp linear algebra over a (real) field |
| C23 | slack and control selection | list induction |
| C24 | Newton-Raphson loop with arbitrary residual/Jacobian oracles | fuel induction |
| C25-C26 | wye-delta, Y matrix | field identities |
| C27-C33 | optimisation constraints as predicates over Q | linear arithmetic, induction over snapshots |
| C34 | rolling-horizon windows and the hand-over of levels | arithmetic induction |
| C35 | discretized capacity | floor arithmetic over Q |
| C36 | iterative expansion updates | telescoping over iterations |
| C37-C39 | global constraint, objective, assignment | sums over lists |
| C40-C42 | clustering | sums over groups; termination and path arguments for stubs |
| C43-C45 | statistics | sums, filters, rounding |
| C46 | consistency checks | each check equivalent to its fault; order and strictness |
| C47 | geo | Coq reals (stdlib axioms) |
| C48 | `Network.copy` | lookup in the copy; refutation of `with_time` |
| C49 | `set_investment_periods` | state machine |
| C50 | tightening of linearised unit commitment | every integral schedule stays feasible; refutations |
| C51 | capacity limits per technology, per bus | sum of capacities class by class, groupby and merge by bus, parsing of column names; refutations |
| C52 | growth limits | `active.cumsum() == 1` is the first active period for assets that outlast it; shift; merge by carrier; refutations |
| C53 | transmission volume and cost limits | carrier list parser correct for all written lists; sums; when a limit is written, skipped, raises |
| C54 | energy sums | equivalence with the weighted sums; bound over windows |
| C55 | mismatch and Jacobian of the AC power flow over the reals (Coquelicot) | chain rule along every differentiable curve; polar form of the residual; refutation for negative magnitudes |
| C56 | set points to nodal powers, ports of links, per-bus sums | regrouping sums per class and port into sums per component |
| C57 | writing solver results back to buses and generators | composed with C23: the controls found there satisfy the conditions for balance |
| C58 | weights per bus, shares per generator, pandas errors as values | shares of a bus sum to one or its weight is zero; composition of both levels is proportional |
| C59 | pseudo-inverse of the Laplacian (four Penrose equations as contract), subtraction of the slack column as pandas does it | kernel of the Laplacian of a connected graph; composed with C18 and C19; existence and uniqueness of the pseudo-inverse |
| C60 | loop over named constraint arrays, tables as partial functions, string splitting | loop invariant: last writer wins; refutations |
| C61 | no new code: objective (C38), nodal balance (C30), limits (C27) and emission limit (C37) with multipliers | stationarity along the variables of one plant; complementary slackness; tangent below a convex objective |
| C62 | selection of outages, templates of the limits, one constraint per bound, affected branch and outage | constraint list as a set; composed with C18 (optimised flows are DC flows), C22 (outage factors) and C19 (uniqueness); equivalence |
| C63 | columns of the result, NaN as `None`, errors as values | composed with C22 and C19; refutation for several sub-networks |
| C64 | budget constraint from the statistics of C44 and the objective of C38; weighted sum of variables | both sides of the budget equal the system cost; the solver's optimum of the new objective as least or greatest element; refutations |
| C65 | type tables, per-unit columns as complex numbers, square root with NaN | scaling of T and pi circuits, composed with C25 and C26; name plate by the norm of complex numbers; refutations |
| C68 | loops over the sub-networks as list folds; least name as `Index.difference` sorts | normal form of the marks, then the spec of C23 on the result; refutations |
| C69 | record of the arguments, one row per view | additional terms of balance, limits and objective; missing power over sign as the completing solution; weak duality as in C61 for the unchanged optimum; C61 merit order for the price |
| C70 | revenue and market value over the aggregation of C43, with any quantity per component and port | entries as sums of price times power; exchange of sums over buses for the settlement; quotient of aligned series; refutations |
| C71 | capacities, expansion, curtailment and capacity factors over the aggregation of C70 | entries as (rounded) sums; rounding is monotone, so factors stay in [0, 1] after rounding; refutations |
| C72 | linear expressions over the solver variables, grouped like C70; their value at a solution against the statistics of the network holding that solution | evaluation commutes with grouping, so both are sums over the same parts; refutations for stores, missing ports, storage supply, dropped classes, transmission sign |
| C73 | optimality conditions restricted to the variables of one storage unit or store; `StorageSpec.comes_from` tells which snapshot passes energy on to which | stationarity at one variable gives the merit order and the value of energy over time, induction along paths gives arbitrage, stationarity in the direction of the device's own solution with complementarity gives recovery; convexity gives the bound for other initial levels |
| C74 | import as a function of the case's tables; MATPOWER's branch model and bus admittance matrix written independently | lookup of levels, each branch entry by entry, sums over lines and transformers joined; `_refuted` for charged and unrated transformers |
| C75 | import as a function of pandapower's tables; merging of buses as an equivalence relation, lines and name plates by pandapower's documentation | rows related one by one (Forall2), lookup by id against lookup by name; `_refuted` for the seven deviations below |
| C76 | clustering and both problems as functions; production, transfer and costs defined on the tables; a solution of the coarse problem constructed from one of the fine problem | rows of the result related to their members (Forall2), balances added over the buses of a cluster; `_refuted` by four networks computed in full |
| C77 | windows, hand-over and constraints of each window as functions; the claim on the stored results after the last window against respects_up, respects_down and the one-shot constraints | invariant of the loop over what has been covered: history read backwards equals the schedule, its leading run the time since the last transition; `_refuted` by two runs |
| C78 | filters and groupers as functions on tables of text; what is selected and under which key as relations on the tables | one sum over entries whose key satisfies a predicate, carried through grouping, concatenation and classes; the corollaries compare two such sums; `_refuted` by a small grid |
| C79 | the whole problem of a network and of the network without deactivated components; feasibility, cost and optimality over all solutions | masked families are equal lists, the rest (capacity rows, balance, limits) differ by rows on own variables or by absent labels; every label of the problem belongs to an asset in it, so values of deactivated capacities can be exchanged; `_refuted` by networks of two assets |
| C80 | the whole problem before and after conversion, over all solutions | both problems have the same rows with the same labels (`Forall2`); per row a factor, the unit of the row, relates coefficients and right-hand sides; positive factors keep every `<= 0`, `== 0` test in the code; pieces of the objective likewise with the unit of money |
| C81 | lists of messages against the data; consequences of each message for every solution of the whole problem; without messages a point that meets all capacity and dispatch rows | the two rows of the named asset contradict each other, wherever they stand in the problem; the point puts every capacity at its lower limit and every dispatch at its lower bound; `_refuted` by networks of two assets |
| C82 | feasible, optimal and cost of WholeModel for two networks whose tables are permutations of each other | relation between rows: same sense, equal right-hand side, terms permuted; every part of the reordered problem covers the rows of the original one and vice versa; pieces of the objective likewise |
| C83 | WholeModel of a network n and of the network over T snapshots where snapshot t has the data of snapshot rep t of n | every row is either one per snapshot (the fine rows are the coarse rows with another snapshot), or free of snapshots, or a weighted sum over all snapshots; repeating and averaging preserve each kind; Jensen's inequality for quadratic costs; concrete networks for the two refutations |
| C84 | WholeModel of a network and of its two parts | every list of rows has the members of the lists of both parts; balances of a bus have the terms of its side; variables belong to one asset, hence to one side; the costs are sums over assets; concrete networks for the two refutations |
| C85 | WholeModel | rows are linear, bounds are intervals, costs are linear or squares with non-negative coefficients; concrete networks for the refutations |
| C86 | WholeModel | each row of the looser problem follows from a row of the tighter one, given non-negative capacities and statuses; concrete networks for the refutations |
| C87 | FileModel: a store maps file names (sheets, keys) to contents; export is a sequence of assignments and removals, import reads by name and by prefix | what an export does to each name (`effect`), names of different classes never meet (string lemmas), reading depends on these entries only; with C13 for the values |
| C88 | NetcdfModel: one flat dictionary of variables and one of coordinates; a class is found again by the prefix of the variable name | the variables a prefix picks out are exactly those of the class (string lemmas, `view`); a table written by columns has the same keyword arguments as the table, so the import is that of a CSV folder (C87) |
| C89 | SharedModel: a process is the attribute table and a list of networks; `n.add("Link")` may extend the table | simulation between two runs that start from tables agreeing on what the package knows: every operation keeps rows and frames of known attributes equal (`step_sim`), induction on the program; exactness without new ports since then nothing is registered and filling NaN twice is filling it once |
| C90 | NamingSpec: `renamed` gives new names to all assets, loads, buses and bus columns; `old_names` reads a solution back through the variables' labels | each sub-model commutes with renaming: rows of the renamed network are the renamed rows (`map rcon`), balances because bus comparison is preserved, limits and columns by views; the objective piece by piece; domains directly; optimality since every old solution is the reading of a new one |
| C91 | TurnSpec: `turned` exchanges the ends of the chosen lines and transformers and the sign of their s_set; `against` reads a solution with those flows counted the other way | rows without flows are unchanged and do not see the reading (`still`); bounds, ramping and s_set rows of branches exchange their lower and upper sides (`branch_turn`); the loss tangents come in pairs for both signs; the balances agree as sums over both ends of each branch, and are missing for the same buses (`reach`); the objective has no flows of branches; optimality since turning twice is no change. First for any voltage rows that follow the branches, then `C91_kirchhoff` shows it for the rows of the code: signs in the columns change with the branch (`walk_flip`), a column of parallel branches may change sign as a whole (`multi_flip`) |
| C92 | SplitSpec: `part` is a share of a generator, `split` puts two parts in place of the generator; `joined` adds dispatch and capacity of both parts, `shared` shares them out | a row per generator is linear in the variables of this generator with a right-hand side in proportion to the share (`family`), so two rows of the parts add up to the row of the whole and the row of the whole times the share is the row of a part; sums over generators (balances, limits, costs) are equal (`eval_flat`), and empty for the same networks (`live_flat`); all other rows are the same and do not read the changed variables (`still`) |
| C93 | TreeSpec: `walks` and `simple_path` over undirected edges, `radial`, `leaving` (net outflow of a bus), `along` (flows T p) | the outflow of a path telescopes (`walk_telescope`); a simple path uses no branch twice (`column_nodup`), so assignments are sums (`assigned_entry`); without cycles the paths of both ends of a branch differ by this branch (`tree_step`), so T is a left inverse of the incidence matrix (`row_sum`) |
| C94 | CorridorSpec: `parallel` (two edges with the same ends), `conductance`, `susceptance`, `flow`, `within` | the loop stops at the first pair of buses with two keys (`over_first`), every edge is listed from one of its ends, so parallel branches are met; values by sums over the lines in Q, ratio and critical angle as hypotheses; witnesses for the rest |
| C95 | DemandSpec: `same_demand` (equal net demand at every bus and snapshot), `mixed_demand`, `merged` | a solution is feasible exactly if it satisfies all rows but the balances (which do not read the loads) and the balance of every bus and snapshot equals the net demand (`feasible_core`); then `eval_mix`, `sat_mix`, `domains_mix`, `cost_mix` of C85 |
| C96 | PriceSpec (C61): `kkt`, `demand`; nothing new | the lower bound on the costs for other loads (`C61_load`) from either side, added up; one bus and snapshot by itself leaves one term of the sum |
| C97 | DearSpec: `repriced` gives other marginal costs, `extra` is what a solution then costs more | the rows are the same (`create_s`: no view but that of the objective reads marginal costs), so feasibility is; the costs by the formula of C38; optimality of each solution tried on the other; one asset by itself leaves one term; concavity since a mixture of costs costs the mixture (`extra_blend`) |
| C67 | tables of one sub-network after optimising, set points, then lpf or pf of C57 | row by row against the nodal balance of C30; sums over the sub-network; flows by uniqueness (C18); refutations |
| C66 | rows of the three views after the call, problem as limits and objective | exchange of capacities and operation between solutions, with the meaning of C27, C29 and the value of C38; refutations |

## Defects

Behaviour of the code that contradicts its documentation or what a user relies on. `(R)`: proved as a `…_refuted`
theorem of the property; the others were noticed while reading.

**Options and keywords.** `option_context` given the same name twice does not restore the outer value (C02, R).

**Tables.** `n.add` of an existing name without `overwrite` keeps the static row, but a time series passed along takes
effect (C05, R); with `overwrite=True` a static value leaves a stale series in force (C05, R). A custom series is dropped by a second `add`
without `overwrite`, and replaces the whole table with it (C05, R). `set_snapshots([])` raises after `_snapshots` is already
replaced (C04, R). Suffix handling of names compares with `endswith` inconsistently.

**Copies, slices, merging, files.** `Network.copy(with_time=…)` is reversed (C48, R). Slicing keeps links whose third
bus is gone (C09, R). `merge` loses custom series both networks have (C12, R) and ignores "Bus" in
`components_to_skip`. Export loses a series that equals the default over a non-default static value (C13, R); import
fills a static NaN with the default; stale CSV files of earlier exports stay; custom weighting columns are lost.

**Renaming, registry, equality.** `rename_component_names` accepts mappings that join two names and raises KeyError half-way for classes
other than Bus (C10, R). The check for unique type names is ineffective and a type is replaced silently (C14, R).
`equals` compares the keys of its first argument only, so it is not symmetric; `{}` equals `[]`, lists equal tuples, empty
frames are all equal (C11, R).

**Topology and power flow.** `adjacency_matrix` overwrites `no_branches` with each class, so usable lines are forgotten if
the class visited last has no usable branch (C15, R). An inactive branch belongs to the sub-network of bus0 (C15, R). KVL
constraints ignore phase shifts and are wrong with inactive branches in a cycle (C18, R). Negative reactances make
the Laplacian singular (C20, R). `find_slack_bus` may choose an inactive generator, and the `generator` column of
buses goes stale (C23, R). With a NaN tolerance a power flow is reported as converged (C24, R). After an iterate with a negative voltage magnitude the Jacobian is wrong (C55, R). Links that are switched off
still carry their set point in pf and lpf (C56, R). A generator that is switched off can become slack generator, and one with
sign -1 moves the wrong way; lpf without generator reports power nobody provides; a single bus whose set points are all
zero is reported as balanced (C57, R). Distributed slack: a zero `p_nom` raises AttributeError (`all(x) == 0`, then
`(1).pipe`), a dict of generator weights TypeError, weights for some generators KeyError; shares of inactive generators and of
buses without generators are lost; `p_nom_opt` is ignored within a bus; on a single bus `p_nom` gives NaN (a Series over
generators times a Series over snapshots) and custom weights raise ValueError (C58, R). `optimize_security_constrained` rejects every MultiIndex of outages, since it is an Index too, and fails
if a sub-network with an outage has a switched-off branch (C62, R). `lpf_contingency` fails without snapshots or with an Index of them, fails
if some bus has no passive branch, and reports NaN for all other sub-networks (C63, R). Also: `pf.py` 797 tests
`all(...) == 0`; links' `active` is ignored in `pf`; BODF rows are misaligned with inactive branches; `np.multiply(where=…)` leaves
`p_branch_shift` uninitialised where b is infinite; `x_pu_eff` of T-model transformers is taken before the conversion;
`incidence_matrix` raises without branch classes.

**Unit commitment and ramps.** In later windows a unit with `min_up_time = 0` counts as previously off: spurious start-up cost, minimum
down time violated (C28, R). The tightening of linearised commitment has a sign error in the "partly-shut-down" term
and uses the wrong upper bound (C50, R). Ramp limits of one or NaN return early and drop start-up limits; committable units
ignore time-dependent ramp limits; committable ramp-up forces dispatch before a shut-down, ramp-down after a start (C29, R).

**Balance, storage, losses.** Components and loads at unknown buses vanish from the balance (C30, R). The initial level is not
decayed, default per-period flags refill a store each period, cyclic with per-period initial cycles per period (C31, C32, R).
An idle line may report its largest loss (C33, R).

**Rolling horizon, expansion.** Standing loss is skipped at window starts; initial levels stay changed; a negative overlap skips
snapshots (C34, R). `discretized_capacity` with threshold 0 exceeds `nom_max`, refuses the next multiple and is not
monotone (C35, R). Iterative expansion starts from `s_nom_opt = 0` (x = 0), zero capacity gives NaN, `min_iterations` is off by
one (C36, R); capacities of fixed lines stay discretised and their capital cost enters `n.objective` (C36, R).

**Limits and costs.** Refilled stores count once, a single-period limit counts earlier depletion, an inactive store counts as fully
released (C37, R). Start-up costs are not weighted with the period and dropped if they sum to zero; spill cost without inflow raises (C38,
R). With losses, flows of earlier windows and of inactive lines are NaN; transformer losses are not reported; inactive
loads appear in `buses_t.p` (C39, R). `Z -= Z[slack]` aligns with columns, so the slack angle is not zero after `optimize` (C59, R).
Multipliers `mu_*` of series type are looked up among static columns and never assigned by default; those of a storage unit
overwrite each other; stale prices are divided again (C60, R). `mu_*` are not divided by the weighting, prices are; `mu_upper` of lines is
documented as non-negative, the multiplier of an upper limit in a minimisation is non-positive.

**Per unit.** Typed transformers keep `s_nom` of one device whatever `num_parallel` is, and overwrite a given `s_nom`; lines between buses of different `v_nom` are
accepted and use the first bus; `vsc` below `vscr` gives NaN (C65, R). `apply_line_types` leaves `g` as it is, so it is not multiplied by `num_parallel`.

**Optimise and run power flow.** `optimize_and_run_non_linear_powerflow` makes one generator per sub-network PQ "so that Jacobian doesn't break", but the
generator may share its bus with others that stay PV, so no bus need be PQ; a sub-network without generators adds a nameless row to the generator table; the
set points, loads included, of snapshots that were not optimised are overwritten by zero (all C68, R). The function returns a dict with the misspelt key
`terminantion_condition` where a tuple is documented (by reading).

**Optimisation expressions.** `expressions.energy_balance` takes the energy level of stores for their power, and counts output at ports which a link does not have
(C72, R). Its supply and withdrawal clip coefficients, so charging is negative supply (C72, R). `expressions.capacity`, `capex` and `curtailment` leave out a class without
extendable assets, fixed capacities included; `capex` reads `p_nom` for every class, so lines, transformers and stores are left out by default (C72, R).
`expressions.transmission` has the opposite sign of the statistic; `expressions.curtailment` counts links (C72, R).

**Curtailment and capacity factor.** `curtailment` is documented to consider only assets with a `p_max_pu` series, but counts every generator and every
storage unit (C71, R). `capacity_factor(at_port=True)` divides by capacities whose input side is negative, so links get negative factors and lines NaN (C71, R).

**Market value.** A group with supply but zero revenue gets NaN instead of 0, as zero entries are dropped before dividing (C70, R). For storage, purchases are
subtracted in the numerator but only sales count in the denominator, so the value can lie below every price (C70, R). Revenues of a balanced network do not
add up to zero when snapshot weightings differ between classes (C70, R).

**Load shedding.** `add_load_shedding` adds the carrier `Load` but gives the new generators the carrier `load`, which stays unknown; it makes up for shortages
only, so a must-run surplus stays infeasible (C69, R). A second call with other costs changes nothing but returns the names as if it had (C69_again).

**Fixed dispatch.** `fix_optimal_dispatch` followed by `lpf` reproduces the optimum only without shunt conductance (the optimisation ignores shunts) and
without transmission losses (lpf is lossless, so the slack generator loses exactly the losses of its sub-network) (C67, R).

**Fixed capacities.** After `fix_optimal_capacities` a `<nom>_set` raises KeyError (the variable does not exist any more), a network with capital costs only
cannot be optimised, tangents of losses move from `s_nom_max` to the capacity and can exclude the optimal dispatch, impedances of transformers
change with `s_nom`, so the flows found before violate the voltage law; a transformer with a type gets the rating of the type back (all C66, R).

**Capacity limits.** A `tech_capacity_expansion_limit` without `investment_period` is dropped by `groupby` (C51, R). A limit for a bus without
such assets raises KeyError (C51, R). Expressions of classes with equally many buses (carriers) are merged by position in
linopy versions that use `join="override"` for equal sizes, so limits count foreign assets (C51, C52, R; `override` is a
parameter of the model). A misspelt `nom_max_...` column raises with investment periods (C51, R); a minimum at a bus without assets
is dropped (C51, R). `active.cumsum() == 1` stays true after an asset that lived for one period retired (C52, R). The cost limit for transmission
uses `period_weighting` that is assigned under `n._multi_invest` only (C53, R).

**Clustering.** Further ports of links are not mapped, transformers between clusters vanish, aggregated names can clash, components
at unmapped buses vanish (C41, R). Lines at unmapped buses are grouped under "nan"; `align_strategies` changes its argument;
`weighted_min` always divides `p_nom_max`; the `buses` filter is or-ed with the carriers.

**Alternatives.** `optimize_mga` takes the optimal cost from the statistics, which omit links and weight generators differently, so the budget can exclude
the optimum itself; so it does when the cost is negative. Quadratic costs raise. A Series or dict of weights for a variable over snapshots raises
(`Series.reindex(columns=...)`). A second run relaxes the budget again (all C64, R).

**Statistics.** `opex` omits all links and weights generators and stores with the wrong weighting (C44, R). The energy balance of a bus is not zero
when weightings differ (C43, R). `drop_zero=False` drops zeros (C45, R). A list for `at_port` counts as True; `round=None` falls
back to 5 digits; aggregations other than sum ignore weights.

**Consistency.** The key "unkown_carriers" makes strict carrier checks impossible (C46, R). A custom column `bus_region` of a branch
raises ValueError (C46, R); a global constraint without bus beside one with a bus stops `optimize` (C46, R); a strict period check raises
ValueError instead of ConsistencyError (C46, R); "all" together with unknown words is accepted; line ratings `s_max_pu` are not checked.

**PYPOWER import.** Transformers take the default circuit model `t`, but the case means a pi circuit: with charging (`b` other than 0) the admittance matrix differs (C74, R; the factor is in
`C74_charged`). A transformer with rating 0, PYPOWER's sign for unlimited, is imported with impedance 0 and susceptance inf or NaN, unless `overwrite_zero_s_nom` is given; the warning only mentions
infeasibilities (C74, R). Branches and generators out of service are imported in service; a warning says that status is not supported. Isolated buses (type 4) raise IndexError.

**pandapower import.** With `extra_line_data` lines keep impedance, capacitance and limit of a single system though `num_parallel` is set (PyPSA reads `num_parallel` only with a type), and the
limit lacks the factor of square root 3 (C75, R twice; factors in `C75_lines_extra`). Transformers without type get impedances in per unit of 1 MVA while `s_nom` is kept as base, the iron losses
are divided by the rating twice and the magnetising susceptance comes out capacitive, against `apply_transformer_types` (C75, R). Shunts drawing reactive power deliver it (C75, R). If one transformer has
a type, those without get type "0", and power flow raises (C75, R). Closed bus switches in a row leave components at removed buses (C75, R), two switches with the same element raise KeyError
(`C75_defined`), and the set point of generators or external grids at a merged bus is lost (C75, R). The warning announces that switches and status are not supported, but bus switches are merged.

**Clustering and optimisation.** Aggregated generators get the capacity-weighted mean of their marginal costs, so that merging a cheap and a dear one may raise costs (10 to 50 in `C76_cost_refuted`): the clustered
optimum is a lower bound only where costs agree. A `p_set` series of one member fixes the sum of all (the static `p_set` of the others counts as schedule although alone it has no effect), and the clustered
network is infeasible (C76, R). Dropping lossy links inside a cluster removes the losses but also the sink (C76, R). Merging buses that are not neighbours closes loops, in which the voltage law forbids what was
possible before (C76, R).

**Rolling unit commitment.** A run in windows breaks `min_down_time` of units with `min_up_time = 0` and stores no shut-down (C77, R). Later windows count only snapshots of the run and forget `up_time_before`:
with windows shorter than `min_up_time` a unit long in operation must stay on although the whole-horizon problem lets it stop (C77, R).

**Statistics by carrier and country.** `carrier="gas"` counts assets of that carrier, but in classes (and at ports) without one it searches for the text: "gas boiler" is counted until some link of carrier "gas" is added (C78, R).
Transformers have no carrier and pass every carrier filter (C78, R). Assets at buses without a country (or at no known bus) vanish from a grouping by country, so totals depend on the grouping (C78, R).

**Deactivated is not removed.** A component with `active=False` still takes part where a function does not ask for activity: ramp limits are skipped only if those of all generators, deactivated ones included, are one (or missing), so a deactivated generator brings the limits of the others to life; bounds on the capacity of deactivated extendable assets stay in the problem and may be contradictory; limits on transmission volume and cost and `nom_min_`/`nom_max_` columns of the buses count their capacity; limits on primary energy and operation subtract their initial levels; `transmission_losses` raises for a deactivated extendable line without upper bound; spillage costs of a deactivated storage unit raise a KeyError where no unit has an inflow (C79, R).

**Contradictions the consistency check does not report.** `check_time_series_power_attributes` looks at `p_max_pu`/`e_max_pu` against `*_min_pu` only: a negative `s_max_pu` of a line or transformer (bounds are `-s_max_pu`, `s_max_pu`) and a storage unit with `p_min_pu > 0` (bounds of `p_store` are `0`, `-p_min_pu`) pass unnoticed and make the problem infeasible. `check_generators` looks at generators only: a committable link with `up_time_before` and `down_time_before` both positive passes unnoticed, too. `check_static_power_attributes` also reports assets that are not extendable, where the limits have no effect (C81, R).

**Looser is not always better.** With transmission losses a larger `s_nom` moves the tangents and can raise the losses assumed, hence the cost (C86, R). Giving up the ramp limit of one generator
makes the limits of one of all others of its class binding, as the early return of `define_ramp_limit_constraints` no longer applies (C86, R; C84, R).

**Stale files after an export (C87, io.py 271-275).** `ExporterCSV.remove_static` globs `<folder>/<list_name>/*.csv`, a sub-folder, instead of `<folder>/<list_name>*.csv`. The table of a class that has lost all its components stays in the folder, and its series too (an empty class is left by `continue` before its series are looked at). Reading the folder brings the components back (`C87_csv_removed_refuted`) or fails on the number of rows (`C87_csv_unreadable_refuted`). If the sub-folder exists its files are deleted and then `', '.join` of paths raises `TypeError` (`C87_csv_subfolder_refuted`). Series of attributes the new network does not know stay in CSV folders and Excel workbooks (`C87_own_series_refuted`). A file without buses is read as an empty network (`C87_no_bus_refuted`).

**Columns starting with `t_` in netCDF files (C88, io.py 631-651).** Static columns are stored as `<list>_<column>` and frames as `<list>_t_<attribute>`. A static column of the user's own named `t_...` (say `t_amb`) is exported without complaint and then taken for a frame by `get_series`, where `df.columns` of a Series raises AttributeError: the file cannot be read. The same network survives CSV. `C88_t_column_refuted`.

**Link ports leak between networks (C89, descriptors.py 421-460).** `n.components["Link"]["attrs"]` is one DataFrame for the whole process and is extended in place. After any network gets a link with `bus2`, (a) every network created later has frames `efficiency2` and `p2` from the start and compares unequal to one from a fresh process (`C89_later_refuted`); (b) a network created earlier gets columns `bus2` and `efficiency2` at its next `n.add("Link", ...)`, NaN for its older links, but no frame `p2`, so `n.pf()` and `n.lpf()` raise KeyError in `allocate_series_dataframes` (`C89_earlier_refuted`).

**No efficiency2 for the first link with a third port (C89, io.py 1419-1423).** `static_attrs` is taken from the table before the new ports are entered, so the first `n.add("Link", ..., bus2=...)` of a process leaves no column `efficiency2` unless it is passed: `get_switchable_as_dense` raises KeyError in `optimize` and `lpf`. After a further link the column exists, with NaN for the first one (`C89_first_port_refuted`). The tests pass `efficiency2` wherever they solve.

**A bus with the empty name (C90, constraints.py 632).** `cbuses != ""` drops the ports of links that are not connected. A bus named `""` is a row of the bus table like any other, but links do not reach it through further ports: a load there makes create_model raise "Empty LHS with non-zero RHS" (`C90_empty_name_refuted`). A limitation of the convention rather than a defect.

**Links have a direction (C91).** Exchanging bus0 and bus1 of a link is another network: `p_min_pu` is 0 by default and the efficiency applies at bus1. `C91_links_refuted` gives a network that can be solved in one direction only. Intended, recorded as the limit of the property.

**Some generators cannot be split (C92).** With quadratic costs two halves at half the dispatch cost half as much (`C92_quadratic_refuted`), and with unit commitment one half may run while the other is off (`C92_committable_refuted`). Both intended, recorded as the limits of the property.

**T may use other branches than the tree (C93).** `find_tree` looks up the branch of a step as the first key of `graph[u][v]` (`pf.py` 1370), while `nx.minimum_spanning_tree` keeps the parallel branch of lowest weight. With parallel branches `sub_network.T` and `sub_network.tree` can name different ones (`C93_parallel_refuted`). The balance properties hold regardless.

**aggregate_multi_graph removes lines and then raises (C94).** `rep = line_objs[0]` is the key `(component, name)` of an edge, and
`setattr(rep, key, value)` on a tuple raises AttributeError (pf.py 1330-1333). By then `n.remove` has taken all but one of the parallel
lines out of the network, and the one that stays has none of the aggregated values: the corridor has lost capacity and admittance. The
names are looked up in `n.lines` whatever the component, so parallel transformers give KeyError or hit lines of the same names.
`r` and `x` are combined one by one, which is not the parallel impedance unless all have the same ratio; the sum of `s_nom` admits
overloads of single lines; `capital_cost` is a plain mean while `s_nom` is summed.

## Mutation tests

`seeded/LOG.jsonl` records wrong variants of the model's definitions: the edit, the claim it breaks, the theorems that failed, and
the theorems added or tightened when a variant went unnoticed. Variants that turned out to be equivalent programs say so.
No variants are logged under C20, C86 and C94 to C97; those of C91 stop at the dispatch limits (losses and objective not varied there).
