From Coq Require Import List String Bool QArith ZArith Arith.
From Verif Require Import LinModel WholeModel IdleSpec IdleProofs.
From Verif Require ObjectiveModel.
Import ListNotations.
Open Scope string_scope.
Open Scope list_scope.
Open Scope Q_scope.

(* C79: setting active to False is as good as removing the component. A solution of the problem with deactivated assets is a
   solution of the problem without them, together with capacities of the deactivated extendable assets within their own bounds *)
Theorem C79_feasible : forall kvl n x, well_named n -> detached n -> cycles_intact kvl n -> in_operation n ->
  (feasible kvl n x <-> feasible kvl (removed n) x /\ idle_capacities n x).
Proof. exact feasible_removed. Qed.
Print Assumptions C79_feasible.

(* C79: the costs agree *)
Theorem C79_cost : forall kvl n x q q', well_named n -> costs_sane n -> feasible kvl n x -> cost n x = Some q -> cost (removed n) x = Some q' -> q == q'.
Proof. exact (fun kvl n x q q' WN CS F => cost_removed n x q q' WN CS (const_of kvl n x F)). Qed.
Print Assumptions C79_cost.

(* C79: an optimum with deactivated assets is an optimum without them *)
Theorem C79_optimal : forall kvl n x, well_named n -> detached n -> cycles_intact kvl n -> in_operation n -> costs_sane n -> define_objective (removed n) <> None ->
  optimal kvl n x -> optimal kvl (removed n) x.
Proof. exact optimal_removed. Qed.
Print Assumptions C79_optimal.

(* C79: and an optimum without them extends to one with them, all else equal, if their capacities have a value at all *)
Theorem C79_back : forall kvl n x y, well_named n -> detached n -> cycles_intact kvl n -> in_operation n -> costs_sane n -> define_objective n <> None ->
  idle_capacities n x -> optimal kvl (removed n) y -> exists z, optimal kvl n z /\ same_operation n z y.
Proof. exact optimal_restored. Qed.
Print Assumptions C79_back.

(* C79: the objectives are defined once something in operation has costs or can be extended, unless only deactivated
   storage units have an inflow and some storage unit has spillage costs *)
Theorem C79_defined : forall n,
  (exists a, In a (assets n) /\ flag a = true /\ (ext a = true /\ In (cls a) classes \/
    In (cls a) ["Generator"; "Link"; "Store"; "StorageUnit"] /\ exists t, (t < nsnaps n)%nat /\ ~ marginal a t == 0)) ->
  (forall a t, In a (assets n) -> cls a = "StorageUnit" -> (t < nsnaps n)%nat -> ~ spill_cost a t == 0 ->
    exists b s, In b (assets n) /\ cls b = "StorageUnit" /\ flag b = true /\ (s < nsnaps n)%nat /\ 0 < inflow b s) ->
  define_objective n <> None /\ define_objective (removed n) <> None.
Proof. exact objectives_defined. Qed.
Print Assumptions C79_defined.

Example C79_ex : usual fine_net /\ detached fine_net /\ costs_sane fine_net /\ optimal no_kvl fine_net fine_x /\ optimal no_kvl (removed fine_net) one_x /\
  define_objective fine_net <> None /\ define_objective (removed fine_net) <> None /\ idle_capacities fine_net fine_x /\ ~ idle_capacities fine_net one_x /\
  cost fine_net fine_x = Some 2 /\ cost (removed fine_net) fine_x = Some 2.
Proof. exact fine_case. Qed.

(* C79: outside the conditions. A deactivated generator without ramp limits makes those of the others count that were left out
   for being one: a dispatch from 1 to -1 is refused *)
Theorem C79_ramps_refuted : usual ramp_net /\ feasible no_kvl (removed ramp_net) ramp_x /\ idle_capacities ramp_net ramp_x /\ ~ exists y, feasible no_kvl ramp_net y.
Proof. exact ramp_refuted. Qed.
Print Assumptions C79_ramps_refuted.

(* C79: a deactivated generator with contradictory bounds on its capacity makes the problem infeasible *)
Theorem C79_bounds_refuted : usual range_net /\ detached range_net /\ feasible no_kvl (removed range_net) one_x /\ ~ exists y, feasible no_kvl range_net y.
Proof. exact range_refuted. Qed.
Print Assumptions C79_bounds_refuted.

(* C79: a deactivated line counts towards a limit on transmission volume *)
Theorem C79_volume_refuted : usual volume_net /\ feasible no_kvl (removed volume_net) three_x /\ idle_capacities volume_net three_x /\ ~ exists y, feasible no_kvl volume_net y.
Proof. exact volume_refuted. Qed.
Print Assumptions C79_volume_refuted.

(* C79: a deactivated generator counts towards the limit on capacity at a bus *)
Theorem C79_columns_refuted : usual column_net /\ feasible no_kvl (removed column_net) three_x /\ idle_capacities column_net three_x /\ ~ exists y, feasible no_kvl column_net y.
Proof. exact column_refuted. Qed.
Print Assumptions C79_columns_refuted.

(* C79: the initial level of a deactivated store counts towards a limit on operation *)
Theorem C79_levels_refuted : usual level_net /\ feasible no_kvl (removed level_net) one_x /\ idle_capacities level_net one_x /\ ~ exists y, feasible no_kvl level_net y.
Proof. exact level_refuted. Qed.
Print Assumptions C79_levels_refuted.

(* C79: with transmission losses, a deactivated line without an upper bound on its capacity raises *)
Theorem C79_losses_refuted : usual loss_net /\ feasible no_kvl (removed loss_net) one_x /\ idle_capacities loss_net one_x /\ create_model no_kvl loss_net = None.
Proof. exact loss_refuted. Qed.
Print Assumptions C79_losses_refuted.

(* C79: a deactivated storage unit with a spillage cost raises where no storage unit has an inflow *)
Theorem C79_spill_refuted : usual spill_net /\ feasible no_kvl (removed spill_net) one_x /\ cost (removed spill_net) one_x = Some 1 /\ create_model no_kvl spill_net <> None /\ define_objective spill_net = None.
Proof. exact spill_refuted. Qed.
Print Assumptions C79_spill_refuted.
