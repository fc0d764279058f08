From Coq Require Import List String Bool QArith Lqa Lia ZArith.
From Verif Require Import LinModel LinProofs FixModel FixSpec FixProofs.
From Verif Require DispatchModel DispatchProofs DispatchSpec RampModel ObjectiveModel ObjectiveSpec LossModel.
Import ListNotations.
Open Scope string_scope.
Open Scope list_scope.
Open Scope Q_scope.

(* ---------- C66: dispatch at fixed optimal capacities ---------- *)
(* rows: capacity set to the optimal one, not extendable any more, nothing else changes *)
Theorem C66_rows : forall x g, Forall2 (fun a a' => same_row a a' (DispatchModel.nom_opt (g_cls g) (g_nattr g) x a)) (g_rows g) (g_rows (fix_group x g)).
Proof. exact rows_fixed. Qed.
Print Assumptions C66_rows.
Theorem C66_cost_rows : forall x n, ObjectiveSpec.known n ->
  Forall2 (fun a b => same_costs a b (ObjectiveSpec.capacity x a)) (ObjectiveModel.assets n) (ObjectiveModel.assets (fix_costs x n)).
Proof. exact costs_fixed. Qed.
Print Assumptions C66_cost_rows.
(* a second call changes nothing, whatever has been solved in between *)
Theorem C66_again : forall x x' pb, fix_optimal_capacities x' (fix_optimal_capacities x pb) = fix_optimal_capacities x pb.
Proof. exact again. Qed.
Print Assumptions C66_again.

(* the operations allowed at fixed capacities are exactly those that were allowed together with these capacities; costs
   differ by those of the expansion *)
Theorem C66_same_operation : forall pb P G x b b', proper pb -> operational P -> structural G -> build pb = Some b -> build (fix_optimal_capacities x pb) = Some b' ->
  solution pb (fst b) (fun s => P s /\ G s) x -> forall y z, with_capacities x y z ->
  (solution (fix_optimal_capacities x pb) (fst b') P y <-> solution pb (fst b) (fun s => P s /\ G s) z) /\
  ObjectiveModel.value_of z (snd b) == ObjectiveSpec.expansion (costs pb) x (ObjectiveModel.annual (costs pb)) + ObjectiveModel.value_of y (snd b').
Proof.
  intros pb P G x b b' PR OP SG B B' S0 y z W. split.
  - exact (solution_fixed pb P G x b b' PR OP SG B B' y z S0 W).
  - exact (value_split pb P G x b b' PR B B' y z S0 W).
Qed.
Print Assumptions C66_same_operation.
(* the optimal dispatch stays optimal; every optimal dispatch belongs to an optimum of the expansion problem *)
Theorem C66_optimal : forall pb P G x b b', proper pb -> operational P -> structural G -> build pb = Some b -> build (fix_optimal_capacities x pb) = Some b' ->
  optimum pb b (fun s => P s /\ G s) x ->
  optimum (fix_optimal_capacities x pb) b' P x /\
  forall y z, optimum (fix_optimal_capacities x pb) b' P y -> with_capacities x y z -> optimum pb b (fun s => P s /\ G s) z.
Proof.
  intros pb P G x b b' PR OP SG B B' M. split.
  - exact (fixed_optimum pb P G x b b' PR OP SG B B' M).
  - intros y z Y W. exact (fixed_converse pb P G x b b' PR OP SG B B' y z M Y W).
Qed.
Print Assumptions C66_optimal.
(* such further conditions on the operation are constraints without capacities, e.g. nodal balances *)
Theorem C66_operational : forall cs, (forall c q v, In c cs -> In (q, Some v) (lhs c) -> ~ decides_capacity v) -> operational (fun x => sat x cs).
Proof. exact constraints_operational. Qed.
Print Assumptions C66_operational.
Theorem C66_builds : forall x pb, (exists b, build (fix_optimal_capacities x pb) = Some b) <->
  (forall g a, In g (groups pb) -> In a (g_rows g) -> DispatchModel.nom_set a = None) /\ exists ps, ObjectiveModel.objective (fix_costs x (costs pb)) = Some ps.
Proof. exact builds. Qed.
Print Assumptions C66_builds.

(* ---------- examples ---------- *)
Definition gen (set : option Q) : DispatchModel.asset :=
  {| DispatchModel.name := "g"; DispatchModel.nom := 2; DispatchModel.nom_min := 1; DispatchModel.nom_max := Some 30; DispatchModel.nom_set := set;
     DispatchModel.nom_mod := 5; DispatchModel.ext := true; DispatchModel.com := false; DispatchModel.active := fun _ => true;
     DispatchModel.min_pu := fun _ => 0; DispatchModel.max_pu := fun _ => 1; DispatchModel.max_hours := 1; DispatchModel.fix_set := fun _ => None |}.
Definition cost (c m : Q) : ObjectiveModel.asset :=
  {| ObjectiveModel.a_class := "Generator"; ObjectiveModel.a_name := "g"; ObjectiveModel.a_flag := true; ObjectiveModel.a_in := fun _ => true; ObjectiveModel.a_on := fun _ => true;
     ObjectiveModel.a_ext := true; ObjectiveModel.a_com := false; ObjectiveModel.a_nom := 2; ObjectiveModel.a_capital := c; ObjectiveModel.a_marginal := fun _ => m;
     ObjectiveModel.a_storage := fun _ => 0; ObjectiveModel.a_spill := fun _ => 0; ObjectiveModel.a_quadratic := fun _ => 0; ObjectiveModel.a_standby := fun _ => 0;
     ObjectiveModel.a_start := 0; ObjectiveModel.a_shut := 0; ObjectiveModel.a_inflow := fun _ => 0 |}.
Definition ramp : RampModel.rasset :=
  {| RampModel.base := gen None; RampModel.up := fun _ => Some (1 # 2); RampModel.down := fun _ => None; RampModel.up_static := Some (1 # 2); RampModel.down_static := None;
     RampModel.start_lim := 1; RampModel.shut_lim := 1; RampModel.p_start := 0; RampModel.status_start := 1 |}.
Definition pb (set : option Q) (c m : Q) : problem :=
  {| groups := [{| g_cls := "Generator"; g_attr := "p"; g_nattr := "p_nom"; g_kind := DispatchModel.Other; g_rows := [gen set] |}];
     ramping := [{| r_cls := "Generator"; r_nattr := "p_nom"; r_rolling := false; r_rows := [ramp] |}];
     costs := {| ObjectiveModel.assets := [cost c m]; ObjectiveModel.nsnaps := 2; ObjectiveModel.w_snap := fun _ => 1; ObjectiveModel.per := fun _ => 0%Z; ObjectiveModel.multi := None |};
     losses := false; horizon := 2 |}.
(* loads of 4 and 7 with modules of 5: two modules are needed *)
Definition loads : list con :=
  [{| lhs := [(1, Some ("Generator-p", O, "g"))]; sns := Eq; rhs := 4 |}; {| lhs := [(1, Some ("Generator-p", 1%nat, "g"))]; sns := Eq; rhs := 7 |}].
Definition best : sol := fun v =>
  let '(a, t, _) := v in
  if String.eqb a "Generator-p" then (match t with O => 4 | _ => 7 end) else if String.eqb a "Generator-p_nom" then 10
  else if String.eqb a "Generator-n_mod" then 2 else if String.eqb a "objective_constant" then 6 else 0.
Definition the {A} (d : A) (o : option A) : A := match o with Some a => a | None => d end.

Lemma no_limits : structural (fun _ => True).
Proof. intros x y _ _. exact I. Qed.
Lemma loads_operational : operational (fun x => sat x loads).
Proof. apply constraints_operational. intros c q v [<-|[<-|[]]] [E|[]]; inversion E; subst; apply mem_dec; reflexivity. Qed.
Lemma pb_proper : proper (pb None 3 1).
Proof.
  split; [|split].
  - intros g [<-|[]]. split; [|split]; [cbn; auto 10|cbn; auto 10|]. intros a [<-|[]] _. reflexivity.
  - intros r [<-|[]]. split; [cbn; auto 10|]. intros a [<-|[]] _. reflexivity.
  - split; [|split]; intros a [<-|[]]; [reflexivity| |]; cbn; lra.
Qed.
Example C66_ex : let b := the ([], []) (build (pb None 3 1)) in
  build (pb None 3 1) = Some b /\ optimum (pb None 3 1) b (fun s => sat s loads /\ True) best /\
  ObjectiveModel.value_of best (snd b) == 35 /\
  exists b', build (fix_optimal_capacities best (pb None 3 1)) = Some b' /\ optimum (fix_optimal_capacities best (pb None 3 1)) b' (fun s => sat s loads) best /\
    ObjectiveModel.value_of best (snd b') == 11.
Proof.
  cbv zeta. assert (B : build (pb None 3 1) = Some (the ([], []) (build (pb None 3 1)))) by reflexivity.
  split; [exact B|].
  assert (M : optimum (pb None 3 1) (the ([], []) (build (pb None 3 1))) (fun s => sat s loads /\ True) best).
  { split.
    - split; [apply satb_iff; vm_compute; reflexivity|]. split; [|split; [apply satb_iff; vm_compute; reflexivity|exact I]]. split.
      + intros g [<-|[]]. split; [|split].
        * intros a t [<-|[]] _ _. cbn. lra.
        * intros a _. exists 2%nat. reflexivity.
        * intros a t [].
      + intros _. reflexivity.
    - intros y [S1 [[D C] [L _]]].
      pose proof (value_split (pb None 3 1) (fun s => sat s loads) (fun _ => True) y (the ([], []) (build (pb None 3 1)))
        (the ([], []) (build (fix_optimal_capacities y (pb None 3 1)))) pb_proper B eq_refl y y) as V.
      assert (S0 : solution (pb None 3 1) (fst (the ([], []) (build (pb None 3 1)))) (fun s => sat s loads /\ True) y) by exact (conj S1 (conj (conj D C) (conj L I))).
      specialize (V S0 (self_with y)). rewrite V.
      assert (L0 : y ("Generator-p", O, "g") == 4). { pose proof (L _ (or_introl eq_refl)) as H. unfold holds in H. cbn [sns lhs rhs eval val] in H. lra. }
      assert (L1 : y ("Generator-p", 1%nat, "g") == 7). { pose proof (L _ (or_intror (or_introl eq_refl))) as H. unfold holds in H. cbn [sns lhs rhs eval val] in H. lra. }
      assert (U : ObjectiveModel.value_of y (snd (the ([], []) (build (fix_optimal_capacities y (pb None 3 1))))) == 11).
      { vm_compute the. cbn [ObjectiveModel.value_of fold_right ObjectiveModel.piece_value eval val snd]. rewrite L0, L1. reflexivity. }
      rewrite U.
      assert (X : ObjectiveSpec.expansion (costs (pb None 3 1)) y (ObjectiveModel.annual (costs (pb None 3 1))) == 3 * (y ("Generator-p_nom", O, "g") - 2)).
      { unfold ObjectiveSpec.expansion, BalanceSpec.total, ObjectiveSpec.capacity, ObjectiveModel.annual. cbn. ring. }
      rewrite X. clear V U X.
      assert (DO : DispatchSpec.dispatch_ok "Generator" "p" "p_nom" DispatchModel.Other false 2 [gen None] y).
      { apply DispatchProofs.dispatch_iff. intros c J. apply S1. change (In c (limits (pb None 3 1))). unfold limits. apply in_or_app. left. apply in_flat_map. exists (hd {| g_cls := ""; g_attr := ""; g_nattr := ""; g_kind := DispatchModel.Other; g_rows := [] |} (groups (pb None 3 1))). split; [left; reflexivity|exact J]. }
      destruct DO as [K [WI _]]. specialize (K (gen None) (or_introl eq_refl) eq_refl). destruct K as [_ [_ [_ K]]].
      specialize (WI (gen None) 1%nat (or_introl eq_refl) (le_n 2) eq_refl (or_introl eq_refl)).
      unfold DispatchSpec.within, DispatchModel.nom_opt, DispatchModel.reported in WI. cbn [gen DispatchModel.ext DispatchModel.cap val DispatchModel.max_pu DispatchModel.min_pu DispatchModel.op DispatchModel.active] in WI.
      unfold DispatchModel.nom_opt in K. cbn [gen DispatchModel.ext DispatchModel.cap val DispatchModel.nom_mod DispatchModel.name] in K, WI.
      specialize (K eq_refl). destruct (D _ (or_introl eq_refl)) as [_ [DM _]]. destruct (DM (gen None) (or_introl eq_refl)) as [k E].
      cbn [g_cls pb groups gen DispatchModel.name] in E. unfold DispatchModel.vname in *. cbn [append] in *. rewrite E in K. rewrite L1 in WI. destruct WI as [_ WI].
      assert (k >= 2)%nat. { destruct k as [|[|k]]; [| |lia]; rewrite K in WI; vm_compute in WI; exfalso; apply WI; reflexivity. }
      assert (2 <= inject_Z (Z.of_nat k)). { change 2 with (inject_Z 2). rewrite <- Zle_Qle. lia. }
      assert (V0 : ObjectiveModel.value_of best (snd (the ([], []) (build (pb None 3 1)))) == 35) by (vm_compute; reflexivity).
      rewrite V0. rewrite K. lra. }
  split; [exact M|]. split; [vm_compute; reflexivity|].
  exists (the ([], []) (build (fix_optimal_capacities best (pb None 3 1)))). split; [reflexivity|]. split; [|vm_compute; reflexivity].
  exact (fixed_optimum _ _ _ _ _ _ pb_proper loads_operational no_limits B eq_refl M).
Qed.

(* a value of p_nom_set: the problem at fixed capacities cannot be built *)
Theorem C66_set_refuted : exists pb x b, build pb = Some b /\ sat x (fst b) /\ build (fix_optimal_capacities x pb) = None.
Proof.
  exists (pb (Some 10) 3 1), best, (the ([], []) (build (pb (Some 10) 3 1))). split; [reflexivity|]. split; [apply satb_iff; vm_compute; reflexivity|reflexivity].
Qed.
Print Assumptions C66_set_refuted.
(* with capital costs only nothing is left to minimise and building the objective fails *)
Theorem C66_costs_refuted : exists pb x b, build pb = Some b /\ sat x (fst b) /\
  (forall g a, In g (groups pb) -> In a (g_rows g) -> DispatchModel.nom_set a = None) /\ build (fix_optimal_capacities x pb) = None.
Proof.
  exists (pb None 3 0), best, (the ([], []) (build (pb None 3 0))). split; [reflexivity|]. split; [apply satb_iff; vm_compute; reflexivity|]. split; [|reflexivity].
  intros g a [<-|[]] [<-|[]]. reflexivity.
Qed.
Print Assumptions C66_costs_refuted.
(* losses: the tangents move from s_nom_max to the fixed capacity and can exclude the optimal dispatch *)
Definition lossy : LossModel.branch := {| LossModel.b_name := "l"; LossModel.b_active := fun _ => true; LossModel.b_r := 1 # 10; LossModel.b_max_pu := fun _ => 1;
  LossModel.b_ext := true; LossModel.b_nom := Some 0; LossModel.b_nom_max := Some 20 |}.
Theorem C66_losses_refuted : exists b x cs, LossModel.loss_constraints "Line" 1 1 [b] = Some cs /\ sat x cs /\
  x ("Line-s", O, "l") <= x ("Line-s_nom", O, "l") /\ x ("Line-s_nom", O, "l") <= the 0 (LossModel.b_nom_max b) /\
  exists cs', LossModel.loss_constraints "Line" 1 1 [fix_loss (x ("Line-s_nom", O, "l")) b] = Some cs' /\ ~ sat x cs'.
Proof.
  exists lossy, (fun v => if String.eqb (fst (fst v)) "Line-loss" then 0 else 10), (the [] (LossModel.loss_constraints "Line" 1 1 [lossy])).
  split; [reflexivity|]. split; [apply satb_iff; vm_compute; reflexivity|]. split; [vm_compute; discriminate|]. split; [vm_compute; discriminate|].
  exists (the [] (LossModel.loss_constraints "Line" 1 1 [fix_loss 10 lossy])). split; [reflexivity|]. rewrite <- satb_iff. vm_compute. discriminate.
Qed.
Print Assumptions C66_losses_refuted.
