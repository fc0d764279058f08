From Coq Require Import List String Bool QArith ZArith Arith Lqa.
From Verif Require Import LinModel WholeModel IdleSpec SplitSpec SplitProofs UnitProofs.
From Verif Require CapModel CommitModel IdleProofs LinProofs ObjectiveModel KirchhoffModel.
Import ListNotations.
Open Scope string_scope.
Open Scope list_scope.
Open Scope Q_scope.

(* C92: what the two parts do together, the whole generator can do *)
Theorem C92_join : forall i j q kvl n x, splittable i j q n -> kvl_flows kvl (filter passive (assets n)) ->
  feasible kvl (split i j q n) x -> feasible kvl n (joined i j x).
Proof. exact join_ok. Qed.
Print Assumptions C92_join.

(* C92: what the whole generator does, the parts can do in proportion *)
Theorem C92_share : forall i j q kvl n y, splittable i j q n -> kvl_flows kvl (filter passive (assets n)) ->
  feasible kvl n y -> feasible kvl (split i j q n) (shared i j q y).
Proof. exact share_ok. Qed.
Print Assumptions C92_share.

(* C92: both at the same costs *)
Theorem C92_cost : forall i j q n x, splittable i j q n -> same_cost (cost (split i j q n) x) (cost n (joined i j x)) /\ same_cost (cost (split i j q n) (shared i j q x)) (cost n x).
Proof. exact cost_ok. Qed.
Print Assumptions C92_cost.

(* C92: so the cheapest solutions correspond *)
Theorem C92_optimal : forall i j q kvl n, splittable i j q n -> kvl_flows kvl (filter passive (assets n)) ->
  (forall x, optimal kvl (split i j q n) x -> optimal kvl n (joined i j x)) /\ (forall y, optimal kvl n y -> optimal kvl (split i j q n) (shared i j q y)).
Proof. exact optimal_ok. Qed.
Print Assumptions C92_optimal.

(* C92: create_model fails for both networks or for none *)
Theorem C92_defined : forall i j q kvl n, splittable i j q n -> kvl_flows kvl (filter passive (assets n)) -> (create_model kvl (split i j q n) = None <-> create_model kvl n = None).
Proof. exact defined_ok. Qed.
Print Assumptions C92_defined.

(* C92: the voltage law as the code builds it reads the flows only *)
Theorem C92_kirchhoff : forall place fin weight basis T n, kvl_flows (KirchhoffModel.kirchhoff place fin weight basis T) (filter passive (assets n)).
Proof. exact (fun place fin weight basis T n => kirchhoff_flows place fin weight basis T _ (fun a J => proj2 (proj1 (filter_In passive a (assets n)) J))). Qed.
Print Assumptions C92_kirchhoff.

(* C92: only dispatch and capacity of the generator change *)
Theorem C92_only : forall i j q x s t k, of_generator s = false \/ (k <> i /\ k <> j) -> joined i j x (s, t, k) == x (s, t, k) /\ shared i j q x (s, t, k) == x (s, t, k).
Proof. exact (fun i j q x s t k H => conj (Qeq_sym _ _ (joined_same i j x s t k H)) (shared_same i j q x s t k H)). Qed.
Print Assumptions C92_only.

(* two buses, two lines and a loop: the first generator in parts of two and three fifths *)
Example C92_ex : splittable "g" "g2" (2 # 5) mesh_net /\ kvl_flows loop (filter passive (assets mesh_net)) /\ optimal loop mesh_net mesh_x /\
  optimal loop (split "g" "g2" (2 # 5) mesh_net) (shared "g" "g2" (2 # 5) mesh_x) /\
  shared "g" "g2" (2 # 5) mesh_x ("Generator-p", O, "g") == 4 # 5 /\ shared "g" "g2" (2 # 5) mesh_x ("Generator-p", O, "g2") == 6 # 5.
Proof.
  assert (H : splittable "g" "g2" (2 # 5) mesh_net).
  { split; [discriminate|]. split; [split; discriminate|]. split; [|split].
    - intros a J. cbn [mesh_net two_buses assets In] in J. repeat (destruct J as [<-|J]; [cbn; tauto|]). destruct J.
    - intros a J. cbn [mesh_net two_buses assets In] in J. repeat (destruct J as [<-|J]; [discriminate|]). destruct J.
    - intros a J. cbn [mesh_net two_buses assets In] in J. repeat (destruct J as [<-|J]; [first [discriminate|intros _; split; [reflexivity|split; [discriminate|reflexivity]]]|]). destruct J. }
  assert (K : kvl_flows loop (filter passive (assets mesh_net))).
  { intros x y E. pose proof (E "Line-s" O "l" (or_introl eq_refl)) as E1. pose proof (E "Line-s" O "r" (or_introl eq_refl)) as E2.
    split; intros S' c [<-|[]]; specialize (S' _ (or_introl eq_refl)); unfold holds in *; cbn [sns lhs rhs eval val] in *; [rewrite <- E1, <- E2|rewrite E1, E2]; exact S'. }
  destruct mesh_case as (_ & _ & M & _). split; [exact H|]. split; [exact K|]. split; [exact M|]. split; [now apply (C92_optimal "g" "g2" (2 # 5) loop mesh_net H K)|]. split; vm_compute; reflexivity.
Qed.

Definition kind (com_ : bool) (lo quad : Q) (a : asset) : asset :=
  {| cls := cls a; nm := nm a; bus0 := bus0 a; bus1 := bus1 a; sgn := sgn a; ports := ports a; carrier := carrier a; flag := flag a; ext := ext a; committable := com_;
     nom := 2; nom_min := nom_min a; nom_max := nom_max a; nom_set := nom_set a; nom_mod := nom_mod a; min_pu := fun _ => lo; max_pu := max_pu a; max_hours := max_hours a;
     op_set := op_set a; up := up a; down := down a; up_static := up_static a; down_static := down_static a; start_lim := start_lim a; shut_lim := shut_lim a;
     min_up := min_up a; min_down := min_down a; up_before := up_before a; down_before := down_before a; eff := eff a; stand := stand a; init := init a; cyclic := cyclic a;
     eff_dispatch := eff_dispatch a; eff_store := eff_store a; inflow := inflow a; capital := capital a; marginal := marginal a; storage_cost := storage_cost a;
     spill_cost := spill_cost a; quadratic := fun _ => quad; standby := standby a; start_cost := start_cost a; shut_cost := shut_cost a; len := len a; e_min := e_min a; e_max := e_max a; r_eff := r_eff a |}.
Definition alone_net (com_ : bool) (lo quad : Q) : net := IdleProofs.small 1 [kind com_ lo quad IdleProofs.gen_] (fun _ => 1) 0 [] [].

(* C92: not so with quadratic costs: two halves are cheaper than the whole *)
Theorem C92_quadratic_refuted : feasible IdleProofs.no_kvl (alone_net false 0 2) (fun _ => 1) /\
  feasible IdleProofs.no_kvl (split "g" "g2" (1 # 2) (alone_net false 0 2)) (shared "g" "g2" (1 # 2) (fun _ => 1)) /\
  exists p q, cost (alone_net false 0 2) (fun _ => 1) = Some p /\ cost (split "g" "g2" (1 # 2) (alone_net false 0 2)) (shared "g" "g2" (1 # 2) (fun _ => 1)) = Some q /\ q < p.
Proof.
  split; [|split].
  1-2: eexists; split; [vm_compute; reflexivity|]; split; [apply LinProofs.satb_iff; vm_compute; reflexivity|]; split; [|split; [|split; [|split]]]; intros a;
    [intros J E; repeat (destruct J as [<-|J]; [discriminate E|]); destruct J|intros J E; repeat (destruct J as [<-|J]; [discriminate E|]); destruct J|
     intros J E; repeat (destruct J as [<-|J]; [discriminate E|]); destruct J|intros t _ _ E; discriminate E|vm_compute in a; discriminate a].
  eexists. eexists. split; [vm_compute; reflexivity|]. split; [vm_compute; reflexivity|]. reflexivity.
Qed.
Print Assumptions C92_quadratic_refuted.

(* C92: nor with units that switch on and off: one half may run while the other rests *)
Theorem C92_committable_refuted : (exists x, feasible IdleProofs.no_kvl (split "g" "g2" (1 # 2) (alone_net true 1 0)) x) /\ (forall y, ~ feasible IdleProofs.no_kvl (alone_net true 1 0) y).
Proof.
  split.
  - exists (fun v => match v with (s, _, k) => if String.eqb s "Generator-p" || String.eqb s "Generator-status" then (if String.eqb k "g" then 1 else 0)
      else if String.eqb s "Generator-shut_down" && String.eqb k "g2" then 1 else 0 end).
    eexists; split; [vm_compute; reflexivity|]; split; [apply LinProofs.satb_iff; vm_compute; reflexivity|]; split; [|split; [|split; [|split]]]; intros a.
    + intros J E; repeat (destruct J as [<-|J]; [discriminate E|]); destruct J.
    + intros J E. repeat (destruct J as [<-|J]; [cbn [alone_net IdleProofs.small linear]; split; [|split]; (intros t Ht; assert (t = O) as -> by (change (nsnaps (alone_net true 1 0)) with 1%nat in Ht; apply Nat.lt_1_r in Ht; exact Ht); intros _; vm_compute; auto)|]). destruct J.
    + intros J E; repeat (destruct J as [<-|J]; [discriminate E|]); destruct J.
    + intros t _ _ E; discriminate E.
    + vm_compute in a; discriminate a.
  - intros x (cs & E & S' & D). vm_compute in E. injection E as <-.
    pose proof (IdleProofs.row_holds x _ {| lhs := [(1, Some ("Generator-p", O, "g")); (-2, Some ("Generator-status", O, "g"))]; sns := Ge; rhs := 0 |} S' ltac:(cbn; tauto)) as H1.
    pose proof (IdleProofs.row_holds x _ {| lhs := [(1, Some ("Generator-p", O, "g")); (-2, Some ("Generator-status", O, "g"))]; sns := Le; rhs := 0 |} S' ltac:(cbn; tauto)) as H2.
    pose proof (IdleProofs.row_holds x _ {| lhs := [(1, Some ("Generator-p", O, "g"))]; sns := Eq; rhs := 1 |} S' ltac:(cbn; tauto)) as H3.
    destruct D as (_ & D & _). specialize (D _ (or_introl eq_refl) eq_refl). destruct D as (B & _ & _). specialize (B O ltac:(cbn; auto) eq_refl).
    unfold holds in *. cbn [sns lhs rhs eval val] in *. change (x ("Generator-status", O, "g") == 0 \/ x ("Generator-status", O, "g") == 1) in B. destruct B; lra.
Qed.
Print Assumptions C92_committable_refuted.
