From Coq Require Import List String Bool QArith Arith Lia Lqa Permutation.
From Verif Require Import LinModel WholeModel IdleSpec MixSpec MixProofs DemandSpec DemandProofs.
From Verif Require BalanceModel CapModel LinProofs IdleProofs SplitProps.
Import ListNotations.
Open Scope string_scope.
Open Scope list_scope.
Open Scope Q_scope.

(* C95: only what the loads at a bus take together matters *)
Theorem C95_same : forall kvl n ds ds' x, same_demand n ds ds' ->
  (feasible kvl (with_loads ds n) x <-> feasible kvl (with_loads ds' n) x) /\ (optimal kvl (with_loads ds n) x <-> optimal kvl (with_loads ds' n) x) /\ cost (with_loads ds n) x = cost (with_loads ds' n) x.
Proof. exact (fun kvl n ds ds' x H => conj (same_feasible kvl n ds ds' x H) (conj (same_optimal kvl n ds ds' x H) eq_refl)). Qed.
Print Assumptions C95_same.
Theorem C95_defined : forall kvl n ds ds', same_demand n ds ds' -> (create_model kvl (with_loads ds n) = None <-> create_model kvl (with_loads ds' n) = None).
Proof. exact same_defined. Qed.
Print Assumptions C95_defined.
(* C95: so neither the order of the loads matters, nor loads out of operation, nor whether loads at a bus are listed one by one *)
Theorem C95_order : forall n a b, Permutation a b -> same_demand n a b.
Proof. exact demand_permuted. Qed.
Print Assumptions C95_order.
Theorem C95_inactive : forall n ds, same_demand n ds (filter BalanceModel.d_active ds).
Proof. exact demand_inactive. Qed.
Print Assumptions C95_inactive.
Theorem C95_merged : forall n d e ds, BalanceModel.d_active d = true -> BalanceModel.d_active e = true -> BalanceModel.d_bus d = BalanceModel.d_bus e -> same_demand n (d :: e :: ds) (merged d e :: ds).
Proof. exact demand_merged. Qed.
Print Assumptions C95_merged.

(* C95: a mixture of two demands can be met by the same mixture of solutions *)
Theorem C95_mixed : forall kvl n s ds ds' ds'' x y, 0 <= s -> s <= 1 -> no_integers n -> mixed_demand n s ds ds' ds'' ->
  feasible kvl (with_loads ds n) x -> feasible kvl (with_loads ds' n) y -> feasible kvl (with_loads ds'' n) (mix s x y).
Proof. exact mixed_feasible. Qed.
Print Assumptions C95_mixed.
(* C95: the least costs are a convex function of the demand *)
Theorem C95_convex : forall kvl n s ds ds' ds'' x y z p q r, 0 <= s -> s <= 1 -> no_integers n -> convex_costs n -> mixed_demand n s ds ds' ds'' ->
  feasible kvl (with_loads ds n) x -> feasible kvl (with_loads ds' n) y -> optimal kvl (with_loads ds'' n) z -> cost n x = Some p -> cost n y = Some q -> cost n z = Some r -> r <= s * p + (1 - s) * q.
Proof. exact mixed_convex. Qed.
Print Assumptions C95_convex.
Theorem C95_mixture : forall n s ds ds', mixed_demand n s ds ds' (map (share s) ds ++ map (share (1 - s)) ds').
Proof. exact demand_mixture. Qed.
Print Assumptions C95_mixture.

Definition ask (b : string) (q : Q) : BalanceModel.load := {| BalanceModel.d_bus := b; BalanceModel.d_sign := -(1); BalanceModel.d_p := fun _ => q; BalanceModel.d_active := true |}.

(* C95: not with units that are on or off: nothing and all can be met, half of it cannot *)
Theorem C95_units_refuted : exists kvl n ds ds' ds'', mixed_demand n (1 # 2) ds ds' ds'' /\ (exists x, feasible kvl (with_loads ds n) x) /\ (exists y, feasible kvl (with_loads ds' n) y) /\ forall z, ~ feasible kvl (with_loads ds'' n) z.
Proof.
  exists IdleProofs.no_kvl, (SplitProps.alone_net true 1 0), [ask "a" 2], [ask "a" 0], [ask "a" 1].
  split; [intros b t [<-|[]] _; reflexivity|]. split; [|split].
  - exists (fun v => match v with (s, _, k) => if String.eqb s "Generator-p" then 2 else if String.eqb s "Generator-status" then 1 else 0 end).
    eexists; split; [vm_compute; reflexivity|]; split; [apply LinProofs.satb_iff; vm_compute; reflexivity|]; split; [|split; [|split; [|split]]]; intros a.
    + intros J E; repeat (destruct J as [<-|J]; [discriminate E|]); destruct J.
    + intros J E. destruct J as [<-|[]]. cbn [linear SplitProps.alone_net IdleProofs.small with_loads]. split; [|split]; (intros t Ht; assert (t = O) as -> by (change (t < 1)%nat in Ht; lia); intros _; vm_compute; auto).
    + intros J E; repeat (destruct J as [<-|J]; [discriminate E|]); destruct J.
    + intros t _ _ E; discriminate E.
    + vm_compute in a; discriminate a.
  - exists (fun v => match v with (s, _, k) => if String.eqb s "Generator-shut_down" then 1 else 0 end).
    eexists; split; [vm_compute; reflexivity|]; split; [apply LinProofs.satb_iff; vm_compute; reflexivity|]; split; [|split; [|split; [|split]]]; intros a.
    + intros J E; repeat (destruct J as [<-|J]; [discriminate E|]); destruct J.
    + intros J E. destruct J as [<-|[]]. cbn [linear SplitProps.alone_net IdleProofs.small with_loads]. split; [|split]; (intros t Ht; assert (t = O) as -> by (change (t < 1)%nat in Ht; lia); intros _; vm_compute; auto).
    + intros J E; repeat (destruct J as [<-|J]; [discriminate E|]); destruct J.
    + intros t _ _ E; discriminate E.
    + vm_compute in a; discriminate a.
  - exact (proj2 SplitProps.C92_committable_refuted).
Qed.
Print Assumptions C95_units_refuted.

(* the place matters: a demand at a bus without anything else cannot be met *)
Example C95_ex_place : exists n, create_model IdleProofs.no_kvl (with_loads [ask "a" 1] n) <> None /\ create_model IdleProofs.no_kvl (with_loads [ask "b" 1] n) = None.
Proof.
  exists {| assets := [IdleProofs.gen_]; loads := []; buses := ["a"; "b"]; nsnaps := 1; w_obj := fun _ => 1; w_gen := fun _ => 1; w_sto := fun _ => 1; tangents := 0; linear := false;
     emission := fun _ => []; carriers := ["AC"]; limits := []; columns := [] |}.
  split; [vm_compute; discriminate|vm_compute; reflexivity].
Qed.
(* two generators with quadratic costs: demands 2 and 4, half of either asks for 3; 15/2 is less than (6 + 20) / 2 *)
Definition low_x : sol := fun v => match v with (_, _, i) => if String.eqb i "g" then 2 else 0 end.
Definition high_x : sol := fun v => match v with (_, _, i) => if String.eqb i "h" then 4 else 0 end.
Definition mid_x : sol := fun _ => 3 # 2.
Example C95_ex : no_integers curve_net /\ convex_costs curve_net /\ mixed_demand curve_net (1 # 2) [ask "a" 2] [ask "a" 1; ask "a" 3] [ask "a" 3] /\
  feasible IdleProofs.no_kvl (with_loads [ask "a" 2] curve_net) low_x /\ feasible IdleProofs.no_kvl (with_loads [ask "a" 1; ask "a" 3] curve_net) high_x /\ optimal IdleProofs.no_kvl (with_loads [ask "a" 3] curve_net) mid_x /\
  (exists p, cost curve_net low_x = Some p /\ p == 6) /\ (exists p, cost curve_net high_x = Some p /\ p == 20) /\ (exists p, cost curve_net mid_x = Some p /\ p == 15 # 2).
Proof.
  destruct curve_case as (A & B & _). split; [exact A|]. split; [exact B|]. split; [intros b t [<-|[]] _; reflexivity|].
  split; [eexists; split; [vm_compute; reflexivity|split; [apply LinProofs.satb_iff; vm_compute; reflexivity|apply IdleProofs.easy_domains; vm_compute; reflexivity]]|].
  split; [eexists; split; [vm_compute; reflexivity|split; [apply LinProofs.satb_iff; vm_compute; reflexivity|apply IdleProofs.easy_domains; vm_compute; reflexivity]]|].
  split; [|split; [|split]]; [|eexists; split; [vm_compute; reflexivity|reflexivity]..].
  split; [eexists; split; [vm_compute; reflexivity|split; [apply LinProofs.satb_iff; vm_compute; reflexivity|apply IdleProofs.easy_domains; vm_compute; reflexivity]]|].
  exists (480 # 64). split; [vm_compute; reflexivity|]. intros y q (cs & E & S & _) C. vm_compute in E. injection E as <-.
  pose proof (IdleProofs.row_holds y _ {| lhs := [(1, Some ("Generator-p", O, "g")); (1, Some ("Generator-p", O, "h"))]; sns := Eq; rhs := 3 |} S ltac:(cbn; tauto)) as H.
  unfold holds in H. cbn [sns lhs rhs eval val] in H. cbv -[Qplus Qmult Qle] in C. injection C as <-. clear S.
  set (g := y ("Generator-p", O, "g")) in *. set (h := y ("Generator-p", O, "h")) in *. clearbody g h. assert (Z : h == 3 - g) by lra. rewrite Z. assert (W : forall a : Q, 0 <= a * a) by (intros a; destruct (Qlt_le_dec a 0); nra). specialize (W (g - (3 # 2))). nra.
Qed.
