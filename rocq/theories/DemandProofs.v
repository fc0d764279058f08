From Coq Require Import List String Bool QArith Arith Lia Lqa Permutation.
From Verif Require Import LinModel WholeModel IdleSpec MixSpec MixProofs DemandSpec.
From Verif Require BalanceModel CapModel.
Import ListNotations.
Open Scope string_scope.
Open Scope list_scope.
Open Scope Q_scope.

Lemma rhs_demand n ds b t : BalanceModel.balance_rhs (b_net (with_loads ds n)) b t == net_demand ds b t.
Proof.
  unfold BalanceModel.balance_rhs. cbn [b_net BalanceModel.loads with_loads loads].
  induction ds as [|d r IH]; cbn [filter]; [reflexivity|]. cbn [net_demand]. unfold taken at 1. destruct (BalanceModel.d_active d && String.eqb (BalanceModel.d_bus d) b); cbn [map fold_right]; rewrite IH; ring.
Qed.
Lemma empty_eval x l : BalanceModel.is_empty l = true -> eval x l == 0.
Proof.
  induction l as [|[c v] r IH]; [reflexivity|]. unfold BalanceModel.is_empty. cbn [forallb snd eval]. intros H. apply andb_true_iff in H as [A B]. rewrite (IH B). destruct v; [discriminate|]. cbn [val]. ring.
Qed.
Lemma not_empty_term l s q : BalanceModel.is_empty l = false -> CapModel.has_term {| lhs := l; sns := s; rhs := q |} = true.
Proof.
  unfold CapModel.has_term. cbn [lhs]. induction l as [|[c v] r IH]; [discriminate|]. unfold BalanceModel.is_empty. cbn [forallb existsb snd]. destruct v; [reflexivity|]. intros H. apply IH. exact H.
Qed.

Section D.
Variable kvl : list asset -> list con.
Variable n : net.
Notation L := (BalanceModel.balance_lhs (b_net n) (lossy n)).
Definition before : list con := capacity n ++ operation n.
Definition later : list (option (list con)) :=
  [Some (kvl (filter passive (assets n))); Some (storage_units n); Some (stores n); Some (supplies n); losses n "Line"; losses n "Transformer"] ++ map (limit_rows n) (limits n) ++ map (column_rows n) (columns n).
Definition rows_for (ds : list BalanceModel.load) : list con :=
  add_constraints (seq 0 (nsnaps n)) (buses n) (fun t b => negb (BalanceModel.is_empty (L b t)))
    (fun t b => {| lhs := L b t; sns := Eq; rhs := BalanceModel.balance_rhs (b_net (with_loads ds n)) b t |}).
Definition no_terms : bool := BalanceModel.no_terms (b_net n) (lossy n) (buses n).
Definition unmet (ds : list BalanceModel.load) : bool :=
  existsb (fun t => existsb (fun b => BalanceModel.is_empty (L b t) && negb (Qeq_bool (BalanceModel.balance_rhs (b_net (with_loads ds n)) b t) 0)) (buses n)) (seq 0 (nsnaps n)).
Lemma model_of ds : create_model kvl (with_loads ds n) =
  if no_terms || unmet ds then None else option_map (fun r => before ++ rows_for ds ++ r) (collect later).
Proof.
  change (create_model kvl (with_loads ds n)) with (collect (Some (capacity n) :: Some (operation n) :: (if no_terms || unmet ds then None else Some (rows_for ds)) :: later)).
  cbn [collect]. destruct (no_terms || unmet ds); [reflexivity|]. destruct (collect later) as [r|]; [|reflexivity]. cbn [option_map]. unfold before. rewrite <- app_assoc. reflexivity.
Qed.
Definition core (x : sol) : Prop := no_terms = false /\ exists r, collect later = Some r /\ sat x (CapModel.problem (before ++ r)) /\ domains n x.
Definition meets (ds : list BalanceModel.load) (x : sol) : Prop := forall b t, In b (buses n) -> (t < nsnaps n)%nat -> eval x (L b t) == net_demand ds b t.

Lemma unmet_false ds : unmet ds = false <-> forall b t, In b (buses n) -> (t < nsnaps n)%nat -> BalanceModel.is_empty (L b t) = true -> net_demand ds b t == 0.
Proof.
  unfold unmet. split.
  - intros H b t B T E. destruct (Qeq_bool (BalanceModel.balance_rhs (b_net (with_loads ds n)) b t) 0) eqn:Q; [rewrite <- (rhs_demand n); apply Qeq_bool_eq; exact Q|].
    exfalso. assert (X : existsb (fun t => existsb (fun b => BalanceModel.is_empty (L b t) && negb (Qeq_bool (BalanceModel.balance_rhs (b_net (with_loads ds n)) b t) 0)) (buses n)) (seq 0 (nsnaps n)) = true); [|congruence].
    apply existsb_exists. exists t. split; [apply in_seq; lia|]. apply existsb_exists. exists b. split; [exact B|]. rewrite E, Q. reflexivity.
  - intros H. match goal with |- ?e = false => destruct e eqn:X; [|reflexivity] end. exfalso. apply existsb_exists in X as (t & T & X). apply existsb_exists in X as (b & B & X). apply andb_true_iff in X as [E Q]. apply in_seq in T.
    specialize (H b t B ltac:(lia) E). rewrite <- (rhs_demand n) in H. apply Qeq_eq_bool in H. rewrite H in Q. discriminate.
Qed.
Lemma sat_rows ds x : sat x (CapModel.problem (rows_for ds)) <-> forall b t, In b (buses n) -> (t < nsnaps n)%nat -> BalanceModel.is_empty (L b t) = false -> eval x (L b t) == net_demand ds b t.
Proof.
  unfold sat, CapModel.problem, rows_for, add_constraints. split.
  - intros H b t B T E. rewrite <- (rhs_demand n). apply (H {| lhs := L b t; sns := Eq; rhs := BalanceModel.balance_rhs (b_net (with_loads ds n)) b t |}).
    apply filter_In. split; [|apply not_empty_term; exact E]. apply in_flat_map. exists t. split; [apply in_seq; lia|]. apply in_flat_map. exists b. split; [exact B|]. rewrite E. left. reflexivity.
  - intros H c C. apply filter_In in C as [C _]. apply in_flat_map in C as (t & T & C). apply in_flat_map in C as (b & B & C). apply in_seq in T.
    destruct (BalanceModel.is_empty (L b t)) eqn:E; [destruct C|]. destruct C as [<-|[]]. unfold holds. cbn [sns lhs rhs]. rewrite rhs_demand. apply H; auto. lia.
Qed.
Lemma sat_app' x a b : sat x (CapModel.problem (a ++ b)) <-> sat x (CapModel.problem a) /\ sat x (CapModel.problem b).
Proof. unfold sat, CapModel.problem. rewrite filter_app. split; [intros H; split; intros c C; apply H, in_or_app; auto|]. intros [A B] c C. apply in_app_or in C as [C|C]; auto. Qed.
Lemma feasible_core ds x : feasible kvl (with_loads ds n) x <-> core x /\ meets ds x.
Proof.
  unfold feasible. change (domains (with_loads ds n) x) with (domains n x). rewrite model_of. unfold core, meets. split.
  - intros (cs & E & S & D). destruct no_terms; [discriminate|]. cbn [orb] in E. destruct (unmet ds) eqn:U; [discriminate|]. destruct (collect later) as [r|]; [|discriminate]. injection E as <-.
    rewrite !sat_app' in S. destruct S as (S1 & S2 & S3). split; [split; [reflexivity|]; exists r; split; [reflexivity|]; split; [rewrite sat_app'; auto|exact D]|].
    intros b t B T. destruct (BalanceModel.is_empty (L b t)) eqn:Q; [rewrite (empty_eval x _ Q); symmetry; apply (proj1 (unmet_false ds) U b t B T Q)|]. apply (proj1 (sat_rows ds x) S2); auto.
  - intros ((N & r & R & S & D) & M). rewrite N, R. assert (U : unmet ds = false).
    { apply unmet_false. intros b t B T Q. rewrite <- (M b t B T). apply empty_eval. exact Q. }
    rewrite U. cbn [orb option_map]. eexists. split; [reflexivity|]. split; [|exact D]. rewrite sat_app' in S. destruct S as [S1 S2]. rewrite !sat_app'. split; [exact S1|]. split; [|exact S2].
    apply sat_rows. intros b t B T _. apply M; assumption.
Qed.
Lemma same_meets ds ds' x : same_demand n ds ds' -> (meets ds x <-> meets ds' x).
Proof. intros H. unfold meets. split; intros M b t B T; rewrite (M b t B T); [|symmetry]; apply H; assumption. Qed.
Lemma same_feasible ds ds' x : same_demand n ds ds' -> (feasible kvl (with_loads ds n) x <-> feasible kvl (with_loads ds' n) x).
Proof. intros H. rewrite !feasible_core, (same_meets ds ds' x H). reflexivity. Qed.
Lemma same_optimal ds ds' x : same_demand n ds ds' -> (optimal kvl (with_loads ds n) x <-> optimal kvl (with_loads ds' n) x).
Proof.
  intros H. unfold optimal. rewrite (same_feasible ds ds' x H). split; intros (F & q & C & B); (split; [exact F|]); exists q; (split; [exact C|]); intros y q' FY CY; apply (B y q'); try exact CY; apply (same_feasible ds ds' y H); exact FY.
Qed.
Lemma same_defined ds ds' : same_demand n ds ds' -> (create_model kvl (with_loads ds n) = None <-> create_model kvl (with_loads ds' n) = None).
Proof.
  intros H. rewrite !model_of. assert (U : unmet ds = unmet ds').
  { destruct (unmet ds) eqn:A, (unmet ds') eqn:B; try reflexivity; exfalso.
    - assert (X : unmet ds = false); [|congruence]. apply unmet_false. intros b t P T E. rewrite (H b t P T). apply (proj1 (unmet_false ds') B b t P T E).
    - assert (X : unmet ds' = false); [|congruence]. apply unmet_false. intros b t P T E. rewrite <- (H b t P T). apply (proj1 (unmet_false ds) A b t P T E). }
  rewrite U. destruct (no_terms || unmet ds'); [reflexivity|]. destruct (collect later); cbn [option_map]; split; congruence.
Qed.
Lemma mixed_feasible s ds ds' ds'' x y : 0 <= s -> s <= 1 -> no_integers n -> mixed_demand n s ds ds' ds'' ->
  feasible kvl (with_loads ds n) x -> feasible kvl (with_loads ds' n) y -> feasible kvl (with_loads ds'' n) (mix s x y).
Proof.
  intros S0 S1 NI M. rewrite !feasible_core. intros [(N & r & R & SX & DX) MX] [(_ & r' & R' & SY & DY) MY]. rewrite R in R'. injection R' as <-. split.
  - split; [exact N|]. exists r. split; [exact R|]. split; [apply sat_mix; assumption|apply domains_mix; assumption].
  - intros b t B T. rewrite eval_mix, (MX b t B T), (MY b t B T). symmetry. apply M; assumption.
Qed.
Lemma mixed_convex s ds ds' ds'' x y z p q r : 0 <= s -> s <= 1 -> no_integers n -> convex_costs n -> mixed_demand n s ds ds' ds'' ->
  feasible kvl (with_loads ds n) x -> feasible kvl (with_loads ds' n) y -> optimal kvl (with_loads ds'' n) z -> cost n x = Some p -> cost n y = Some q -> cost n z = Some r -> r <= s * p + (1 - s) * q.
Proof.
  intros S0 S1 NI CC M FX FY [FZ (c & EZ & BZ)] EX EY ER. change (cost (with_loads ds'' n) z) with (cost n z) in EZ. rewrite ER in EZ. injection EZ as <-.
  destruct (cost_mix s x y n p q S0 S1 CC EX EY) as (u & EU & LU). eapply Qle_trans; [|exact LU]. apply (BZ (mix s x y) u); [|exact EU]. eapply mixed_feasible; eauto.
Qed.
End D.

Lemma demand_app a b bus t : net_demand (a ++ b) bus t == net_demand a bus t + net_demand b bus t.
Proof. induction a as [|d a IH]; cbn [app net_demand]; [ring|]. rewrite IH. ring. Qed.
Lemma demand_permuted n a b : Permutation a b -> same_demand n a b.
Proof. intros P bus t _ _. induction P; cbn [net_demand]; [reflexivity|rewrite IHP; reflexivity|ring|rewrite IHP1; exact IHP2]. Qed.
Lemma demand_merged n d e ds : BalanceModel.d_active d = true -> BalanceModel.d_active e = true -> BalanceModel.d_bus d = BalanceModel.d_bus e -> same_demand n (d :: e :: ds) (merged d e :: ds).
Proof. intros A B C bus t _ _. cbn [net_demand]. unfold taken, merged. cbn. rewrite A, B, C. destruct (String.eqb (BalanceModel.d_bus e) bus); cbn [andb]; ring. Qed.
Lemma demand_inactive n ds : same_demand n ds (filter BalanceModel.d_active ds).
Proof.
  intros bus t _ _. induction ds as [|d ds IH]; cbn [filter]; [reflexivity|]. cbn [net_demand]. destruct (BalanceModel.d_active d) eqn:A; cbn [net_demand]; rewrite IH; [reflexivity|]. unfold taken. rewrite A. cbn [andb]. ring.
Qed.
Lemma demand_shared s ds bus t : net_demand (map (share s) ds) bus t == s * net_demand ds bus t.
Proof. induction ds as [|d ds IH]; cbn [map net_demand]; [ring|]. rewrite IH. unfold taken, share. cbn. destruct (BalanceModel.d_active d && String.eqb (BalanceModel.d_bus d) bus); ring. Qed.
Lemma demand_mixture n s ds ds' : mixed_demand n s ds ds' (map (share s) ds ++ map (share (1 - s)) ds').
Proof. intros bus t _ _. rewrite demand_app, !demand_shared. reflexivity. Qed.
