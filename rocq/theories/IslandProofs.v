From Coq Require Import List String Bool QArith ZArith Arith Lia Lqa.
From Verif Require Import LinModel WholeModel IdleSpec IslandSpec.
From Verif Require DispatchModel RampModel CommitModel BalanceModel StorageModel LimitModel CapModel CapProofs LossModel ObjectiveModel ObjectiveSpec ObjectiveProofs BalanceSpec BalanceProofs IdleProofs.
Import ListNotations.
Open Scope string_scope.
Open Scope list_scope.
Open Scope Q_scope.

(* a list whose entries are those of two others *)
Definition parts_of {X} (U A B : list X) : Prop := forall y, In y U <-> In y A \/ In y B.
Lemma po_filter {X} (p : X -> bool) U A B : parts_of U A B -> parts_of (filter p U) (filter p A) (filter p B).
Proof. intros H y. rewrite !filter_In, (H y). tauto. Qed.
Lemma po_map {X Y} (f : X -> Y) U A B : parts_of U A B -> parts_of (map f U) (map f A) (map f B).
Proof.
  intros H y. rewrite !in_map_iff. split.
  - intros (z & E & J). apply H in J. destruct J as [J|J]; [left|right]; eauto.
  - intros [(z & E & J)|(z & E & J)]; exists z; (split; [exact E|apply H; auto]).
Qed.
Lemma po_app {X} (U A B U' A' B' : list X) : parts_of U A B -> parts_of U' A' B' -> parts_of (U ++ U') (A ++ A') (B ++ B').
Proof. intros H K y. rewrite !in_app_iff, (H y), (K y). tauto. Qed.
Lemma po_nil {X} : @parts_of X [] [] [].
Proof. intros y. cbn. tauto. Qed.
Lemma po_flat {X Y} (g : X -> list Y) U A B : parts_of U A B -> parts_of (flat_map g U) (flat_map g A) (flat_map g B).
Proof.
  intros H y. rewrite !in_flat_map. split.
  - intros (z & J & E). apply H in J. destruct J as [J|J]; [left|right]; eauto.
  - intros [(z & J & E)|(z & J & E)]; exists z; (split; [apply H; auto|exact E]).
Qed.
Lemma po_each {X Y} (f g h : X -> list Y) l : (forall k, In k l -> parts_of (f k) (g k) (h k)) -> parts_of (flat_map f l) (flat_map g l) (flat_map h l).
Proof. induction l as [|k r IH]; intros H; [apply po_nil|]. cbn [flat_map]. apply po_app; [apply H; now left|apply IH; intros j J; apply H; now right]. Qed.
Lemma po_add {X} ts (U A B : list X) mk f : parts_of U A B -> parts_of (add_constraints ts U mk f) (add_constraints ts A mk f) (add_constraints ts B mk f).
Proof. intros H. unfold add_constraints. apply po_each. intros t _. now apply po_flat. Qed.
Lemma po_cut {X} (p : X -> bool) l : parts_of l (filter p l) (filter (fun a => negb (p a)) l).
Proof. intros y. rewrite !filter_In, negb_true_iff. destruct (p y); intuition congruence. Qed.

(* problems whose solutions are those of two others *)
Definition both (U A B : list con) : Prop := forall x, sat x (CapModel.problem U) <-> sat x (CapModel.problem A) /\ sat x (CapModel.problem B).
Lemma both_terms U A B : (forall c, CapModel.has_term c = true -> (In c U <-> In c A \/ In c B)) -> both U A B.
Proof.
  intros H x. rewrite !CapProofs.sat_problem. split.
  - intros K. split; intros c J T; apply K; auto; apply H; auto.
  - intros [K L] c J T. apply H in J; [|exact T]. destruct J; auto.
Qed.
Lemma both_po U A B : parts_of U A B -> both U A B.
Proof. intros H. apply both_terms. intros c _. apply H. Qed.
Lemma problem_app A B : CapModel.problem (A ++ B) = CapModel.problem A ++ CapModel.problem B.
Proof. unfold CapModel.problem. induction A as [|c r IH]; cbn; [reflexivity|]. destruct (CapModel.has_term c); cbn; now rewrite IH. Qed.
Lemma sat_both z A B : sat z (A ++ B) <-> sat z A /\ sat z B.
Proof. split; [intros H; split; intros c J; apply H, in_or_app; auto|]. intros [H K] c J. apply in_app_or in J. destruct J; auto. Qed.
Lemma both_app U A B U' A' B' : both U A B -> both U' A' B' -> both (U ++ U') (A ++ A') (B ++ B').
Proof. intros H K x. rewrite !problem_app, !sat_both, (H x), (K x). tauto. Qed.
Definition oboth (u a b : option (list con)) : Prop := match a, b with Some A, Some B => exists U, u = Some U /\ both U A B | _, _ => u = None end.
Lemma oboth_some U A B : both U A B -> oboth (Some U) (Some A) (Some B).
Proof. intros H. exists U. auto. Qed.
Inductive F3 : list (option (list con)) -> list (option (list con)) -> list (option (list con)) -> Prop :=
| F3_nil : F3 [] [] []
| F3_cons u a b l la lb : oboth u a b -> F3 l la lb -> F3 (u :: l) (a :: la) (b :: lb).
Lemma oboth_collect l la lb : F3 l la lb -> oboth (collect l) (collect la) (collect lb).
Proof.
  induction 1 as [|u a b l la lb H _ IH]; [apply oboth_some, both_po, po_nil|]. cbn [collect].
  assert (N : collect l = None \/ exists r, collect l = Some r) by (destruct (collect l); eauto).
  destruct a as [A|], b as [B|]; cbn [oboth] in H.
  - destruct H as (U & -> & H). destruct (collect la) as [ra|], (collect lb) as [rb|]; cbn [oboth option_map] in *; try (now rewrite IH).
    destruct IH as (r & -> & K). exists (U ++ r). split; [reflexivity|]. now apply both_app.
  - subst u. destruct (collect la); cbn; reflexivity.
  - subst u. cbn. reflexivity.
  - subst u. cbn. reflexivity.
Qed.
Lemma F3_app l la lb m ma mb : F3 l la lb -> F3 m ma mb -> F3 (l ++ m) (la ++ ma) (lb ++ mb).
Proof. induction 1; intros K; [exact K|]. cbn. constructor; auto. Qed.

(* variables of a part *)
Lemma filter_swap {X} (p q : X -> bool) l : filter p (filter q l) = filter q (filter p l).
Proof. induction l as [|a r IH]; [reflexivity|]. cbn. destruct (p a) eqn:P, (q a) eqn:Q; cbn; rewrite ?P, ?Q, IH; reflexivity. Qed.
Lemma filter_skip {X Y} (p : Y -> bool) (g : X -> Y) (q : X -> bool) l : (forall a, In a l -> p (g a) = true -> q a = true) -> filter p (map g (filter q l)) = filter p (map g l).
Proof.
  induction l as [|a r IH]; intros H; [reflexivity|]. cbn [filter map]. assert (IH' := IH (fun b J => H b (or_intror J))). destruct (q a) eqn:Q; cbn [map filter].
  - now rewrite IH'.
  - destruct (p (g a)) eqn:P; [|exact IH']. rewrite (H a (or_introl eq_refl) P) in Q. discriminate.
Qed.
Lemma filter_skips {X Y} (p : Y -> bool) (g : X -> list Y) (q : X -> bool) l : (forall a y, In a l -> In y (g a) -> p y = true -> q a = true) -> filter p (flat_map g (filter q l)) = filter p (flat_map g l).
Proof.
  assert (FA : forall u v : list Y, filter p (u ++ v) = filter p u ++ filter p v) by (intros u v; induction u as [|y r IH]; [reflexivity|]; cbn; rewrite IH; now destruct (p y)).
  induction l as [|a r IH]; intros H; [reflexivity|]. cbn [filter flat_map]. assert (IH' := IH (fun b y J => H b y (or_intror J))). destruct (q a) eqn:Q; cbn [flat_map]; rewrite !FA, IH'; [reflexivity|].
  assert (E : filter p (g a) = []); [|now rewrite E]. assert (K : forall y, In y (g a) -> p y = false).
  { intros y J. destruct (p y) eqn:P; [|reflexivity]. rewrite (H a y (or_introl eq_refl) J P) in Q. discriminate. }
  clear - K. induction (g a) as [|y s IHs]; [reflexivity|]. cbn. rewrite K by now left. apply IHs. intros z J. apply K. now right.
Qed.
Lemma fapp {Y} (p : Y -> bool) u v : filter p (u ++ v) = filter p u ++ filter p v.
Proof. induction u as [|y r IH]; [reflexivity|]. cbn. rewrite IH. now destruct (p y). Qed.

Section I.
Variables (S : string -> bool) (n : net).
Hypothesis SE : separated S n.
Hypothesis UC : uncoupled S n.
Notation A := (island S n).
Notation B := (island (other S) n).
Lemma class_A R c : of_class (island R n) c = filter (fun a => R (bus0 a)) (of_class n c).
Proof. unfold of_class. cbn [island assets]. apply filter_swap. Qed.
Lemma po_class c : parts_of (of_class n c) (of_class A c) (of_class B c).
Proof. rewrite !class_A. apply po_cut. Qed.
Lemma class_in c a : In a (of_class n c) -> In a (assets n) /\ cls a = c.
Proof. unfold of_class. rewrite filter_In, String.eqb_eq. tauto. Qed.
Ltac po := repeat first [apply po_class | apply po_app | apply po_add | apply po_filter | apply po_map | apply po_flat | apply po_nil].

Lemma capacity_both : both (capacity n) (capacity A) (capacity B).
Proof.
  apply both_po. unfold capacity. apply po_each. intros ca _. unfold capacity_of, DispatchModel.nominal, DispatchModel.fixed_nominal, DispatchModel.modular, DispatchModel.ext_assets, DispatchModel.mod_assets. cbn zeta. po.
Qed.
Definition all_ramps (c na : string) (T : nat) (l : list RampModel.rasset) : list con :=
  RampModel.fixed_ramps c T false l ++ RampModel.extendable_ramps c na T false l ++ RampModel.com_ramps c T false l.
Lemma everywhere_iff f (l : list asset) : RampModel.everywhere (nsnaps n) (map r_view l) f = true <-> forall a t, In a l -> (t < nsnaps n)%nat -> f (up a t) = true /\ f (down a t) = true.
Proof.
  unfold RampModel.everywhere. rewrite forallb_forall. split.
  - intros H a t I L. specialize (H (r_view a) (in_map r_view _ _ I)). rewrite forallb_forall in H. specialize (H t ltac:(apply in_seq; lia)). cbn in H. now apply andb_true_iff in H.
  - intros H r I. apply in_map_iff in I. destruct I as (a & <- & I). apply forallb_forall. intros t L. apply in_seq in L. cbn. apply andb_true_iff. apply H; auto. lia.
Qed.
Lemma add_none {X} ts (l : list X) mk f : (forall t a, In a l -> In t ts -> mk t a = false) -> add_constraints ts l mk f = [].
Proof.
  intros H. unfold add_constraints. induction ts as [|t r IH]; [reflexivity|]. cbn [flat_map]. rewrite IH by (intros u a J K; apply H; [exact J|now right]). rewrite app_nil_r.
  assert (K : forall a, In a l -> mk t a = false) by (intros a J; apply H; [exact J|now left]). clear - K. induction l as [|a s IHs]; [reflexivity|]. cbn. rewrite K by now left. apply IHs. intros b J. apply K. now right.
Qed.
Lemma side_ramps R c na : ramps_alike n (island R n) -> c = "Generator" \/ c = "Link" -> RampModel.early_return (nsnaps n) (map r_view (of_class n c)) = false ->
  RampModel.ramps c na (nsnaps n) false (map r_view (of_class (island R n) c)) = all_ramps c na (nsnaps n) (map r_view (of_class (island R n) c)).
Proof.
  intros RA C E. unfold RampModel.ramps. destruct (RampModel.early_return (nsnaps n) (map r_view (of_class (island R n) c))) eqn:G; [|reflexivity]. symmetry.
  destruct (RA c C) as [R1 R2]. unfold RampModel.early_return in G. apply orb_true_iff in G. set (l := of_class (island R n) c) in *.
  assert (LI : forall a, In a l <-> In a (assets (island R n)) /\ cls a = c) by (intros a; unfold l, of_class; rewrite filter_In, String.eqb_eq; tauto).
  assert (TI : forall t, In t (RampModel.times (nsnaps n) false) -> (t < nsnaps n)%nat) by (intros t J; unfold RampModel.times in J; apply in_seq in J; lia).
  destruct G as [G|G].
  - rewrite everywhere_iff in G.
    assert (NR : forall a t, In a l -> (t < nsnaps n)%nat -> up a t = None /\ down a t = None).
    { intros a t I L. destruct (G a t I L) as [G1 G2]. destruct (up a t), (down a t); try discriminate. auto. }
    assert (NS : forall a, In a l -> up_static a = None /\ down_static a = None).
    { intros a I. apply LI in I. apply R2; try tauto. intros b Ib Kb t L. apply NR; [apply LI; auto|exact L]. }
    unfold all_ramps, RampModel.fixed_ramps, RampModel.extendable_ramps, RampModel.com_ramps, RampModel.fix_, RampModel.ext_, RampModel.com_.
    rewrite !add_none; [reflexivity| | | | | |]; intros t r J K; apply filter_In in J; destruct J as [J _]; apply in_map_iff in J; destruct J as (a & <- & J); cbn [RampModel.up RampModel.down RampModel.up_static RampModel.down_static r_view];
      try (destruct (NR a t J (TI t K)) as [N1 N2]; rewrite ?N1, ?N2); try (destruct (NS a J) as [N3 N4]; rewrite ?N3, ?N4); apply andb_false_r.
  - rewrite everywhere_iff in G.
    destruct l as [|a0 r0] eqn:L0.
    + unfold all_ramps, RampModel.fixed_ramps, RampModel.extendable_ramps, RampModel.com_ramps, RampModel.fix_, RampModel.ext_, RampModel.com_.
      rewrite !add_none; [reflexivity| | | | | |]; intros t r [].
    + exfalso. assert (U : all_of n c (unit_ramps (nsnaps n))).
      { apply R1.
        - intros a I K t L. destruct (G a t) as [G1 G2]; [apply LI; auto|exact L|]. unfold RampModel.is_one in *. destruct (up a t) as [u|], (down a t) as [d|]; try discriminate.
          exists u, d. apply Qeq_bool_iff in G1. apply Qeq_bool_iff in G2. auto.
        - exists a0. apply LI. now left. }
      assert (X : RampModel.early_return (nsnaps n) (map r_view (of_class n c)) = true); [|congruence]. unfold RampModel.early_return. apply orb_true_iff. right. apply everywhere_iff.
      intros a t I L. apply class_in in I. destruct (U a (proj1 I) (proj2 I) t L) as (u & d & -> & -> & Q1 & Q2). cbn. split; now apply Qeq_bool_iff.
Qed.
Lemma early_side R c : RampModel.early_return (nsnaps n) (map r_view (of_class n c)) = true -> RampModel.early_return (nsnaps n) (map r_view (of_class (island R n) c)) = true.
Proof.
  unfold RampModel.early_return. intros G. apply orb_true_iff in G. apply orb_true_iff. rewrite !everywhere_iff in *. rewrite class_A. destruct G as [G|G]; [left|right]; intros a t I; apply filter_In in I; apply G, I.
Qed.
Lemma ramps_po c na : c = "Generator" \/ c = "Link" ->
  parts_of (RampModel.ramps c na (nsnaps n) false (map r_view (of_class n c))) (RampModel.ramps c na (nsnaps n) false (map r_view (of_class A c))) (RampModel.ramps c na (nsnaps n) false (map r_view (of_class B c))).
Proof.
  intros C. destruct (RampModel.early_return (nsnaps n) (map r_view (of_class n c))) eqn:E.
  - unfold RampModel.ramps. rewrite E, !early_side by exact E. apply po_nil.
  - destruct UC as [_ [R1 R2]]. rewrite (side_ramps S c na R1 C E), (side_ramps (other S) c na R2 C E). unfold RampModel.ramps. rewrite E.
    unfold all_ramps, RampModel.fixed_ramps, RampModel.extendable_ramps, RampModel.com_ramps, RampModel.fix_, RampModel.ext_, RampModel.com_. po.
Qed.
Lemma operation_both : both (operation n) (operation A) (operation B).
Proof.
  apply both_po. unfold operation. apply po_each. intros [[[c attr] na] k] J. cbn [operation_of].
  change (nsnaps A) with (nsnaps n). change (nsnaps B) with (nsnaps n). change (lossy A) with (lossy n). change (lossy B) with (lossy n).
  apply po_app; [|apply po_app; [|apply po_app; [|apply po_app; [|apply po_app]]]].
  - unfold DispatchModel.non_extendables, DispatchModel.fixed_assets. po.
  - unfold DispatchModel.extendables, DispatchModel.ext_assets. po.
  - unfold DispatchModel.committables, DispatchModel.com_assets. po.
  - unfold commitment_of. change (nsnaps A) with (nsnaps n). change (nsnaps B) with (nsnaps n). change (tightened A) with (tightened n). change (tightened B) with (tightened n).
    apply po_app; apply po_flat; po.
  - destruct (has_uc c) eqn:H; [|apply po_nil]. apply ramps_po. unfold has_uc in H. apply orb_true_iff in H. destruct H as [H|H]; apply String.eqb_eq in H; auto.
  - unfold DispatchModel.fixed_operation. po.
Qed.
Lemma storage_both : both (storage_units n) (storage_units A) (storage_units B) /\ both (stores n) (stores A) (stores B).
Proof. split; apply both_po; apply po_flat; po. Qed.
Lemma supplies_both : both (supplies n) (supplies A) (supplies B).
Proof. apply both_po. unfold supplies, CapModel.total_supply. apply po_app; apply po_flat; po. Qed.
Lemma forallb_po {X} (p : X -> bool) U V W : parts_of U V W -> forallb p U = forallb p V && forallb p W.
Proof.
  intros H. apply eq_true_iff_eq. rewrite andb_true_iff, !forallb_forall. split; [intros K; split; intros y J; apply K, H; auto|]. intros [K L] y J. apply H in J. destruct J; auto.
Qed.
Lemma existsb_po {X} (p : X -> bool) U V W : parts_of U V W -> existsb p U = existsb p V || existsb p W.
Proof.
  intros H. apply eq_true_iff_eq. rewrite orb_true_iff, !existsb_exists. split.
  - intros (y & J & E). apply H in J. destruct J as [J|J]; [left|right]; eauto.
  - intros [(y & J & E)|(y & J & E)]; exists y; (split; [apply H; auto|exact E]).
Qed.
Lemma loss_some c tn T l : LossModel.loss_constraints c tn T l =
  if forallb (fun b => match LossModel.limit b with Some _ => true | None => false end) l then Some (LossModel.upper c T l ++ flat_map (fun k => flat_map (fun s => LossModel.tangent c tn T k s l) [-(1); 1]) (seq 1 tn)) else None.
Proof.
  destruct l as [|b r]; [|reflexivity]. cbn [LossModel.loss_constraints forallb].
  assert (E : forall (f : nat -> list con) ks, (forall k, f k = []) -> flat_map f ks = []) by (intros f ks H; induction ks as [|k ks IH]; [reflexivity|]; cbn; now rewrite H, IH).
  assert (Z : forall mk (f : nat -> LossModel.branch -> con) ts, add_constraints ts [] mk f = []) by (intros mk f ts; unfold add_constraints; induction ts as [|t ts IH]; [reflexivity|exact IH]).
  unfold LossModel.upper. rewrite Z, E; [reflexivity|]. intros k. cbn [flat_map]. unfold LossModel.tangent. now rewrite !Z.
Qed.
Lemma losses_both c : oboth (losses n c) (losses A c) (losses B c).
Proof.
  unfold losses. change (lossy A) with (lossy n). change (lossy B) with (lossy n). destruct (lossy n); [|apply oboth_some, both_po, po_nil].
  change (tangents A) with (tangents n). change (tangents B) with (tangents n). change (nsnaps A) with (nsnaps n). change (nsnaps B) with (nsnaps n). rewrite !loss_some.
  rewrite (forallb_po _ _ (map lo_view (of_class A c)) (map lo_view (of_class B c))) by po.
  destruct (forallb _ (map lo_view (of_class A c))); [|reflexivity]. destruct (forallb _ (map lo_view (of_class B c))); [|reflexivity]. cbn [andb]. apply oboth_some, both_po.
  apply po_app; [unfold LossModel.upper; po|]. apply po_each. intros k _. apply po_each. intros s _. unfold LossModel.tangent. po.
Qed.

(* nodal balance *)
Lemma entries_side R b t : (R = S \/ R = other S) -> R b = true ->
  filter (fun e => String.eqb (fst e) b) (BalanceModel.entries (b_net (island R n)) (lossy n) t) = filter (fun e => String.eqb (fst e) b) (BalanceModel.entries (b_net n) (lossy n) t).
Proof.
  intros HR Rb.
  assert (ONE : forall c (f : asset -> Q * label), filter (fun e : BalanceModel.entry => String.eqb (fst e) b) (map (fun a => (bus0 a, f a)) (filter (fun a => R (bus0 a)) (of_class n c))) = filter (fun e : BalanceModel.entry => String.eqb (fst e) b) (map (fun a => (bus0 a, f a)) (of_class n c))).
  { intros c f. apply filter_skip. intros a _ E. cbn [fst] in E. apply String.eqb_eq in E. now rewrite E. }
  assert (RS : forall x y, S x = S y -> R x = R y) by (intros x y E; destruct HR as [-> | ->]; [exact E|unfold other; now rewrite E]).
  assert (TWO : forall c (f : asset -> Q * label), In c ["Line"; "Transformer"; "Link"] -> filter (fun e : BalanceModel.entry => String.eqb (fst e) b) (map (fun a => (bus1 a, f a)) (filter (fun a => R (bus0 a)) (of_class n c))) = filter (fun e : BalanceModel.entry => String.eqb (fst e) b) (map (fun a => (bus1 a, f a)) (of_class n c))).
  { intros c f C. apply filter_skip. intros a I E. cbn [fst] in E. apply String.eqb_eq in E. apply class_in in I. destruct I as [I K]. rewrite <- (RS _ _ (se_bus1 _ _ SE a I ltac:(now rewrite K))). now rewrite E. }
  unfold BalanceModel.entries, BalanceModel.one, BalanceModel.br. cbn [b_net BalanceModel.gens BalanceModel.stores BalanceModel.units BalanceModel.lines BalanceModel.trafos BalanceModel.links].
  rewrite !class_A, !map_map. cbn [c_view br_view l_view BalanceModel.c_bus BalanceModel.b_bus0 BalanceModel.b_bus1 BalanceModel.l_bus0 BalanceModel.l_bus1].
  rewrite !fapp. rewrite !ONE, !TWO by (cbn; tauto). repeat (apply f_equal2; [reflexivity|]). apply f_equal2.
  - assert (M : forall l, flat_map (fun l0 => map (fun pe => (fst pe, (snd pe t, BalanceModel.lab (BalanceModel.l_active l0) "Link-p" (BalanceModel.l_name l0) t))) (filter (fun pe => negb (String.eqb (fst pe) "")) (BalanceModel.l_ports l0))) (map l_view l) =
      flat_map (fun a => map (fun pe => (fst pe, (snd pe t, BalanceModel.lab (on a) "Link-p" (nm a) t))) (filter (fun pe => negb (String.eqb (fst pe) "")) (ports a))) l) by (intros l; induction l as [|a r IH]; [reflexivity|]; cbn [map flat_map]; now rewrite IH).
    rewrite !M. apply filter_skips. intros a y I J E. apply in_map_iff in J. destruct J as (pe & <- & J). cbn [fst] in E. apply String.eqb_eq in E. apply filter_In in J. destruct J as [J NE]. apply negb_true_iff, String.eqb_neq in NE.
    apply class_in in I. destruct I as [I K]. rewrite <- (RS _ _ (se_ports _ _ SE a pe I K J NE)). now rewrite E.
  - destruct (lossy n); [|reflexivity]. rewrite !fapp, !ONE, !TWO by (cbn; tauto). reflexivity.
Qed.
Lemma lhs_side R b t : (R = S \/ R = other S) -> R b = true -> BalanceModel.balance_lhs (b_net (island R n)) (lossy n) b t = BalanceModel.balance_lhs (b_net n) (lossy n) b t.
Proof. intros HR Rb. unfold BalanceModel.balance_lhs. now rewrite entries_side. Qed.
Lemma rhs_side R b t : R b = true -> BalanceModel.balance_rhs (b_net (island R n)) b t = BalanceModel.balance_rhs (b_net n) b t.
Proof.
  intros Rb. unfold BalanceModel.balance_rhs. cbn [b_net BalanceModel.loads island loads]. do 2 f_equal. induction (loads n) as [|d r IH]; [reflexivity|]. cbn [filter].
  destruct (R (BalanceModel.d_bus d)) eqn:E; cbn [filter]; rewrite IH; [reflexivity|]. destruct (String.eqb (BalanceModel.d_bus d) b) eqn:F; [apply String.eqb_eq in F; congruence|]. now rewrite andb_false_r.
Qed.
Lemma demand_side R : (R = S \/ R = other S) -> BalanceModel.empty_demand (b_net (island R n)) (lossy n) (filter R (buses n)) (nsnaps n) = BalanceModel.empty_demand (b_net n) (lossy n) (filter R (buses n)) (nsnaps n).
Proof.
  intros HR. unfold BalanceModel.empty_demand. induction (seq 0 (nsnaps n)) as [|t ts IH]; [reflexivity|]. cbn [existsb]. rewrite IH. f_equal. clear IH. induction (buses n) as [|b r IH]; [reflexivity|]. cbn [filter].
  destruct (R b) eqn:E; [|exact IH]. cbn [existsb]. now rewrite IH, lhs_side, rhs_side.
Qed.
Lemma has_entry a t m (L : bool) : In a (assets m) -> In (cls a) classes -> exists q, In (bus0 a, q) (BalanceModel.entries (b_net m) L t).
Proof.
  intros I C. assert (K : In a (of_class m (cls a))) by (unfold of_class; apply filter_In; split; [exact I|apply String.eqb_refl]).
  unfold BalanceModel.entries, BalanceModel.one, BalanceModel.br. cbn [b_net BalanceModel.gens BalanceModel.stores BalanceModel.units BalanceModel.lines BalanceModel.trafos BalanceModel.links]. rewrite !map_map.
  assert (P : forall (f : asset -> Q * label) c, c = cls a -> exists q, In (bus0 a, q) (map (fun b => (bus0 b, f b)) (of_class m c))) by (intros f c ->; exists (f a); apply in_map_iff; exists a; auto).
  unfold classes in C. cbn [In] in C. cbn [c_view br_view l_view BalanceModel.c_bus BalanceModel.b_bus0 BalanceModel.l_bus0].
  destruct C as [C|[C|[C|[C|[C|[C|[]]]]]]].
  - edestruct P as [q Q]; [exact C|]. exists q. rewrite !in_app_iff. left. exact Q.
  - edestruct P as [q Q]; [exact C|]. exists q. rewrite !in_app_iff. right. right. right. right. left. left. exact Q.
  - edestruct P as [q Q]; [exact C|]. exists q. rewrite !in_app_iff. right. right. right. right. right. left. left. exact Q.
  - edestruct P as [q Q]; [exact C|]. exists q. rewrite !in_app_iff. right. right. right. right. right. right. left. exact Q.
  - edestruct P as [q Q]; [exact C|]. exists q. rewrite !in_app_iff. right. left. exact Q.
  - edestruct P as [q Q]; [exact C|]. exists q. rewrite !in_app_iff. right. right. left. exact Q.
Qed.
Lemma terms_exist m a (L : bool) bs : In a (assets m) -> In (cls a) classes -> In (bus0 a) bs -> BalanceModel.no_terms (b_net m) L bs = false.
Proof.
  intros I C Ib. unfold BalanceModel.no_terms. apply negb_false_iff, existsb_exists. destruct (has_entry a 0 m L I C) as [q Q]. exists (bus0 a, q). split; [exact Q|]. apply existsb_exists. exists (bus0 a). split; [exact Ib|apply String.eqb_refl].
Qed.
Lemma no_terms_all : BalanceModel.no_terms (b_net n) (lossy n) (buses n) = false /\ BalanceModel.no_terms (b_net A) (lossy n) (filter S (buses n)) = false /\ BalanceModel.no_terms (b_net B) (lossy n) (filter (other S) (buses n)) = false.
Proof.
  destruct (se_parts _ _ SE true) as (a & Ia & Ba & Sa). destruct (se_parts _ _ SE false) as (b & Ib & Bb & Sb). destruct (se_names _ _ SE) as [_ W]. split; [|split].
  - apply (terms_exist n a); auto.
  - apply (terms_exist A a); auto; [cbn [island assets]|]; apply filter_In; auto.
  - apply (terms_exist B b); auto; [cbn [island assets]|]; apply filter_In; unfold other; rewrite Sb; auto.
Qed.
Lemma demand_split : BalanceModel.empty_demand (b_net n) (lossy n) (buses n) (nsnaps n) =
  BalanceModel.empty_demand (b_net n) (lossy n) (filter S (buses n)) (nsnaps n) || BalanceModel.empty_demand (b_net n) (lossy n) (filter (other S) (buses n)) (nsnaps n).
Proof.
  unfold BalanceModel.empty_demand. induction (seq 0 (nsnaps n)) as [|t ts IH]; [reflexivity|]. cbn [existsb]. rewrite IH. rewrite (existsb_po _ (buses n) (filter S (buses n)) (filter (other S) (buses n))) by apply po_cut.
  rewrite <- !orb_assoc. f_equal. rewrite !orb_assoc. f_equal. apply orb_comm.
Qed.
Lemma balances_both : oboth (balances n) (balances A) (balances B).
Proof.
  unfold balances, BalanceModel.balance. change (lossy A) with (lossy n). change (lossy B) with (lossy n). change (nsnaps A) with (nsnaps n). change (nsnaps B) with (nsnaps n).
  cbn [island buses]. destruct no_terms_all as (-> & E2 & E3). fold (island S n). fold (island (other S) n). rewrite E2, E3. cbn [orb]. rewrite demand_split, !demand_side by auto.
  destruct (BalanceModel.empty_demand _ _ (filter S _) _); [reflexivity|]. destruct (BalanceModel.empty_demand _ _ (filter (other S) _) _); [reflexivity|]. cbn [orb]. apply oboth_some, both_po.
  assert (Q : forall R, R = S \/ R = other S ->
    add_constraints (seq 0 (nsnaps n)) (filter R (buses n)) (fun t b => negb (BalanceModel.is_empty (BalanceModel.balance_lhs (b_net (island R n)) (lossy n) b t))) (fun t b => {| lhs := BalanceModel.balance_lhs (b_net (island R n)) (lossy n) b t; sns := Eq; rhs := BalanceModel.balance_rhs (b_net (island R n)) b t |}) =
    add_constraints (seq 0 (nsnaps n)) (filter R (buses n)) (fun t b => negb (BalanceModel.is_empty (BalanceModel.balance_lhs (b_net n) (lossy n) b t))) (fun t b => {| lhs := BalanceModel.balance_lhs (b_net n) (lossy n) b t; sns := Eq; rhs := BalanceModel.balance_rhs (b_net n) b t |})).
  { clear E2 E3. intros R HR. unfold add_constraints. apply flat_map_ext. intros t. induction (buses n) as [|b r IH]; [reflexivity|]. cbn [filter]. destruct (R b) eqn:Rb; [|exact IH]. cbn [flat_map]. rewrite IH. now rewrite lhs_side, rhs_side. }
  rewrite !Q by auto. apply po_add. apply po_cut.
Qed.

(* columns of the buses *)
Lemma terms_side R k p b : R b = true -> CapModel.bus_terms (k_net (island R n)) k p b = CapModel.bus_terms (k_net n) k p b.
Proof.
  intros Rb. unfold CapModel.bus_terms. apply flat_map_ext. intros ca. change (CapModel.has_carrier (k_net (island R n))) with (CapModel.has_carrier (k_net n)). destruct (_ && _); [|reflexivity]. f_equal.
  unfold CapModel.tech_assets, CapModel.ext_i, CapModel.cls. cbn [k_net CapModel.assets island assets].
  rewrite !(filter_swap (fun a => String.eqb (CapModel.k_bus a) b)). do 4 f_equal. apply filter_skip. intros a _ E. cbn [k_view CapModel.k_bus] in E. apply String.eqb_eq in E. now rewrite E.
Qed.
Lemma column_both col : oboth (column_rows n col) (column_rows A col) (column_rows B col).
Proof.
  unfold column_rows, CapModel.bus_column. cbn [island carriers buses]. fold (island S n). fold (island (other S) n).
  change (CapModel.parse (k_net A) (carriers n)) with (CapModel.parse (k_net n) (carriers n)). change (CapModel.parse (k_net B) (carriers n)) with (CapModel.parse (k_net n) (carriers n)).
  destruct (CapModel.parse _ _ _ _ _) as [s k p| |]; [|apply oboth_some, both_po, po_nil|reflexivity]. apply oboth_some, both_terms. intros c TM.
  assert (X : forall m bs, In c (if CapModel.bus_any (k_net m) k p then flat_map (fun b => match CapModel.col_val col b with Some q => [{| lhs := CapModel.bus_terms (k_net m) k p b; sns := s; rhs := q |}] | None => [] end) bs else []) <->
     exists b q, In b bs /\ CapModel.col_val col b = Some q /\ c = {| lhs := CapModel.bus_terms (k_net m) k p b; sns := s; rhs := q |}).
  { intros m bs. split.
    - destruct (CapModel.bus_any _ _ _); [|intros []]. intros J. apply in_flat_map in J. destruct J as (b & J & K). destruct (CapModel.col_val col b) as [q|] eqn:V; [|destruct K]. destruct K as [<-|[]]. eauto.
    - intros (b & q & J & V & ->). apply CapProofs.bus_live in TM. destruct TM as (a & Ia & Ta & Oa & _).
      assert (AN : CapModel.bus_any (k_net m) k p = true) by (apply CapProofs.bus_any_iff; eauto). rewrite AN. apply in_flat_map. exists b. rewrite V. split; [exact J|now left]. }
  rewrite !X. split.
  - intros (b & q & J & V & ->). destruct (S b) eqn:E; [left|right]; exists b, q.
    + rewrite filter_In, terms_side by exact E. auto.
    + assert (OE : other S b = true) by (unfold other; now rewrite E). rewrite filter_In, terms_side by exact OE. auto.
  - intros [(b & q & J & V & ->)|(b & q & J & V & ->)]; apply filter_In in J; destruct J as [J E]; exists b, q; rewrite terms_side by exact E; auto.
Qed.

(* all rows *)
Variable kvl : list asset -> list con.
Hypothesis KV : cycles_apart kvl S n.
Lemma F3_map {X} (f g h : X -> option (list con)) l : (forall k, oboth (f k) (g k) (h k)) -> F3 (map f l) (map g l) (map h l).
Proof. intros H. induction l; cbn; constructor; auto. Qed.
Lemma model_both : oboth (create_model kvl n) (create_model kvl A) (create_model kvl B).
Proof.
  unfold create_model. apply oboth_collect. unfold parts. change (limits A) with (limits n). change (limits B) with (limits n). rewrite (proj1 UC). cbn [map]. apply F3_app.
  - destruct storage_both as [ST1 ST2]. constructor; [apply oboth_some, capacity_both|]. constructor; [apply oboth_some, operation_both|]. constructor; [apply balances_both|]. constructor; [apply oboth_some; exact (proj1 KV)|].
    constructor; [apply oboth_some, ST1|]. constructor; [apply oboth_some, ST2|]. constructor; [apply oboth_some, supplies_both|]. constructor; [apply losses_both|]. constructor; [apply losses_both|]. constructor.
  - cbn [app]. change (columns A) with (columns n). change (columns B) with (columns n). apply F3_map. apply column_both.
Qed.

(* bounds of variables but for the constant of the objective *)
Definition bounds (m : net) (x : sol) : Prop :=
  (forall a, In a (assets m) -> ext a = true -> Qle_bool (nom_mod a) 0 = false -> exists z : nat, x ((cls a ++ "-n_mod")%string, O, nm a) == inject_Z (Z.of_nat z)) /\
  (forall a, In a (assets m) -> com a = true -> if linear m then CommitModel.relaxed (cls a) (u_view a) (nsnaps m) x else CommitModel.binary (cls a) (u_view a) (nsnaps m) x) /\
  (forall a, In a (assets m) -> cls a = "StorageUnit" -> StorageModel.spill_bounds (nsnaps m) (s_view a) (unit_data m a) x) /\
  (forall a t, In a (assets m) -> passive a = true -> lossy m = true -> (t < nsnaps m)%nat -> flag a = true -> 0 <= x ((cls a ++ "-loss")%string, t, nm a)).
Lemma domains_bounds m x : domains m x <-> bounds m x /\ ObjectiveModel.const_fixed (o_net m) x.
Proof. unfold domains, bounds. tauto. Qed.
Lemma bounds_agree m x y : (forall a v, In a (assets m) -> belongs a v -> x v = y v) -> bounds m x -> bounds m y.
Proof.
  intros AG (M & C & ST & L). split; [|split; [|split]].
  - intros a J E G. destruct (M a J E G) as [z Z]. exists z. rewrite <- Z. rewrite (AG a); [reflexivity|exact J|]. exists "n_mod", O. reflexivity.
  - intros a J E. specialize (C a J E). assert (V : forall w t, val x (CommitModel.uvar (cls a) (u_view a) w t) = val y (CommitModel.uvar (cls a) (u_view a) w t)).
    { intros w t. apply (IdleProofs.val_agree x y a); [intros v; now apply AG|now apply IdleProofs.lab_uvar]. }
    destruct (linear m); destruct C as [C1 [C2 C3]]; (split; [|split]); intros t T OO; [specialize (C1 t T OO)|specialize (C2 t T OO)|specialize (C3 t T OO)|specialize (C1 t T OO)|specialize (C2 t T OO)|specialize (C3 t T OO)];
      unfold CommitModel.status, CommitModel.start_up, CommitModel.shut_down in *; rewrite <- V; assumption.
  - intros a J E t v T V. rewrite <- (AG a v J); [now apply (ST a J E t)|]. assert (LO : IdleProofs.lab_ok a (StorageModel.spill_label (s_view a) (unit_data m a) t)) by (unfold StorageModel.spill_label; apply IdleProofs.lab_if; now apply (IdleProofs.lab_var a "StorageUnit" "spill")). now apply LO.
  - intros a t J P LS T F. rewrite <- (AG a _ J); [now apply L|]. exists "loss", t. reflexivity.
Qed.
Lemma in_side R a : In a (assets (island R n)) <-> In a (assets n) /\ R (bus0 a) = true.
Proof. cbn [island assets]. apply filter_In. Qed.
Lemma in_sides a : In a (assets n) -> In a (assets A) \/ In a (assets B).
Proof. intros J. destruct (S (bus0 a)) eqn:E; [left|right]; apply in_side; split; auto. unfold other. now rewrite E. Qed.
Lemma bounds_both x : bounds n x <-> bounds A x /\ bounds B x.
Proof.
  split.
  - intros (M & C & ST & L). split; (split; [|split; [|split]]); intros a; intros; match goal with H : In a _ |- _ => apply in_side in H; destruct H as [? _] end; [apply M|apply C|apply ST|apply L|apply M|apply C|apply ST|apply L]; auto.
  - intros [(M & C & ST & L) (M' & C' & ST' & L')]. split; [|split; [|split]]; intros a; intros; match goal with H : In a _ |- _ => apply in_sides in H; destruct H as [?|?] end;
      [apply M|apply M'|apply C|apply C'|apply ST|apply ST'|apply L|apply L']; auto.
Qed.
Lemma rows_only m x y cs : (forall a v, In a (assets m) -> belongs a v -> x v = y v) -> create_model kvl m = Some cs -> sat x (CapModel.problem cs) -> sat y (CapModel.problem cs).
Proof.
  intros AG E. apply (IdleProofs.model_owned m kvl cs (proj2 KV)) in E. rewrite !CapProofs.sat_problem. intros H c J T. specialize (H c J T).
  assert (EV : eval y (lhs c) == eval x (lhs c)). { apply IdleProofs.eval_agree. intros q v K. destruct (E v) as [a [Ia Ba]]; [exists c, q; auto|]. symmetry. eauto. }
  unfold holds in *. destruct (sns c); rewrite EV; exact H.
Qed.

(* the constant of the objective *)
Definition konst : var := ("objective_constant", O, "").
Definition setc (x : sol) (q : Q) : sol := fun v => if IdleProofs.var_dec v konst then q else x v.
Lemma not_konst a : In a (assets n) -> ~ belongs a konst.
Proof.
  intros J (attr & t & E). destruct (se_names _ _ SE) as [_ W]. specialize (W a J). unfold konst in E. injection E as E1 _ _. unfold classes in W. cbn [In] in W.
  destruct W as [W|[W|[W|[W|[W|[W|[]]]]]]]; rewrite <- W in E1; discriminate E1.
Qed.
Lemma setc_const m x : ObjectiveModel.const_fixed (o_net m) (setc x (ObjectiveModel.constant (o_net m))).
Proof. intros _. unfold ObjectiveModel.const_label. cbn [val]. unfold setc. destruct (IdleProofs.var_dec _ konst) as [|N]; [reflexivity|]. exfalso. apply N. reflexivity. Qed.
Lemma setc_same R x q : carries (island R n) x (setc x q).
Proof. intros a v J Bv. apply in_side in J. unfold setc. destruct (IdleProofs.var_dec v konst) as [->|]; [|reflexivity]. exfalso. exact (not_konst a (proj1 J) Bv). Qed.

Lemma split_side R z : (R = S \/ R = other S) -> feasible kvl n z -> feasible kvl (island R n) (setc z (ObjectiveModel.constant (o_net (island R n)))).
Proof.
  intros HR (cs & E & Z & D). pose proof model_both as M. rewrite E in M. unfold oboth in M.
  destruct (create_model kvl A) as [ca|] eqn:EA; [|discriminate]. destruct (create_model kvl B) as [cb|] eqn:EB; [|discriminate]. destruct M as (U & EU & M). injection EU as <-. apply M in Z.
  apply domains_bounds in D. destruct D as [D _]. apply bounds_both in D.
  assert (G : exists c, create_model kvl (island R n) = Some c /\ sat z (CapModel.problem c) /\ bounds (island R n) z) by (destruct HR as [-> | ->]; eauto; [exists ca|exists cb]; tauto).
  destruct G as (c & Ec & Sc & Bc). exists c. split; [exact Ec|]. split.
  - apply (rows_only (island R n) z _ c); auto. intros a v J Bv. symmetry. exact (setc_same R z _ a v J Bv).
  - apply domains_bounds. split; [|apply setc_const]. apply (bounds_agree (island R n) z); auto. intros a v J Bv. symmetry. exact (setc_same R z _ a v J Bv).
Qed.

(* joining solutions *)
Lemma prefix_iff s v : prefix s v = true <-> exists r, v = (s ++ r)%string.
Proof.
  revert v. induction s as [|c s IH]; intros v.
  - split; [intros _; exists v; reflexivity|]. intros _. destruct v; reflexivity.
  - destruct v as [|d v]; cbn [prefix].
    + split; [discriminate|]. intros [r E]. discriminate E.
    + destruct (Ascii.ascii_dec c d) as [->|N].
      * rewrite IH. split; intros [r E]; exists r; [now rewrite E|]. cbn in E. now injection E.
      * split; [discriminate|]. intros [r E]. cbn in E. injection E as E _. congruence.
Qed.
Definition owner (m : net) (v : var) : bool := existsb (fun a => String.eqb (nm a) (snd v) && prefix (cls a ++ "-") (fst (fst v))) (assets m).
Lemma app_assoc_s (a b c : string) : ((a ++ b) ++ c)%string = (a ++ (b ++ c))%string.
Proof. induction a; cbn; [reflexivity|now rewrite IHa]. Qed.
Lemma owner_iff m v : owner m v = true <-> exists a, In a (assets m) /\ belongs a v.
Proof.
  unfold owner. rewrite existsb_exists. destruct v as [[s t] i]. cbn [fst snd]. split.
  - intros (a & J & E). apply andb_true_iff in E. destruct E as [E1 E2]. apply String.eqb_eq in E1. apply prefix_iff in E2. destruct E2 as [r E2]. exists a. split; [exact J|]. exists r, t. now rewrite E2, app_assoc_s, E1.
  - intros (a & J & attr & t' & E). injection E as -> _ ->. exists a. split; [exact J|]. rewrite String.eqb_refl. apply prefix_iff. exists attr. now rewrite app_assoc_s.
Qed.
Lemma one_owner a b v : In a (assets n) -> In b (assets n) -> belongs a v -> belongs b v -> a = b.
Proof.
  intros Ia Ib (s & t & Ea) (s' & t' & Eb). destruct (se_names _ _ SE) as [ND W]. subst v. injection Eb as E1 _ E2. apply (IdleProofs.nodup_key (fun a => (cls a, nm a)) (assets n)); auto.
  rewrite (IdleProofs.class_split _ _ _ _ (W a Ia) (W b Ib) E1), E2. reflexivity.
Qed.
Definition join (x y : sol) : sol := fun v => if owner A v then x v else if owner B v then y v else ObjectiveModel.constant (o_net n).
Lemma join_left x y : carries A x (join x y).
Proof. intros a v J Bv. unfold join. assert (E : owner A v = true) by (apply owner_iff; eauto). now rewrite E. Qed.
Lemma join_right x y : carries B y (join x y).
Proof.
  intros a v J Bv. unfold join. assert (E : owner B v = true) by (apply owner_iff; eauto). rewrite E. destruct (owner A v) eqn:F; [|reflexivity]. exfalso.
  apply owner_iff in F. destruct F as (b & Ib & Bb). apply in_side in J. apply in_side in Ib. assert (a = b) by (apply (one_owner a b v); tauto). subst b. unfold other in J. destruct J as [_ J], Ib as [_ Ib]. rewrite Ib in J. discriminate.
Qed.
Lemma join_const x y : ObjectiveModel.const_fixed (o_net n) (join x y).
Proof.
  intros _. unfold ObjectiveModel.const_label. cbn [val]. unfold join.
  assert (F : forall R, owner (island R n) ("objective_constant", O, "") = false) by (intros R; apply not_true_iff_false; intros G; apply owner_iff in G; destruct G as (a & J & Bv); apply in_side in J; exact (not_konst a (proj1 J) Bv)).
  rewrite !F. reflexivity.
Qed.
Lemma join_feasible x y : feasible kvl A x -> feasible kvl B y -> feasible kvl n (join x y).
Proof.
  intros (ca & EA & SA & DA) (cb & EB & SB & DB). pose proof model_both as M. rewrite EA, EB in M. destruct M as (U & EU & M). exists U. split; [exact EU|]. apply domains_bounds in DA, DB. split.
  - apply M. split; [apply (rows_only A x _ ca)|apply (rows_only B y _ cb)]; auto; intros a v J Bv; symmetry; [exact (join_left x y a v J Bv)|exact (join_right x y a v J Bv)].
  - apply domains_bounds. split; [|apply join_const]. apply bounds_both. split; [apply (bounds_agree A x)|apply (bounds_agree B y)]; try tauto; intros a v J Bv; symmetry; [exact (join_left x y a v J Bv)|exact (join_right x y a v J Bv)].
Qed.
Lemma defined_both : create_model kvl n = None <-> create_model kvl A = None \/ create_model kvl B = None.
Proof.
  pose proof model_both as M. unfold oboth in M. destruct (create_model kvl A), (create_model kvl B); rewrite ?M; try tauto. destruct M as (U & -> & _). split; [discriminate|]. intros [E|E]; discriminate E.
Qed.

(* costs *)
Definition costs (m : net) (x : sol) : Q := ObjectiveSpec.expansion (o_net m) x (ObjectiveModel.annual (o_net m)) + ObjectiveSpec.operating (o_net m) x (ObjectiveModel.weighting (o_net m)) + ObjectiveSpec.switching_cost (o_net m) x.
Hypothesis CS : costs_sane n.
Lemma cost_costs m x q : (forall a, In a (assets m) -> In a (assets n)) -> ObjectiveModel.const_fixed (o_net m) x -> cost m x = Some q -> q == costs m x.
Proof.
  intros H CF. unfold cost, define_objective. destruct (ObjectiveModel.objective (o_net m)) as [ps|] eqn:O; [|discriminate]. cbn [option_map]. intros E. injection E as <-.
  apply (ObjectiveProofs.objective_value (o_net m) x ps); auto.
  - apply IdleProofs.known_net. intros a J. apply (se_names _ _ SE). auto.
  - intros a J. cbn [ObjectiveModel.assets o_net] in J. apply in_map_iff in J. destruct J as (b & <- & J). apply (CS b (H b J)).
  - intros a J. cbn [ObjectiveModel.assets o_net] in J. apply in_map_iff in J. destruct J as (b & <- & J). apply (CS b (H b J)).
Qed.
Lemma total_parts {X} (f : X -> Q) (p : X -> bool) l : BalanceSpec.total f l == BalanceSpec.total f (filter p l) + BalanceSpec.total f (filter (fun a => negb (p a)) l).
Proof. rewrite !BalanceProofs.total_filter, <- BalanceProofs.total_plus. apply BalanceProofs.total_ext. intros a _. destruct (p a); cbn; ring. Qed.
Lemma costs_both x : costs n x == costs A x + costs B x.
Proof.
  unfold costs, ObjectiveSpec.expansion, ObjectiveSpec.operating, ObjectiveSpec.switching_cost. cbn [ObjectiveModel.assets o_net island assets]. unfold ObjectiveSpec.days. cbn [ObjectiveModel.nsnaps o_net island nsnaps].
  assert (O0 := total_parts (fun a => ObjectiveModel.annual (o_net n) (o_view a) * (ObjectiveSpec.capacity x (o_view a) - ObjectiveModel.a_nom (o_view a))) (fun a => S (bus0 a)) (assets n)).
  assert (O1 : BalanceSpec.total (fun t => ObjectiveModel.weighting (o_net n) t * BalanceSpec.total (fun a => ObjectiveSpec.running x a t) (map o_view (assets n))) (seq 0 (nsnaps n)) ==
    BalanceSpec.total (fun t => ObjectiveModel.weighting (o_net A) t * BalanceSpec.total (fun a => ObjectiveSpec.running x a t) (map o_view (filter (fun a => S (bus0 a)) (assets n)))) (seq 0 (nsnaps n)) +
    BalanceSpec.total (fun t => ObjectiveModel.weighting (o_net B) t * BalanceSpec.total (fun a => ObjectiveSpec.running x a t) (map o_view (filter (fun a => other S (bus0 a)) (assets n)))) (seq 0 (nsnaps n))).
  { rewrite <- BalanceProofs.total_plus. apply BalanceProofs.total_ext. intros t _. rewrite !BalanceProofs.total_map, (total_parts _ (fun a => S (bus0 a)) (assets n)).
    change (ObjectiveModel.weighting (o_net A) t) with (ObjectiveModel.weighting (o_net n) t). change (ObjectiveModel.weighting (o_net B) t) with (ObjectiveModel.weighting (o_net n) t). unfold other. ring. }
  assert (O2 : BalanceSpec.total (fun t => BalanceSpec.total (fun a => ObjectiveSpec.starts x a t) (map o_view (assets n))) (seq 0 (nsnaps n)) ==
    BalanceSpec.total (fun t => BalanceSpec.total (fun a => ObjectiveSpec.starts x a t) (map o_view (filter (fun a => S (bus0 a)) (assets n)))) (seq 0 (nsnaps n)) +
    BalanceSpec.total (fun t => BalanceSpec.total (fun a => ObjectiveSpec.starts x a t) (map o_view (filter (fun a => other S (bus0 a)) (assets n)))) (seq 0 (nsnaps n))).
  { rewrite <- BalanceProofs.total_plus. apply BalanceProofs.total_ext. intros t _. rewrite !BalanceProofs.total_map, (total_parts _ (fun a => S (bus0 a)) (assets n)). unfold other. reflexivity. }
  rewrite O1, O2. clear O1 O2. rewrite !(BalanceProofs.total_map (fun a => _ * (ObjectiveSpec.capacity x a - _))).
  change (ObjectiveModel.annual (o_net A)) with (ObjectiveModel.annual (o_net n)). change (ObjectiveModel.annual (o_net B)) with (ObjectiveModel.annual (o_net n)). rewrite O0. unfold other. ring.
Qed.
Lemma costs_carried R x z : carries (island R n) x z -> costs (island R n) z == costs (island R n) x.
Proof.
  intros CA.
  assert (V : forall a attr t, In a (assets (island R n)) -> z ((cls a ++ "-" ++ attr)%string, t, nm a) = x ((cls a ++ "-" ++ attr)%string, t, nm a)) by (intros a attr t J; apply (CA a); auto; exists attr, t; reflexivity).
  assert (IS : forall a c, ObjectiveSpec.is (o_view a) [c] = true -> cls a = c) by (intros a c E; unfold ObjectiveSpec.is in E; cbn in E; rewrite orb_false_r in E; now apply String.eqb_eq).
  assert (AT : forall a c attr t, In a (assets (island R n)) -> cls a = c -> ObjectiveSpec.at_ z (o_view a) (c ++ "-" ++ attr) t = ObjectiveSpec.at_ x (o_view a) (c ++ "-" ++ attr) t).
  { intros a c attr t J <-. unfold ObjectiveSpec.at_. cbn [o_view ObjectiveModel.a_name]. now rewrite V. }
  assert (DI : forall a t, In a (assets (island R n)) -> ObjectiveSpec.dispatch z (o_view a) t = ObjectiveSpec.dispatch x (o_view a) t).
  { intros a t J. unfold ObjectiveSpec.dispatch. repeat match goal with |- context [if ObjectiveSpec.is (o_view a) [?c] then _ else _] => destruct (ObjectiveSpec.is (o_view a) [c]) eqn:?; [apply (AT a c); auto|] end. reflexivity. }
  assert (ST : forall a t, In a (assets (island R n)) -> ObjectiveSpec.stored z (o_view a) t = ObjectiveSpec.stored x (o_view a) t).
  { intros a t J. unfold ObjectiveSpec.stored. repeat match goal with |- context [if ObjectiveSpec.is (o_view a) [?c] then _ else _] => destruct (ObjectiveSpec.is (o_view a) [c]) eqn:?; [apply (AT a c); auto|] end. reflexivity. }
  assert (SP : forall a t, In a (assets (island R n)) -> ObjectiveSpec.spilled z (o_view a) t = ObjectiveSpec.spilled x (o_view a) t).
  { intros a t J. unfold ObjectiveSpec.spilled. destruct (ObjectiveSpec.is (o_view a) ["StorageUnit"]) eqn:E; [|reflexivity]. destruct (ObjectiveModel.positive _); [|reflexivity]. apply (AT a "StorageUnit" "spill"); auto. }
  assert (UN : forall a w t, In a (assets (island R n)) -> ObjectiveSpec.unit_value z w (o_view a) t = ObjectiveSpec.unit_value x w (o_view a) t).
  { intros a w t J. unfold ObjectiveSpec.unit_value. destruct (ObjectiveModel.a_com _); [|reflexivity]. destruct (ObjectiveSpec.is (o_view a) ["Generator"]) eqn:E; [apply (AT a "Generator" w); auto|]. destruct (ObjectiveSpec.is (o_view a) ["Link"]) eqn:E'; [apply (AT a "Link" w); auto|]. reflexivity. }
  assert (CP : forall a, In a (assets (island R n)) -> ObjectiveSpec.capacity z (o_view a) = ObjectiveSpec.capacity x (o_view a)).
  { intros a J. unfold ObjectiveSpec.capacity. destruct (ObjectiveModel.a_ext _); [|reflexivity]. cbn [o_view ObjectiveModel.a_name].
    assert (W : In (cls a) classes) by (apply (se_names _ _ SE); apply in_side in J; tauto). unfold classes in W. cbn [In] in W. unfold ObjectiveSpec.is. cbn [o_view ObjectiveModel.a_class existsb].
    destruct W as [W|[W|[W|[W|[W|[W|[]]]]]]]; rewrite <- W; cbn [String.eqb Ascii.eqb Bool.eqb orb];
      [assert (G := V a "p_nom" O J)|assert (G := V a "s_nom" O J)|assert (G := V a "s_nom" O J)|assert (G := V a "p_nom" O J)|assert (G := V a "e_nom" O J)|assert (G := V a "p_nom" O J)]; rewrite <- W in G; exact G. }
  unfold costs, ObjectiveSpec.expansion, ObjectiveSpec.operating, ObjectiveSpec.switching_cost. cbn [ObjectiveModel.assets o_net]. apply Qplus_comp; [apply Qplus_comp|].
  - rewrite !BalanceProofs.total_map. apply BalanceProofs.total_ext. intros a J. rewrite CP by exact J. reflexivity.
  - apply BalanceProofs.total_ext. intros t _. apply Qmult_comp; [reflexivity|]. rewrite !BalanceProofs.total_map. apply BalanceProofs.total_ext. intros a J. unfold ObjectiveSpec.running. rewrite DI, ST, SP, UN by exact J. reflexivity.
  - apply BalanceProofs.total_ext. intros t _. rewrite !BalanceProofs.total_map. apply BalanceProofs.total_ext. intros a J. unfold ObjectiveSpec.starts. rewrite !UN by exact J. reflexivity.
Qed.
(* the objective of the whole is defined if those of both parts are *)
Lemma cls_side R c : ObjectiveModel.cls (o_net (island R n)) c = map o_view (filter (fun a => R (bus0 a)) (of_class n c)) /\ ObjectiveModel.cls (o_net n) c = map o_view (of_class n c).
Proof.
  assert (G : forall m, ObjectiveModel.cls (o_net m) c = map o_view (of_class m c)).
  { intros m. unfold ObjectiveModel.cls, of_class. cbn [ObjectiveModel.assets o_net]. induction (assets m) as [|a r IH]; [reflexivity|]. cbn [map filter o_view ObjectiveModel.a_class]. fold (o_view a). destruct (String.eqb (cls a) c); cbn [map]; now rewrite IH. }
  rewrite !G, class_A. auto.
Qed.
Lemma cls_sub R c : incl (ObjectiveModel.cls (o_net (island R n)) c) (ObjectiveModel.cls (o_net n) c).
Proof. destruct (cls_side R c) as [-> ->]. intros a J. apply in_map_iff in J. destruct J as (b & <- & J). apply filter_In in J. apply in_map. tauto. Qed.
Lemma cls_sides c a : In a (ObjectiveModel.cls (o_net n) c) -> In a (ObjectiveModel.cls (o_net A) c) \/ In a (ObjectiveModel.cls (o_net B) c).
Proof.
  destruct (cls_side S c) as [-> ->]. destruct (cls_side (other S) c) as [-> _]. intros J. apply in_map_iff in J. destruct J as (b & <- & J). destruct (S (bus0 b)) eqn:E; [left|right]; apply in_map, filter_In; split; auto. unfold other. now rewrite E.
Qed.
Lemma nonempty_sub {X} (l l' : list X) : incl l l' -> ObjectiveModel.nonempty l' = false -> ObjectiveModel.nonempty l = false.
Proof. destruct l as [|a r]; [reflexivity|]. intros H. destruct l'; [|discriminate]. destruct (H a (or_introl eq_refl)). Qed.
Lemma incl_filter {X} (p : X -> bool) l l' : incl l l' -> incl (filter p l) (filter p l').
Proof. intros H a J. apply filter_In in J. apply filter_In. split; [apply H|]; tauto. Qed.
Lemma flat_none {X Y} (g : X -> list Y) l : flat_map g l = [] <-> forall k, In k l -> g k = [].
Proof.
  induction l as [|k r IH]; [cbn; tauto|]. cbn [flat_map]. split.
  - intros E. apply app_eq_nil in E. intros j [<-|J]; [tauto|]. apply IH; tauto.
  - intros H. rewrite (H k) by now left. apply IH. intros j J. apply H. now right.
Qed.
Lemma none_side R : ObjectiveModel.pieces (o_net n) = [] -> ObjectiveModel.pieces (o_net (island R n)) = [].
Proof.
  unfold ObjectiveModel.pieces. intros E. do 8 (apply app_eq_nil in E; destruct E as [? E]).
  assert (INV : forall c, In c (map fst ObjectiveModel.nominal) -> ObjectiveModel.nonempty (ObjectiveModel.ext (o_net n) c) = false).
  { unfold ObjectiveModel.investment in *. match goal with H : flat_map _ ObjectiveModel.nominal = [] |- _ => rewrite flat_none in H; intros c J; apply in_map_iff in J; destruct J as (ca & <- & J); specialize (H ca J) end. destruct (ObjectiveModel.nonempty _); [discriminate|reflexivity]. }
  assert (EX : forall c, In c (map fst ObjectiveModel.nominal) -> ObjectiveModel.nonempty (ObjectiveModel.ext (o_net (island R n)) c) = false).
  { intros c J. apply (nonempty_sub _ (ObjectiveModel.ext (o_net n) c)); [|now apply INV]. apply incl_filter, cls_sub. }
  assert (CO : incl (ObjectiveModel.com (o_net (island R n)) "Generator") (ObjectiveModel.com (o_net n) "Generator") /\ incl (ObjectiveModel.com (o_net (island R n)) "Link") (ObjectiveModel.com (o_net n) "Link")) by (split; apply incl_filter, cls_sub).
  assert (OP : forall sq f rows, ObjectiveModel.operation (o_net n) sq f rows = [] -> ObjectiveModel.operation (o_net (island R n)) sq f rows = []).
  { intros sq f rows. unfold ObjectiveModel.operation. rewrite !flat_none. intros G ca J. specialize (G ca J). cbn zeta in *. rewrite (nonempty_sub _ (filter (ObjectiveModel.charged (o_net n) f) (ObjectiveModel.cls (o_net n) (fst ca)))); [reflexivity| |].
    - change (ObjectiveModel.charged (o_net (island R n)) f) with (ObjectiveModel.charged (o_net n) f). apply incl_filter, cls_sub.
    - destruct (ObjectiveModel.nonempty _); [discriminate|reflexivity]. }
  assert (SUM : forall (f : ObjectiveModel.asset -> Q) l, (forall a, In a l -> 0 <= f a) -> 0 <= fold_right (fun a q => f a + q) 0 l /\ (fold_right (fun a q => f a + q) 0 l == 0 -> forall a, In a l -> f a == 0)).
  { intros f l. induction l as [|a r IH]; intros P; [split; [apply Qle_refl|intros _ a []]|]. cbn [fold_right]. destruct IH as [I1 I2]; [intros b J; apply P; now right|]. pose proof (P a (or_introl eq_refl)). split; [lra|]. intros Z b [<-|J]; [lra|]. apply I2; auto; lra. }
  assert (ZS : forall (f : ObjectiveModel.asset -> Q) l, (forall a, In a l -> f a == 0) -> fold_right (fun a q => f a + q) 0 l == 0).
  { intros f l. induction l as [|a r IH]; intros P; [reflexivity|]. cbn [fold_right]. rewrite IH by (intros b J; apply P; now right). rewrite P by now left. reflexivity. }
  assert (SW : forall attr f, (forall a, In a (assets n) -> 0 <= f (o_view a)) -> ObjectiveModel.switching (o_net n) attr f = [] -> ObjectiveModel.switching (o_net (island R n)) attr f = []).
  { intros attr f P. unfold ObjectiveModel.switching. rewrite !flat_none. intros G c J. specialize (G c J). destruct (Qeq_bool (fold_right (fun a q => f a + q) 0 (ObjectiveModel.com (o_net n) c)) 0) eqn:Z; [|discriminate]. apply Qeq_bool_iff in Z.
    assert (Z' : fold_right (fun a q => f a + q) 0 (ObjectiveModel.com (o_net (island R n)) c) == 0).
    { apply ZS. intros a Ja. apply (proj2 (SUM f (ObjectiveModel.com (o_net n) c) ltac:(intros b Jb; unfold ObjectiveModel.com, ObjectiveModel.cls in Jb; apply filter_In in Jb; destruct Jb as [Jb _]; apply filter_In in Jb; destruct Jb as [Jb _]; cbn [ObjectiveModel.assets o_net] in Jb; apply in_map_iff in Jb; destruct Jb as (d & <- & Jd); now apply P))); [exact Z|].
      revert Ja. apply incl_filter, cls_sub. }
    apply Qeq_bool_iff in Z'. now rewrite Z'. }
  rewrite !OP by assumption. rewrite (SW "start_up") by (auto; intros a J; apply (CS a J)). rewrite (SW "shut_down") by (auto; intros a J; apply (CS a J)).
  assert (CZ : Qeq_bool (ObjectiveModel.constant (o_net (island R n))) 0 = true).
  { apply Qeq_bool_iff. unfold ObjectiveModel.constant, ObjectiveModel.nominal. cbn [fold_right fst].
    assert (NI : forall c, In c (map fst ObjectiveModel.nominal) -> ObjectiveModel.ext (o_net (island R n)) c = []) by (intros c J; specialize (EX c J); destruct (ObjectiveModel.ext _ c); [reflexivity|discriminate]).
    rewrite !NI by (cbn; tauto). reflexivity. }
  rewrite CZ. cbn [app].
  assert (IV : ObjectiveModel.investment (o_net (island R n)) = []) by (unfold ObjectiveModel.investment; apply flat_none; intros ca J; rewrite EX; [reflexivity|now apply in_map]).
  assert (SB : ObjectiveModel.standby (o_net (island R n)) = []).
  { unfold ObjectiveModel.standby in *. match goal with H : flat_map _ ["Generator"; "Link"] = [] |- _ => rewrite flat_none in H; apply flat_none; intros c J; specialize (H c J) end.
    rewrite (nonempty_sub _ (ObjectiveModel.com (o_net n) c)); [reflexivity|apply incl_filter, cls_sub|]. destruct (ObjectiveModel.nonempty (ObjectiveModel.com (o_net n) c)); [discriminate|reflexivity]. }
  rewrite IV, SB. reflexivity.
Qed.
Lemma objective_some m : define_objective m <> None <-> existsb ObjectiveModel.is_missing (ObjectiveModel.pieces (o_net m)) = false /\ ObjectiveModel.pieces (o_net m) <> [].
Proof.
  unfold define_objective, ObjectiveModel.objective. destruct (existsb _ _); [split; [congruence|intros [E _]; discriminate E]|]. destruct (ObjectiveModel.pieces (o_net m)) as [|p r]; cbn [ObjectiveModel.nonempty]; split; try congruence; try tauto. intros _. split; [reflexivity|discriminate].
Qed.
Lemma exists_false {X} (f : X -> bool) l : existsb f l = false <-> forall a, In a l -> f a = false.
Proof.
  induction l as [|a r IH]; cbn; [tauto|]. rewrite orb_false_iff, IH. split; [intros [E H] b [<-|J]; auto|]. intros H. split; [apply H; now left|intros b J; apply H; now right].
Qed.
Lemma missing_in m : existsb ObjectiveModel.is_missing (ObjectiveModel.pieces (o_net m)) = true <->
  ObjectiveModel.nonempty (filter (ObjectiveModel.charged (o_net m) ObjectiveModel.a_spill) (ObjectiveModel.cls (o_net m) "StorageUnit")) = true /\ ObjectiveModel.exists_array (o_net m) "StorageUnit" "spill" = false.
Proof.
  unfold ObjectiveModel.pieces. rewrite !existsb_app.
  assert (NS : forall sq f rows, (forall l, ObjectiveModel.is_missing (sq l) = false) -> (forall ca, In ca rows -> ObjectiveModel.is_spill (ObjectiveModel.vname (fst ca) (snd ca)) = false) -> existsb ObjectiveModel.is_missing (ObjectiveModel.operation (o_net m) sq f rows) = false).
  { intros sq f rows Q R. apply exists_false. intros p J. unfold ObjectiveModel.operation in J. apply in_flat_map in J. destruct J as (ca & Jc & J). cbn zeta in J.
    destruct (ObjectiveModel.nonempty (filter _ _)) eqn:NE; [|destruct J]. destruct J as [<-|[]]. unfold ObjectiveModel.exists_array. rewrite R by exact Jc.
    destruct (ObjectiveModel.cls (o_net m) (fst ca)) as [|a r]; [discriminate NE|]. cbn [ObjectiveModel.nonempty]. apply Q. }
  rewrite (NS ObjectiveModel.Linear ObjectiveModel.a_marginal), (NS ObjectiveModel.Linear ObjectiveModel.a_storage), (NS ObjectiveModel.Square ObjectiveModel.a_quadratic); try reflexivity;
    try (intros ca J; cbn in J; repeat (destruct J as [<-|J]; [reflexivity|]); destruct J).
  assert (ST : existsb ObjectiveModel.is_missing (ObjectiveModel.standby (o_net m)) = false) by (apply exists_false; intros p J; apply in_flat_map in J; destruct J as (c & _ & J); destruct (ObjectiveModel.nonempty _); [destruct J as [<-|[]]; reflexivity|destruct J]).
  assert (IV : existsb ObjectiveModel.is_missing (ObjectiveModel.investment (o_net m)) = false) by (apply exists_false; intros p J; apply in_flat_map in J; destruct J as (c & _ & J); destruct (ObjectiveModel.nonempty _); [destruct J as [<-|[]]; reflexivity|destruct J]).
  assert (SW : forall attr f, existsb ObjectiveModel.is_missing (ObjectiveModel.switching (o_net m) attr f) = false) by (intros attr f; apply exists_false; intros p J; apply in_flat_map in J; destruct J as (c & _ & J); destruct (Qeq_bool _ _); [destruct J|destruct J as [<-|[]]; reflexivity]).
  rewrite ST, IV, !SW. assert (C : existsb ObjectiveModel.is_missing (if Qeq_bool (ObjectiveModel.constant (o_net m)) 0 then [] else [ObjectiveModel.Linear [(-(1), ObjectiveModel.const_label)]]) = false) by (destruct (Qeq_bool _ 0); reflexivity).
  rewrite C. cbn [orb]. rewrite orb_false_r. unfold ObjectiveModel.operation, ObjectiveModel.of_spill. cbn [flat_map fst snd app]. cbn zeta. destruct (ObjectiveModel.nonempty _); [|cbn; split; [discriminate|intros [E _]; discriminate E]].
  destruct (ObjectiveModel.exists_array _ _ _); cbn; split; auto; try discriminate. intros [_ E]. discriminate E.
Qed.
Lemma spill_array m : ObjectiveModel.exists_array (o_net m) "StorageUnit" "spill" = existsb (fun a => existsb (fun t => ObjectiveModel.positive (ObjectiveModel.a_inflow a t)) (seq 0 (nsnaps m))) (ObjectiveModel.cls (o_net m) "StorageUnit").
Proof. reflexivity. Qed.
Lemma objective_both : define_objective A <> None -> define_objective B <> None -> define_objective n <> None.
Proof.
  rewrite !objective_some. intros [MA NA] [MB NB]. split.
  - apply not_true_iff_false. intros M. apply missing_in in M. destruct M as [M1 M2]. rewrite spill_array in M2.
    assert (SD : forall R, ObjectiveModel.exists_array (o_net (island R n)) "StorageUnit" "spill" = false) by (intros R; rewrite spill_array; apply exists_false; intros a J; rewrite exists_false in M2; apply M2; now apply (cls_sub R)).
    destruct (filter (ObjectiveModel.charged (o_net n) ObjectiveModel.a_spill) (ObjectiveModel.cls (o_net n) "StorageUnit")) as [|a r] eqn:F; [discriminate|].
    assert (J : In a (filter (ObjectiveModel.charged (o_net n) ObjectiveModel.a_spill) (ObjectiveModel.cls (o_net n) "StorageUnit"))) by (rewrite F; now left). apply filter_In in J. destruct J as [J CH]. apply cls_sides in J.
    assert (G : forall R, In a (ObjectiveModel.cls (o_net (island R n)) "StorageUnit") -> existsb ObjectiveModel.is_missing (ObjectiveModel.pieces (o_net (island R n))) = true).
    { clear F M1. intros R K. apply missing_in. split; [|apply SD]. destruct (filter _ _) eqn:F'; [|reflexivity]. assert (X : In a (filter (ObjectiveModel.charged (o_net (island R n)) ObjectiveModel.a_spill) (ObjectiveModel.cls (o_net (island R n)) "StorageUnit"))) by (apply filter_In; auto). rewrite F' in X. destruct X. }
    destruct J as [J|J]; apply G in J; congruence.
  - intros E. apply NA. now apply none_side.
Qed.
Lemma cost_defined m x : define_objective m <> None <-> cost m x <> None.
Proof. unfold cost. destruct (define_objective m); cbn; split; congruence. Qed.
Lemma sub_side R a : In a (assets (island R n)) -> In a (assets n).
Proof. intros J. apply in_side in J. tauto. Qed.
Lemma cost_both x y z p q : feasible kvl A x -> feasible kvl B y -> feasible kvl n z -> carries A x z -> carries B y z -> cost A x = Some p -> cost B y = Some q -> exists r, cost n z = Some r /\ r == p + q.
Proof.
  intros FX FY FZ CX CY EX EY. assert (D : define_objective n <> None) by (apply objective_both; [apply (cost_defined A x)|apply (cost_defined B y)]; congruence). apply (cost_defined n z) in D.
  destruct (cost n z) as [r|] eqn:EZ; [|congruence]. exists r. split; [reflexivity|].
  rewrite (cost_costs n z r (fun a J => J) (IdleProofs.const_of _ _ _ FZ) EZ), (cost_costs A x p (sub_side S) (IdleProofs.const_of _ _ _ FX) EX), (cost_costs B y q (sub_side (other S)) (IdleProofs.const_of _ _ _ FY) EY).
  rewrite costs_both. now rewrite (costs_carried S x z CX), (costs_carried (other S) y z CY).
Qed.
Lemma carries_sym m x z : carries m x z -> carries m z x.
Proof. intros H a v J Bv. symmetry. eauto. Qed.
Lemma split_solution z : feasible kvl n z -> exists x y, feasible kvl A x /\ carries A x z /\ feasible kvl B y /\ carries B y z.
Proof.
  intros F. exists (setc z (ObjectiveModel.constant (o_net A))), (setc z (ObjectiveModel.constant (o_net B))).
  split; [apply split_side; auto|]. split; [apply carries_sym, setc_same|]. split; [apply split_side; auto|apply carries_sym, setc_same].
Qed.
Lemma optimal_join x y : optimal kvl A x -> optimal kvl B y -> exists z, optimal kvl n z /\ carries A x z /\ carries B y z.
Proof.
  intros [FX (p & EX & BX)] [FY (q & EY & BY)]. exists (join x y). pose proof (join_left x y) as CL. pose proof (join_right x y) as CR. split; [|auto]. assert (FZ := join_feasible x y FX FY). split; [exact FZ|].
  destruct (cost_both x y _ p q FX FY FZ CL CR EX EY) as (r & ER & R). exists r. split; [exact ER|]. intros w s FW EW. destruct (split_solution w FW) as (u & v & FU & CU & FV & CV).
  assert (DU : define_objective A <> None) by (apply (cost_defined A x); congruence). assert (DV : define_objective B <> None) by (apply (cost_defined B y); congruence).
  apply (cost_defined A u) in DU. apply (cost_defined B v) in DV. destruct (cost A u) as [p'|] eqn:EU; [|congruence]. destruct (cost B v) as [q'|] eqn:EV; [|congruence].
  destruct (cost_both u v w p' q' FU FV FW CU CV EU EV) as (s' & ES & R'). rewrite EW in ES. injection ES as <-. pose proof (BX u p' FU EU). pose proof (BY v q' FV EV). lra.
Qed.
Lemma optimal_split z x y : define_objective A <> None -> define_objective B <> None -> optimal kvl n z -> feasible kvl A x -> feasible kvl B y -> carries A x z -> carries B y z -> optimal kvl A x /\ optimal kvl B y.
Proof.
  intros DA DB [FZ (r & EZ & BZ)] FX FY CX CY. pose proof (proj1 (cost_defined A x) DA) as PX. pose proof (proj1 (cost_defined B y) DB) as PY.
  destruct (cost A x) as [p|] eqn:EX; [|congruence]. destruct (cost B y) as [q|] eqn:EY; [|congruence].
  destruct (cost_both x y z p q FX FY FZ CX CY EX EY) as (r' & ER & R). rewrite EZ in ER. injection ER as <-.
  split; (split; [assumption|]).
  - exists p. split; [exact EX|]. intros u p' FU EU. destruct (cost_both u y (join u y) p' q FU FY (join_feasible u y FU FY) (join_left u y) (join_right u y) EU EY) as (s & ES & RS). pose proof (BZ _ s (join_feasible u y FU FY) ES). lra.
  - exists q. split; [exact EY|]. intros v q' FV EV. destruct (cost_both x v (join x v) p q' FX FV (join_feasible x v FX FV) (join_left x v) (join_right x v) EX EV) as (s & ES & RS). pose proof (BZ _ s (join_feasible x v FX FV) ES). lra.
Qed.
Lemma join_solution x y : feasible kvl A x -> feasible kvl B y -> exists z, feasible kvl n z /\ carries A x z /\ carries B y z.
Proof. intros FX FY. exists (join x y). split; [now apply join_feasible|]. split; [apply join_left|apply join_right]. Qed.
End I.
