From Coq Require Import List String Bool QArith ZArith Arith Lia Lqa.
From Verif Require Import LinModel LinProofs WholeModel IdleSpec.
From Verif Require DispatchModel RampModel CommitModel BalanceModel StorageModel LimitModel CapModel LossModel ObjectiveModel.
From Verif Require BalanceSpec BalanceProofs CapSpec CapProofs ObjectiveSpec ObjectiveProofs.
Import ListNotations.
Open Scope string_scope.
Open Scope list_scope.
Open Scope Q_scope.
Notation problem := CapModel.problem.

(* lists *)
Lemma filter_comm {A} (f g : A -> bool) l : filter f (filter g l) = filter g (filter f l).
Proof. induction l as [|a l IH]; [reflexivity|]. cbn [filter]. destruct (g a) eqn:G, (f a) eqn:F; cbn [filter]; rewrite ?F, ?G, IH; reflexivity. Qed.
Lemma filter_map {A B} (f : B -> bool) (v : A -> B) l : filter f (map v l) = map v (filter (fun a => f (v a)) l).
Proof. induction l as [|a l IH]; [reflexivity|]. cbn [map filter]. destruct (f (v a)); cbn [map]; rewrite IH; reflexivity. Qed.
Lemma flat_drop {A B} (g : A -> list B) (f : A -> bool) l : (forall a, In a l -> f a = false -> g a = []) -> flat_map g (filter f l) = flat_map g l.
Proof.
  induction l as [|a l IH]; intros H; [reflexivity|]. cbn [filter flat_map]. destruct (f a) eqn:F; cbn [flat_map]; rewrite IH by (intros b I; apply H; now right); [reflexivity|].
  rewrite (H a (or_introl eq_refl) F). reflexivity.
Qed.
Lemma flat_map_ext' {A B} (f g : A -> list B) l : (forall a, In a l -> f a = g a) -> flat_map f l = flat_map g l.
Proof. induction l as [|a l IH]; intros H; [reflexivity|]. cbn [flat_map]. rewrite (H a (or_introl eq_refl)), IH; auto. intros b I. apply H. now right. Qed.
Lemma flat_map_map {A B C} (f : B -> list C) (g : A -> B) l : flat_map f (map g l) = flat_map (fun a => f (g a)) l.
Proof. induction l as [|a l IH]; [reflexivity|]. cbn [map flat_map]. now rewrite IH. Qed.
Lemma filter_flat {A B} (f : B -> bool) (g : A -> list B) l : filter f (flat_map g l) = flat_map (fun a => filter f (g a)) l.
Proof. induction l as [|a l IH]; [reflexivity|]. cbn [flat_map]. rewrite filter_app, IH. reflexivity. Qed.

(* rows masked by activity *)
Lemma add_drop {A} (v : asset -> A) P ts mask (f : nat -> A -> con) l : (forall t a, flag a = false -> mask t (v a) = false) ->
  add_constraints ts (filter P (map v (filter flag l))) mask f = add_constraints ts (filter P (map v l)) mask f.
Proof.
  intros M. unfold add_constraints. apply flat_map_ext'. intros t _. rewrite !filter_map, !flat_map_map, filter_comm. apply flat_drop.
  intros a _ F. rewrite (M t a F). reflexivity.
Qed.
Lemma add_drop' {A} (v : asset -> A) ts mask (f : nat -> A -> con) l : (forall t a, flag a = false -> mask t (v a) = false) ->
  add_constraints ts (map v (filter flag l)) mask f = add_constraints ts (map v l) mask f.
Proof.
  intros M. unfold add_constraints. apply flat_map_ext'. intros t _. rewrite !flat_map_map. apply flat_drop.
  intros a _ F. rewrite (M t a F). reflexivity.
Qed.
Lemma flat_nil {A B} (f : A -> list B) l : (forall a, In a l -> f a = []) -> flat_map f l = [].
Proof. induction l as [|a l IH]; intros H; [reflexivity|]. cbn [flat_map]. rewrite (H a (or_introl eq_refl)), IH; auto. intros b I. apply H. now right. Qed.
Lemma add_nil {A} ts (comps : list A) mask f : (forall t a, In t ts -> In a comps -> mask t a = false) -> add_constraints ts comps mask f = [].
Proof. intros M. unfold add_constraints. apply flat_nil. intros t It. apply flat_nil. intros a Ia. rewrite (M t a It Ia). reflexivity. Qed.

Lemma class_removed n c : of_class (removed n) c = filter flag (of_class n c).
Proof. unfold of_class, removed. cbn [assets]. apply filter_comm. Qed.

(* a row without the terms that do not exist *)
Definition is_some (cv : Q * label) : bool := match snd cv with Some _ => true | None => false end.
Definition live (l : lin) : lin := filter is_some l.
Lemma eval_live x l : eval x (live l) == eval x l.
Proof. induction l as [|[q [v|]] l IH]; cbn [live filter is_some snd eval val]; [reflexivity|rewrite <- IH; reflexivity|]. change (filter is_some l) with (live l). rewrite IH. ring. Qed.
Lemma live_app l r : live (l ++ r) = live l ++ live r.
Proof. apply filter_app. Qed.
Lemma has_live c : CapModel.has_term c = match live (lhs c) with [] => false | _ => true end.
Proof. unfold CapModel.has_term. induction (lhs c) as [|[q [v|]] l IH]; [reflexivity|reflexivity|]. cbn [existsb snd live filter is_some orb]. exact IH. Qed.
Definition alike (c c' : con) : Prop := live (lhs c) = live (lhs c') /\ sns c = sns c' /\ rhs c == rhs c'.
Lemma alike_term c c' : alike c c' -> CapModel.has_term c = CapModel.has_term c'.
Proof. intros [L _]. now rewrite !has_live, L. Qed.
Lemma alike_holds x c c' : alike c c' -> (holds x c <-> holds x c').
Proof.
  intros [L [S R]]. unfold holds. rewrite S. pose proof (eval_live x (lhs c)) as E. pose proof (eval_live x (lhs c')) as E'. rewrite L in E.
  destruct (sns c'); rewrite R, <- E, E'; tauto.
Qed.
Lemma sat_problem x cs : sat x (problem cs) <-> forall c, In c cs -> CapModel.has_term c = true -> holds x c.
Proof. apply CapProofs.sat_problem. Qed.
Lemma sat_problem_app x a b : sat x (problem (a ++ b)) <-> sat x (problem a) /\ sat x (problem b).
Proof. unfold CapModel.problem. rewrite filter_app. apply sat_app. Qed.

Definition same_rows (a b : list con) : Prop := forall x, sat x (problem a) <-> sat x (problem b).
Definition same (o o' : option (list con)) : Prop :=
  match o, o' with Some a, Some b => same_rows a b | None, None => True | _, _ => False end.
Lemma same_refl o : same o o.
Proof. destruct o; [intros x; tauto|exact I]. Qed.
Lemma same_eq a b : problem a = problem b -> same_rows a b.
Proof. intros E x. now rewrite E. Qed.
Lemma same_alike a b : Forall2 alike a b -> same_rows a b.
Proof.
  intros F x. rewrite !sat_problem. induction F as [|c c' l l' E F IH]; [tauto|].
  split; intros H d [<-|I] T.
  - apply (alike_holds x _ _ E). apply H; [now left|]. now rewrite (alike_term _ _ E).
  - apply (proj1 IH); auto. intros e J. apply H. now right.
  - apply (alike_holds x _ _ E). apply H; [now left|]. now rewrite <- (alike_term _ _ E).
  - apply (proj2 IH); auto. intros e J. apply H. now right.
Qed.
Lemma collect_same l l' : Forall2 same l l' -> same (collect l) (collect l').
Proof.
  intros F. induction F as [|o o' l l' S F IH]; [intros x; tauto|]. cbn [collect]. destruct o as [a|], o' as [b|]; try contradiction; [|exact I].
  destruct (collect l) as [cs|], (collect l') as [cs'|]; cbn [option_map same] in *; try contradiction; [|exact I].
  intros x. rewrite !sat_problem_app. specialize (S x). specialize (IH x). tauto.
Qed.

Section N.
Variable n : net.
Notation T := (nsnaps n).
Notation r := (removed n).

(* operation *)
Lemma commitment_idle c a T' : flag a = false -> CommitModel.commitment c (u_view a) T' false = [].
Proof.
  intros F. unfold CommitModel.commitment, CommitModel.transition, CommitModel.up_time, CommitModel.down_time, CommitModel.stay_up, CommitModel.stay_down.
  rewrite !add_nil; [destruct (Nat.eqb _ 0), (Nat.eqb _ 0); reflexivity|..]; intros t u _ [<-|[]]; cbn [CommitModel.u_active u_view]; unfold on; rewrite ?F; auto using andb_false_r.
Qed.
Lemma tighten_idle c a T' : flag a = false -> CommitModel.tighten c (u_view a) T' = [].
Proof. intros F. unfold CommitModel.tighten. cbn zeta. rewrite !add_nil; [reflexivity|..]; intros t u _ [<-|[]]; exact F. Qed.

Lemma ramps_removed c na : c = "Generator" \/ c = "Link" -> detached n ->
  RampModel.ramps c na T false (map r_view (filter flag (of_class n c))) = RampModel.ramps c na T false (map r_view (of_class n c)).
Proof.
  intros C D. unfold RampModel.ramps. set (act := map r_view (filter flag (of_class n c))). set (all := map r_view (of_class n c)).
  assert (E : RampModel.fixed_ramps c T false act ++ RampModel.extendable_ramps c na T false act ++ RampModel.com_ramps c T false act =
              RampModel.fixed_ramps c T false all ++ RampModel.extendable_ramps c na T false all ++ RampModel.com_ramps c T false all).
  { unfold RampModel.fixed_ramps, RampModel.extendable_ramps, RampModel.com_ramps, RampModel.fix_, RampModel.ext_, RampModel.com_, act, all.
    rewrite !add_drop; [reflexivity|..]; intros t a F; cbn; unfold on; rewrite F; reflexivity. }
  assert (IA : forall a, In a (filter flag (of_class n c)) <-> In a (assets n) /\ cls a = c /\ flag a = true).
  { intros a. unfold of_class. rewrite !filter_In, String.eqb_eq. tauto. }
  assert (IN : forall a, In a (of_class n c) <-> In a (assets n) /\ cls a = c).
  { intros a. unfold of_class. rewrite filter_In, String.eqb_eq. tauto. }
  assert (EV : forall f l, RampModel.everywhere T (map r_view l) f = true <-> forall a t, In a l -> (t < T)%nat -> f (up a t) = true /\ f (down a t) = true).
  { intros f l. unfold RampModel.everywhere. rewrite forallb_forall. split.
    - intros H a t I L. specialize (H (r_view a) (in_map _ _ _ I)). rewrite forallb_forall in H. specialize (H t). rewrite in_seq in H. specialize (H ltac:(lia)). now apply andb_true_iff in H.
    - intros H b I. apply in_map_iff in I. destruct I as [a [<- I]]. apply forallb_forall. intros t L. apply in_seq in L. apply andb_true_iff. apply H; auto. lia. }
  assert (one : forall o, RampModel.is_one o = true <-> exists q, o = Some q /\ q == 1).
  { intros [q|]; cbn; [rewrite Qeq_bool_iff|]; split; [eauto|intros [p [P Z]]; injection P as <-; auto|discriminate|intros [p [P _]]; discriminate]. }
  destruct (RampModel.early_return T all) eqn:G.
  - assert (G' : RampModel.early_return T act = true); [|now rewrite G'].
    unfold RampModel.early_return in *. apply orb_true_iff in G. apply orb_true_iff. unfold act, all in *. rewrite !EV in *. destruct G as [G|G]; [left|right]; intros a t I; apply G; apply filter_In in I; tauto.
  - destruct (RampModel.early_return T act) eqn:G'; [|exact E]. unfold RampModel.early_return in G'. apply orb_true_iff in G'. destruct G' as [G'|G'].
    + rewrite <- E. unfold act in *. rewrite EV in G'.
      assert (NR : forall a, In a (filter flag (of_class n c)) -> forall t, (t < T)%nat -> up a t = None /\ down a t = None).
      { intros a I t L. destruct (G' a t I L) as [U W]. destruct (up a t), (down a t); try discriminate; auto. }
      assert (NS : forall a, In a (filter flag (of_class n c)) -> up_static a = None /\ down_static a = None).
      { intros a I. apply (de_static n D c C); try (apply IA in I; tauto). intros b Ib Cb Fb t L. apply NR; auto. apply IA. auto. }
      unfold RampModel.fixed_ramps, RampModel.extendable_ramps, RampModel.com_ramps, RampModel.fix_, RampModel.ext_, RampModel.com_.
      rewrite !add_nil; [reflexivity|..]; intros t b Lt Ib; apply filter_In in Ib; destruct Ib as [Ib _]; apply in_map_iff in Ib; destruct Ib as [a [<- Ia]];
        unfold RampModel.times in Lt; apply in_seq in Lt; assert (L : (t < T)%nat) by lia; destruct (NR a Ia t L) as [U W]; destruct (NS a Ia) as [US WS]; cbn; rewrite ?U, ?W, ?US, ?WS; apply andb_false_r.
    + exfalso. unfold act in G'. rewrite EV in G'.
      assert (A : active_all n c (unit_ramps T)).
      { intros a I K F t L. destruct (G' a t (proj2 (IA a) (conj I (conj K F))) L) as [U W]. apply one in U. apply one in W. destruct U as [u [U ?]], W as [d [W ?]]. eauto 8. }
      pose proof (de_ramps n D c C A) as B.
      assert (Y : RampModel.early_return T all = true); [|congruence]. unfold RampModel.early_return. apply orb_true_iff. right. unfold all. apply EV. intros a t I L. apply IN in I. destruct I as [I K].
      assert (UR : unit_ramps T a) by (destruct (flag a) eqn:F; [apply A|apply B]; auto). destruct (UR t L) as [u [d [-> [-> [U W]]]]]. split; apply one; eauto.
Qed.

Lemma operation_removed : detached n -> operation r = operation n.
Proof.
  intros D. unfold operation. apply flat_map_ext'. intros [[[c attr] na] k] I. unfold operation_of, commitment_of, lossy, tightened. rewrite !class_removed. cbn [nsnaps tangents linear removed].
  f_equal; [|f_equal; [|f_equal; [|f_equal; [|f_equal]]]].
  - unfold DispatchModel.non_extendables, DispatchModel.fixed_assets. rewrite !add_drop; [reflexivity|..]; intros t a F; exact F.
  - unfold DispatchModel.extendables, DispatchModel.ext_assets. rewrite !add_drop; [reflexivity|..]; intros t a F; exact F.
  - unfold DispatchModel.committables, DispatchModel.com_assets. rewrite !add_drop; [reflexivity|..]; intros t a F; exact F.
  - rewrite !(filter_comm com flag). f_equal; apply flat_drop; intros a _ F; rewrite ?(commitment_idle _ _ _ F), ?(tighten_idle _ _ _ F); auto. destruct (linear n && _); reflexivity.
  - destruct (has_uc c) eqn:U; [|reflexivity]. unfold has_uc in U. apply orb_true_iff in U. rewrite !String.eqb_eq in U. apply ramps_removed; auto.
  - unfold DispatchModel.fixed_operation. apply add_drop'. intros t a F. cbn. unfold on. rewrite F. destruct (op_set a attr t); reflexivity.
Qed.

(* storage *)
Lemma storage_idle lev a flows inflow : flag a = false -> StorageModel.energy_balance T None lev (s_view a) flows inflow = [].
Proof. intros F. unfold StorageModel.energy_balance. apply add_nil. intros t u _ [<-|[]]. exact F. Qed.
Lemma units_removed : storage_units r = storage_units n.
Proof.
  unfold storage_units. rewrite class_removed. cbn [nsnaps removed]. rewrite <- (flat_drop _ flag (of_class n "StorageUnit")); [reflexivity|]. intros a _ F.
  unfold StorageModel.unit_balance. now apply storage_idle.
Qed.
Lemma stores_removed : stores r = stores n.
Proof.
  unfold stores. rewrite class_removed. cbn [nsnaps removed w_sto]. apply flat_drop. intros a _ F. unfold StorageModel.store_balance. now apply storage_idle.
Qed.

(* energy sums *)
Lemma supply_idle w ts a s q : flag a = false -> CapModel.has_term {| lhs := CapModel.supply_terms w ts (sup_view a); sns := s; rhs := q |} = false.
Proof. intros F. unfold CapModel.has_term, CapModel.supply_terms. cbn [lhs]. induction ts as [|t ts IH]; [reflexivity|]. cbn [map existsb snd CapModel.u_active sup_view]. unfold on at 1. rewrite F. exact IH. Qed.
Lemma supplies_removed : problem (supplies r) = problem (supplies n).
Proof.
  unfold supplies, CapModel.total_supply, CapModel.problem. rewrite class_removed. cbn [nsnaps removed w_gen]. rewrite !filter_app, !filter_flat, !flat_map_map.
  f_equal; apply flat_drop; intros a _ F; [destruct (CapModel.u_min (sup_view a))|destruct (CapModel.u_max (sup_view a))]; try reflexivity; cbn [filter]; rewrite supply_idle; auto.
Qed.

(* losses *)
Lemma losses_removed c : c = "Line" \/ c = "Transformer" -> detached n -> losses r c = losses n c.
Proof.
  intros C D. unfold losses, lossy. cbn [tangents removed nsnaps]. destruct (Nat.eqb (tangents n) 0) eqn:TG; [reflexivity|]. cbn [negb]. apply Nat.eqb_neq in TG. rewrite class_removed.
  assert (IN : forall a, In a (of_class n c) <-> In a (assets n) /\ cls a = c) by (intros a; unfold of_class; rewrite filter_In, String.eqb_eq; tauto).
  assert (P : forall a, In a (of_class n c) -> passive a = true).
  { intros a I. apply IN in I. destruct I as [_ I]. unfold passive. rewrite I. destruct C as [-> | ->]; reflexivity. }
  set (fin := fun b => match LossModel.limit b with Some _ => true | None => false end).
  assert (FB : forallb fin (map lo_view (filter flag (of_class n c))) = forallb fin (map lo_view (of_class n c))).
  { assert (H : forall a, In a (of_class n c) -> flag a = false -> fin (lo_view a) = true).
    { intros a I F. unfold fin, LossModel.limit. cbn. destruct (ext a) eqn:E; [|reflexivity]. pose proof (de_losses n D TG a (proj1 (proj1 (IN a) I)) F (P a I) E) as N. destruct (nom_max a); congruence. }
    clear - H. induction (of_class n c) as [|a l IH]; [reflexivity|]. cbn [filter map forallb]. destruct (flag a) eqn:F; cbn [map forallb]; rewrite IH; auto; try (intros b J; apply H; now right).
    rewrite (H a (or_introl eq_refl) F). reflexivity. }
  assert (ROWS : forall l, LossModel.upper c T (map lo_view (filter flag l)) ++ flat_map (fun k => flat_map (fun s => LossModel.tangent c (tangents n) T k s (map lo_view (filter flag l))) [-(1); 1]) (seq 1 (tangents n)) =
                 LossModel.upper c T (map lo_view l) ++ flat_map (fun k => flat_map (fun s => LossModel.tangent c (tangents n) T k s (map lo_view l)) [-(1); 1]) (seq 1 (tangents n))).
  { intros l. unfold LossModel.upper, LossModel.tangent. f_equal; [apply add_drop'; intros t a F; exact F|]. apply flat_map_ext'. intros k _. apply flat_map_ext'. intros s _. apply add_drop'. intros t a F. exact F. }
  assert (NIL : LossModel.upper c T [] ++ flat_map (fun k => flat_map (fun s => LossModel.tangent c (tangents n) T k s []) [-(1); 1]) (seq 1 (tangents n)) = []).
  { assert (Z : forall f m ts, add_constraints ts (@nil LossModel.branch) m f = []) by (intros f m ts; apply add_nil; intros t a _ []). unfold LossModel.upper, LossModel.tangent. rewrite Z. cbn [app]. apply flat_nil. intros k _. apply flat_nil. intros s _. apply Z. }
  specialize (ROWS (of_class n c)). unfold LossModel.loss_constraints. fold fin. destruct (map lo_view (filter flag (of_class n c))) as [|b bs] eqn:B; destruct (map lo_view (of_class n c)) as [|b' bs'] eqn:B'.
  - reflexivity.
  - rewrite <- FB. cbn [forallb]. f_equal. rewrite <- ROWS. now rewrite NIL.
  - apply map_eq_nil in B'. rewrite B' in B. discriminate.
  - rewrite FB. destruct (forallb fin (b' :: bs')); [f_equal; exact ROWS|reflexivity].
Qed.

(* capacities *)
Definition cap_at (c na : string) (x : sol) (a : asset) : Prop :=
  let v := x ((c ++ "-" ++ na)%string, O, nm a) in
  in_range a v /\ (Qle_bool (nom_mod a) 0 = false -> v == nom_mod a * x ((c ++ "-n_mod")%string, O, nm a)).
Lemma all_terms x cs : (forall c, In c cs -> CapModel.has_term c = true) -> (sat x (problem cs) <-> sat x cs).
Proof. intros H. rewrite sat_problem. unfold sat. split; intros S c I; [|intros _]; auto. Qed.
Lemma capacity_class m c na x : sat x (problem (capacity_of m c na)) <-> forall a, In a (assets m) -> cls a = c -> ext a = true -> cap_at c na x a.
Proof.
  assert (IN : forall a, In a (of_class m c) <-> In a (assets m) /\ cls a = c) by (intros a; unfold of_class; rewrite filter_In, String.eqb_eq; tauto).
  rewrite all_terms.
  2:{ intros k I. unfold capacity_of, DispatchModel.nominal, DispatchModel.fixed_nominal, DispatchModel.modular, add_constraints in I. cbn zeta in I. rewrite !in_app_iff in I.
      repeat destruct I as [I|I]; apply in_flat_map in I; destruct I as [t [_ I]]; apply in_flat_map in I; destruct I as [b [_ I]];
        [|destruct (DispatchModel.nom_max b)|destruct (DispatchModel.nom_set b)|]; simpl in I; try contradiction; destruct I as [<-|[]]; reflexivity. }
  unfold capacity_of, DispatchModel.nominal, DispatchModel.fixed_nominal, DispatchModel.modular. cbn zeta. rewrite !sat_app, !sat_add.
  assert (V : forall a, In a (of_class m c) -> ext a = true -> In (d_view "" a) (DispatchModel.ext_assets (map (d_view "") (of_class m c)))).
  { intros a I E. unfold DispatchModel.ext_assets. apply filter_In. split; [now apply in_map|exact E]. }
  split.
  - intros [[L U] [S M]] a I K E. assert (J : In a (of_class m c)) by (apply IN; auto). specialize (V a J E). unfold cap_at, in_range. cbn zeta.
    specialize (L O _ (or_introl eq_refl) V eq_refl). specialize (U O _ (or_introl eq_refl) V). specialize (S O _ (or_introl eq_refl) V).
    unfold holds in L, U, S. cbn [lhs sns rhs DispatchModel.mk eval val DispatchModel.cap DispatchModel.n_mod DispatchModel.nom_min DispatchModel.nom_max DispatchModel.nom_set DispatchModel.nom_mod DispatchModel.name d_view] in L, U, S. unfold DispatchModel.vname in L, U, S. split; [split; [lra|split]|].
    + intros u Eu. rewrite Eu in U. specialize (U eq_refl). lra.
    + intros u Eu. rewrite Eu in S. specialize (S eq_refl). lra.
    + intros G. specialize (M O (d_view "" a) (or_introl eq_refl)). unfold DispatchModel.mod_assets in M.
      assert (W : In (d_view "" a) (filter (fun a => DispatchModel.ext a && negb (Qle_bool (DispatchModel.nom_mod a) 0)) (map (d_view "") (of_class m c)))).
      { apply filter_In. split; [now apply in_map|]. cbn. rewrite E, G. reflexivity. }
      specialize (M W eq_refl). unfold holds in M. cbn [lhs sns rhs DispatchModel.mk eval val DispatchModel.cap DispatchModel.n_mod DispatchModel.vname DispatchModel.nom_mod DispatchModel.name d_view] in M.
      change ("-" ++ "n_mod")%string with "-n_mod" in M. unfold DispatchModel.vname in M. change ("-" ++ "n_mod")%string with "-n_mod" in M. lra.
  - intros H. split; [split|split]; intros t b _ I.
    + unfold DispatchModel.ext_assets in I. apply filter_In in I. destruct I as [I E]. apply in_map_iff in I. destruct I as [a [<- I]]. intros _. apply IN in I. destruct I as [I K]. destruct (H a I K E) as [[A _] _]. unfold holds. cbn [lhs sns rhs DispatchModel.mk eval val DispatchModel.cap DispatchModel.n_mod DispatchModel.nom_min DispatchModel.nom_max DispatchModel.nom_set DispatchModel.nom_mod DispatchModel.name d_view]. unfold DispatchModel.vname. lra.
    + unfold DispatchModel.ext_assets in I. apply filter_In in I. destruct I as [I E]. apply in_map_iff in I. destruct I as [a [<- I]]. intros G. apply IN in I. destruct I as [I K]. destruct (H a I K E) as [[_ [A _]] _]. unfold holds. cbn [lhs sns rhs DispatchModel.mk eval val DispatchModel.cap DispatchModel.n_mod DispatchModel.nom_min DispatchModel.nom_max DispatchModel.nom_set DispatchModel.nom_mod DispatchModel.name d_view]. cbn [lhs sns rhs DispatchModel.mk eval val DispatchModel.cap DispatchModel.n_mod DispatchModel.nom_min DispatchModel.nom_max DispatchModel.nom_set DispatchModel.nom_mod DispatchModel.name d_view] in G. unfold DispatchModel.vname. destruct (nom_max a) as [u|] eqn:Eu; [|discriminate]. specialize (A u eq_refl). lra.
    + unfold DispatchModel.ext_assets in I. apply filter_In in I. destruct I as [I E]. apply in_map_iff in I. destruct I as [a [<- I]]. intros G. apply IN in I. destruct I as [I K]. destruct (H a I K E) as [[_ [_ A]] _]. unfold holds. cbn [lhs sns rhs DispatchModel.mk eval val DispatchModel.cap DispatchModel.n_mod DispatchModel.nom_min DispatchModel.nom_max DispatchModel.nom_set DispatchModel.nom_mod DispatchModel.name d_view]. cbn [lhs sns rhs DispatchModel.mk eval val DispatchModel.cap DispatchModel.n_mod DispatchModel.nom_min DispatchModel.nom_max DispatchModel.nom_set DispatchModel.nom_mod DispatchModel.name d_view] in G. unfold DispatchModel.vname. destruct (nom_set a) as [u|] eqn:Eu; [|discriminate]. specialize (A u eq_refl). lra.
    + unfold DispatchModel.mod_assets in I. apply filter_In in I. destruct I as [I E]. apply andb_true_iff in E. destruct E as [E G]. apply in_map_iff in I. destruct I as [a [<- I]]. intros _. apply IN in I. destruct I as [I K]. destruct (H a I K E) as [_ A]. apply negb_true_iff in G. specialize (A G).
      unfold holds. cbn [lhs sns rhs DispatchModel.mk eval val DispatchModel.cap DispatchModel.n_mod DispatchModel.nom_mod DispatchModel.name d_view]. unfold DispatchModel.vname. change ("-" ++ "n_mod")%string with "-n_mod". lra.
Qed.
Lemma sat_flat {A} x (g : A -> list con) l : sat x (problem (flat_map g l)) <-> forall a, In a l -> sat x (problem (g a)).
Proof. induction l as [|a l IH]; [split; [intros _ a []|intros _ c []]|]. cbn [flat_map]. rewrite sat_problem_app, IH. split; [intros [H1 H2] b [<-|I]; auto|intros H; split; [apply H; now left|intros b I; apply H; now right]]. Qed.
Lemma nattr_known a : In (cls a) classes -> In (cls a, nattr (cls a)) nominal_attrs.
Proof. unfold classes. intros [<-|[<-|[<-|[<-|[<-|[<-|[]]]]]]]; cbn; auto 10. Qed.
Lemma nattr_unique ca : In ca nominal_attrs -> snd ca = nattr (fst ca).
Proof. intros [<-|[<-|[<-|[<-|[<-|[<-|[]]]]]]]; reflexivity. Qed.
Lemma capacity_iff m x : (forall a, In a (assets m) -> In (cls a) classes) -> (sat x (problem (capacity m)) <-> forall a, In a (assets m) -> ext a = true -> cap_at (cls a) (nattr (cls a)) x a).
Proof.
  intros W. unfold capacity. rewrite sat_flat. split.
  - intros H a I E. specialize (H _ (nattr_known a (W a I))). cbn [fst snd] in H. rewrite capacity_class in H. auto.
  - intros H ca I. rewrite capacity_class. intros a J K E. rewrite (nattr_unique _ I), <- K. auto.
Qed.

(* nodal balance *)
Definition live_entries (l : list BalanceModel.entry) : list BalanceModel.entry := filter (fun e => is_some (snd e)) l.
Lemma live_entries_app a b : live_entries (a ++ b) = live_entries a ++ live_entries b.
Proof. apply filter_app. Qed.
Lemma live_map {A} (v : asset -> A) (g : A -> BalanceModel.entry) l : (forall a, flag a = false -> is_some (snd (g (v a))) = false) ->
  live_entries (map g (map v (filter flag l))) = live_entries (map g (map v l)).
Proof.
  intros H. unfold live_entries. induction l as [|a l IH]; [reflexivity|]. cbn [filter map]. destruct (flag a) eqn:F; cbn [map filter]; rewrite IH; [reflexivity|]. now rewrite (H a F).
Qed.
Lemma live_flat {A} (v : asset -> A) (g : A -> list BalanceModel.entry) l : (forall a, flag a = false -> live_entries (g (v a)) = []) ->
  live_entries (flat_map g (map v (filter flag l))) = live_entries (flat_map g (map v l)).
Proof.
  intros H. unfold live_entries in *. rewrite !filter_flat, !flat_map_map. apply flat_drop. intros a _ F. now apply H.
Qed.
Lemma live_lhs m b t : live (BalanceModel.balance_lhs (b_net m) (lossy m) b t) = map snd (filter (fun e => String.eqb (fst e) b) (live_entries (BalanceModel.entries (b_net m) (lossy m) t))).
Proof. unfold BalanceModel.balance_lhs, live, live_entries. rewrite filter_map, (filter_comm (fun e => String.eqb (fst e) b)). reflexivity. Qed.
Lemma entries_removed t : live_entries (BalanceModel.entries (b_net r) (lossy r) t) = live_entries (BalanceModel.entries (b_net n) (lossy n) t).
Proof.
  assert (LB : forall v a, flag a = false -> BalanceModel.lab (on a) v (nm a) t = None) by (intros v a F; unfold BalanceModel.lab, on; now rewrite F).
  unfold BalanceModel.entries, BalanceModel.one, BalanceModel.br. change (lossy r) with (lossy n). unfold b_net. rewrite !class_removed.
  cbn [BalanceModel.gens BalanceModel.stores BalanceModel.units BalanceModel.lines BalanceModel.trafos BalanceModel.links].
  rewrite !live_entries_app.
  assert (FM : forall l, live_entries (flat_map (fun l0 : BalanceModel.link => map (fun pe => (fst pe, (snd pe t, BalanceModel.lab (BalanceModel.l_active l0) "Link-p" (BalanceModel.l_name l0) t))) (filter (fun pe => negb (String.eqb (fst pe) "")) (BalanceModel.l_ports l0))) (map l_view (filter flag l))) =
    live_entries (flat_map (fun l0 : BalanceModel.link => map (fun pe => (fst pe, (snd pe t, BalanceModel.lab (BalanceModel.l_active l0) "Link-p" (BalanceModel.l_name l0) t))) (filter (fun pe => negb (String.eqb (fst pe) "")) (BalanceModel.l_ports l0))) (map l_view l))).
  { intros l. apply live_flat. intros a F. cbn [BalanceModel.l_active BalanceModel.l_name BalanceModel.l_ports l_view]. rewrite (LB _ a F). unfold live_entries. rewrite filter_map. cbn [snd is_some].
    transitivity (map (fun pe : string * (nat -> Q) => (fst pe, (snd pe t, @None var))) []); [f_equal|reflexivity]. induction (filter _ (ports a)) as [|p ps IH]; [reflexivity|exact IH]. }
  destruct (lossy n); rewrite ?live_entries_app; repeat match goal with |- ?a ++ ?b = ?c ++ ?d => apply (f_equal2 (@app _)) end;
  first [apply FM | reflexivity | apply live_map; intros a F; cbn [snd BalanceModel.c_active BalanceModel.c_name BalanceModel.b_active BalanceModel.b_name BalanceModel.l_active BalanceModel.l_name c_view br_view l_view]; rewrite (LB _ a F); reflexivity].
Qed.
Lemma lhs_removed b t : live (BalanceModel.balance_lhs (b_net r) (lossy r) b t) = live (BalanceModel.balance_lhs (b_net n) (lossy n) b t).
Proof. now rewrite !live_lhs, entries_removed. Qed.
Lemma filter_filter {A} (f g : A -> bool) l : filter f (filter g l) = filter (fun a => g a && f a) l.
Proof. induction l as [|a l IH]; [reflexivity|]. cbn [filter]. destruct (g a); cbn [filter andb]; rewrite IH; reflexivity. Qed.
Lemma rhs_removed b t : BalanceModel.balance_rhs (b_net r) b t = BalanceModel.balance_rhs (b_net n) b t.
Proof.
  unfold BalanceModel.balance_rhs, b_net. cbn [BalanceModel.loads loads removed]. rewrite filter_filter. do 2 f_equal. apply filter_ext. intros d. destruct (BalanceModel.d_active d); reflexivity.
Qed.
Lemma empty_live l : BalanceModel.is_empty l = match live l with [] => true | _ => false end.
Proof. unfold BalanceModel.is_empty. induction l as [|[q [v|]] l IH]; [reflexivity|reflexivity|]. cbn [forallb snd live filter is_some andb]. exact IH. Qed.
Lemma empty_removed b t : BalanceModel.is_empty (BalanceModel.balance_lhs (b_net r) (lossy r) b t) = BalanceModel.is_empty (BalanceModel.balance_lhs (b_net n) (lossy n) b t).
Proof. now rewrite !empty_live, lhs_removed. Qed.
Lemma add_forall2 {A} ts (l : list A) mask mask' f f' : (forall t a, mask t a = mask' t a) -> (forall t a, alike (f t a) (f' t a)) -> Forall2 alike (add_constraints ts l mask f) (add_constraints ts l mask' f').
Proof.
  intros M F. unfold add_constraints. induction ts as [|t ts IH]; [constructor|]. cbn [flat_map]. apply Forall2_app; [|exact IH]. clear IH.
  induction l as [|a l IH]; [constructor|]. cbn [flat_map]. apply Forall2_app; [|exact IH]. rewrite <- M. destruct (mask t a); repeat constructor; apply F.
Qed.
Lemma has_entry m a : (forall b, In b (assets m) -> In (cls b) classes) -> In a (assets m) -> In (bus0 a) (buses m) -> BalanceModel.no_terms (b_net m) (lossy m) (buses m) = false.
Proof.
  intros W I B. unfold BalanceModel.no_terms. apply negb_false_iff. apply existsb_exists.
  assert (E : exists e, In e (BalanceModel.entries (b_net m) (lossy m) 0) /\ fst e = bus0 a).
  { assert (J : In a (of_class m (cls a))) by (unfold of_class; apply filter_In; rewrite String.eqb_refl; auto).
    unfold BalanceModel.entries, BalanceModel.one, BalanceModel.br, b_net. cbn [BalanceModel.gens BalanceModel.stores BalanceModel.units BalanceModel.lines BalanceModel.trafos BalanceModel.links].
    specialize (W a I). unfold classes in W. destruct W as [W|[W|[W|[W|[W|[W|[]]]]]]]; rewrite <- W in J; eexists; (split; [rewrite !in_app_iff|]).
    - left. apply in_map. apply in_map. exact J. - reflexivity.
    - do 4 right. left. left. apply in_map. apply in_map. exact J. - reflexivity.
    - do 5 right. left. left. apply in_map. apply in_map. exact J. - reflexivity.
    - do 6 right. left. apply in_map. apply in_map. exact J. - reflexivity.
    - right. left. apply in_map. apply in_map. exact J. - reflexivity.
    - do 2 right. left. apply in_map. apply in_map. exact J. - reflexivity. }
  destruct E as [e [E F]]. exists e. split; auto. apply existsb_exists. exists (bus0 a). split; auto. rewrite F. apply String.eqb_refl.
Qed.
Lemma balances_removed : (forall b, In b (assets n) -> In (cls b) classes) -> in_operation n -> same (balances n) (balances r).
Proof.
  intros W [a [I [F B]]]. unfold balances, BalanceModel.balance. rewrite (has_entry n a W I B). rewrite (has_entry r a); cbn [removed assets buses]; auto;
    [|intros b J; apply W; apply filter_In in J; tauto|apply filter_In; auto]. cbn [orb].
  assert (ED : BalanceModel.empty_demand (b_net r) (lossy r) (buses n) T = BalanceModel.empty_demand (b_net n) (lossy n) (buses n) T).
  { clear I F B. unfold BalanceModel.empty_demand. induction (seq 0 T) as [|t ts IH]; [reflexivity|]. cbn [existsb]. rewrite IH. apply (f_equal2 orb); [|reflexivity]. clear IH. induction (buses n) as [|b bs IH']; [reflexivity|]. cbn [existsb]. rewrite IH', empty_removed, rhs_removed. reflexivity. }
  cbn [removed nsnaps buses]. rewrite ED. destruct (BalanceModel.empty_demand (b_net n) (lossy n) (buses n) T); [exact Logic.I|].
  cbn [same]. apply same_alike. apply add_forall2.
  - intros t b. now rewrite empty_removed.
  - intros t b. unfold alike. cbn [lhs sns rhs]. rewrite lhs_removed, rhs_removed. repeat split; reflexivity.
Qed.

(* energy limits *)
Section Energy.
Variable em : string -> option Q.
Variable coef : LimitModel.gen -> nat -> Q.
Variable attr : string.
Notation L := (lim_net n attr).
Notation L' := (lim_net r attr).
Hypothesis zero : forall a, In a (assets n) -> flag a = false -> storage_class (cls a) -> cyclic a = false -> LimitModel.concerned em (carrier a) = true -> init a == 0.

Lemma live_flat_lin {A} (g : A -> lin) l : live (flat_map g l) = flat_map (fun a => live (g a)) l.
Proof. apply filter_flat. Qed.
Lemma gen_terms_removed sel : live (LimitModel.gen_terms L' em coef sel) = live (LimitModel.gen_terms L em coef sel).
Proof.
  unfold LimitModel.gen_terms, LimitModel.my_gens, lim_net. cbn [LimitModel.gens]. rewrite class_removed, !live_flat_lin, !filter_map, !flat_map_map, filter_comm. apply flat_drop.
  intros a _ F. unfold live. rewrite filter_map. cbn [snd is_some LimitModel.gen_var LimitModel.g_active g_view]. unfold LimitModel.gen_var, is_some. cbn [LimitModel.g_active g_view snd]. unfold on. rewrite F. 
  transitivity (map (fun t => (LimitModel.em_of em (LimitModel.g_carrier (g_view a)) * coef (g_view a) t, @None var)) []); [|reflexivity]. f_equal. induction sel as [|t ts IH]; [reflexivity|exact IH].
Qed.
Lemma final_idle lev a sel : flag a = false -> LimitModel.final_label lev (s_view a) sel = None.
Proof.
  intros F. unfold LimitModel.final_label. assert (G : forall acc, acc = None -> fold_left (fun acc t => match StorageModel.level lev (s_view a) t with Some v => Some v | None => acc end) sel acc = None); [|now apply G].
  induction sel as [|t ts IH]; intros acc E; [exact E|]. cbn [fold_left]. apply IH. unfold StorageModel.level, StorageModel.var_of. cbn [StorageModel.s_active s_view]. unfold on. now rewrite F.
Qed.
Lemma sto_terms_removed lev P l sel : live (LimitModel.sto_terms em lev (filter P (map st_view (filter flag l))) sel) = live (LimitModel.sto_terms em lev (filter P (map st_view l)) sel).
Proof.
  unfold LimitModel.sto_terms. rewrite !filter_map, filter_comm, !map_map. unfold live. induction (filter (fun a => P (st_view a)) l) as [|a k IH]; [reflexivity|]. cbn [filter]. destruct (flag a) eqn:F; cbn [map filter]; rewrite IH; [reflexivity|].
  unfold is_some at 2. cbn [snd LimitModel.st_of st_view]. now rewrite (final_idle _ _ _ F).
Qed.
Lemma initial_removed (P : LimitModel.sto -> bool) l : (forall a, In a l -> P (st_view a) = true -> flag a = false -> init a == 0) ->
  LimitModel.initial_of em (filter P (map st_view (filter flag l))) == LimitModel.initial_of em (filter P (map st_view l)).
Proof.
  intros H. unfold LimitModel.initial_of. induction l as [|a l IH]; [reflexivity|]. assert (IH' := IH (fun b J => H b (or_intror J))). clear IH. cbn [filter map].
  destruct (flag a) eqn:F; cbn [filter map]; destruct (P (st_view a)) eqn:E; cbn [fold_right]; try exact IH'.
  - now rewrite IH'.
  - rewrite IH'. cbn [LimitModel.st_of LimitModel.st_carrier st_view StorageModel.s_init s_view]. rewrite (H a (or_introl eq_refl) E F). ring.
Qed.
Lemma nonempty_live {A} (l : list A) : LimitModel.nonempty l = false <-> l = [].
Proof. destruct l; split; auto; discriminate. Qed.
Lemma energy_removed g sel : same (rows_of (LimitModel.limit_con L em coef g sel)) (rows_of (LimitModel.limit_con L' em coef g sel)).
Proof.
  set (P := fun s : LimitModel.sto => LimitModel.concerned em (LimitModel.st_carrier s) && negb (StorageModel.s_cyclic (LimitModel.st_of s))).
  assert (IN : forall a c, In a (of_class n c) <-> In a (assets n) /\ cls a = c) by (intros a c; unfold of_class; rewrite filter_In, String.eqb_eq; tauto).
  assert (Z : forall c, storage_class c -> forall a, In a (of_class n c) -> P (st_view a) = true -> flag a = false -> init a == 0).
  { intros c C a I E F. apply IN in I. destruct I as [I K]. unfold P in E. apply andb_true_iff in E. destruct E as [E Y]. apply negb_true_iff in Y. apply zero; auto. now rewrite K. }
  assert (C : alike {| lhs := LimitModel.gen_terms L em coef sel ++ LimitModel.sto_terms em "StorageUnit-state_of_charge" (LimitModel.my_units L em) sel ++ LimitModel.sto_terms em "Store-e" (LimitModel.my_stores L em) sel;
                       sns := LimitModel.sense_of g; rhs := LimitModel.constant g - LimitModel.initial_of em (LimitModel.my_units L em) - LimitModel.initial_of em (LimitModel.my_stores L em) |}
                    {| lhs := LimitModel.gen_terms L' em coef sel ++ LimitModel.sto_terms em "StorageUnit-state_of_charge" (LimitModel.my_units L' em) sel ++ LimitModel.sto_terms em "Store-e" (LimitModel.my_stores L' em) sel;
                       sns := LimitModel.sense_of g; rhs := LimitModel.constant g - LimitModel.initial_of em (LimitModel.my_units L' em) - LimitModel.initial_of em (LimitModel.my_stores L' em) |}).
  { unfold alike. cbn [lhs sns rhs]. rewrite !live_app, gen_terms_removed. unfold LimitModel.my_units, LimitModel.my_stores. fold P. unfold lim_net. cbn [LimitModel.units LimitModel.stores]. rewrite !class_removed, !sto_terms_removed.
    split; [reflexivity|split; [reflexivity|]]. rewrite !initial_removed; [reflexivity|apply Z; now left|apply Z; now right]. }
  unfold LimitModel.limit_con. destruct (LimitModel.nonempty (LimitModel.my_gens L em) || LimitModel.nonempty (LimitModel.my_units L em) || LimitModel.nonempty (LimitModel.my_stores L em)) eqn:E;
  destruct (LimitModel.nonempty (LimitModel.my_gens L' em) || LimitModel.nonempty (LimitModel.my_units L' em) || LimitModel.nonempty (LimitModel.my_stores L' em)) eqn:E'; cbn [rows_of same].
  - apply same_alike. constructor; [exact C|constructor].
  - apply same_eq. cbn [CapModel.problem filter]. rewrite (alike_term _ _ C). apply orb_false_iff in E'. destruct E' as [E' E3]. apply orb_false_iff in E'. destruct E' as [E1 E2].
    apply nonempty_live in E1. apply nonempty_live in E2. apply nonempty_live in E3. unfold CapModel.has_term, LimitModel.gen_terms. cbn [lhs]. rewrite E1, E2, E3. reflexivity.
  - exfalso. apply orb_false_iff in E. destruct E as [E E3]. apply orb_false_iff in E. destruct E as [E1 E2]. apply nonempty_live in E1. apply nonempty_live in E2. apply nonempty_live in E3.
    unfold LimitModel.my_gens, LimitModel.my_units, LimitModel.my_stores, lim_net in *. cbn [LimitModel.gens LimitModel.units LimitModel.stores] in *. rewrite !class_removed in E'. rewrite !filter_map, !(filter_comm _ flag) in E'. rewrite filter_map in E1. rewrite filter_map in E2. rewrite filter_map in E3.
    apply map_eq_nil in E1. apply map_eq_nil in E2. apply map_eq_nil in E3. rewrite E1, E2, E3 in E'. discriminate.
  - intros x. tauto.
Qed.
End Energy.

(* limits on branches *)
Lemma sel_drop (P : CapModel.asset -> bool) l : (forall a, In a l -> flag a = false -> P (k_view a) = false) -> filter P (map k_view (filter flag l)) = filter P (map k_view l).
Proof.
  induction l as [|a l IH]; intros H; [reflexivity|]. cbn [filter map]. assert (IH' := IH (fun b J => H b (or_intror J))). destruct (flag a) eqn:F; cbn [filter map]; rewrite IH'; [reflexivity|]. now rewrite (H a (or_introl eq_refl) F).
Qed.
Lemma named_removed g c : (c = "Line" \/ c = "Link") -> (forall a, In a (assets n) -> flag a = false -> cls a = c -> ext a = true -> ~ In (carrier a) (CapModel.carrier_list (CapModel.t_carriers g))) ->
  CapModel.t_named (k_net r) g c = CapModel.t_named (k_net n) g c.
Proof.
  intros C H. unfold CapModel.t_named, CapModel.ext_i, CapModel.cls. cbn [CapModel.assets k_net removed assets]. rewrite !filter_filter. apply sel_drop. intros a I F.
  cbn [CapModel.k_class CapModel.k_ext CapModel.k_carrier k_view]. destruct (String.eqb (cls a) c) eqn:K; [|reflexivity]. apply String.eqb_eq in K. destruct (ext a) eqn:E; [|reflexivity]. cbn [andb].
  destruct (CapModel.mem (carrier a) _) eqn:M; [|reflexivity]. apply CapProofs.mem_iff in M. exfalso. exact (H a I F K E M).
Qed.
Lemma transmission_removed g coef (present present' : string -> bool) :
  (forall c, (c = "Line" \/ c = "Link") -> CapModel.t_named (k_net r) g c = CapModel.t_named (k_net n) g c) -> CapModel.t_period g = None ->
  (forall c, present c = false -> CapModel.t_named (k_net n) g c = []) -> (forall c, present' c = false -> CapModel.t_named (k_net r) g c = []) ->
  same (rows (CapModel.transmission (k_net n) g present coef)) (rows (CapModel.transmission (k_net r) g present' coef)).
Proof.
  intros H TP N N'. unfold CapModel.transmission, CapModel.bad_period. rewrite TP.
  assert (E : flat_map (fun ca => if present (fst ca) then CapModel.t_terms (k_net n) g coef ca else []) CapModel.branches =
              flat_map (fun ca => if present' (fst ca) then CapModel.t_terms (k_net r) g coef ca else []) CapModel.branches).
  { apply flat_map_ext'. intros ca I. assert (C : fst ca = "Line" \/ fst ca = "Link") by (destruct I as [<-|[<-|[]]]; auto).
    assert (TT : CapModel.t_terms (k_net r) g coef ca = CapModel.t_terms (k_net n) g coef ca).
    { unfold CapModel.t_terms. rewrite (H _ C). unfold CapModel.t_active. rewrite TP. reflexivity. }
    destruct (present (fst ca)) eqn:P, (present' (fst ca)) eqn:P'.
    - now symmetry.
    - rewrite <- TT. unfold CapModel.t_terms. now rewrite (N' _ P').
    - rewrite TT. unfold CapModel.t_terms. now rewrite (N _ P).
    - reflexivity. }
  assert (Z : forall (m : net) (pr : string -> bool) g c, existsb (fun ca => pr (fst ca)) CapModel.branches = false -> problem [{| lhs := flat_map (fun ca => if pr (fst ca) then CapModel.t_terms (k_net m) g c ca else []) CapModel.branches; sns := CapModel.t_sense g; rhs := CapModel.t_const g |}] = []).
  { intros m pr g' c X. rewrite (flat_nil (fun ca => if pr (fst ca) then CapModel.t_terms (k_net m) g' c ca else [])); [reflexivity|]. intros ca I. destruct (pr (fst ca)) eqn:P; [|reflexivity]. exfalso. assert (Y : existsb (fun ca => pr (fst ca)) CapModel.branches = true) by (apply existsb_exists; eauto). congruence. }
  destruct (existsb (fun ca => present (fst ca)) CapModel.branches) eqn:X, (existsb (fun ca => present' (fst ca)) CapModel.branches) eqn:X'; cbn [rows same].
  - rewrite E. intros x. tauto.
  - apply same_eq. rewrite E. apply Z. exact X'.
  - apply same_eq. rewrite <- E. symmetry. apply Z. exact X.
  - intros x. tauto.
Qed.

Lemma nonempty_nil {A} (l : list A) : CapModel.nonempty l = false -> l = [].
Proof. apply CapProofs.nonempty_false. Qed.
Lemma limit_removed l : detached n -> In l (limits n) -> same (limit_rows n l) (limit_rows r l).
Proof.
  intros D J. destruct l as [attr s q|c s q|cs s q|cs s q]; cbn [limit_rows].
  - unfold LimitModel.primary_energy. cbn [LimitModel.selected LimitModel.inv_period]. change (LimitModel.selected (lim_net r attr)) with (LimitModel.selected (lim_net n attr)). unfold LimitModel.selected. cbn [LimitModel.inv_period].
    change (LimitModel.emissions (lim_net r attr)) with (LimitModel.emissions (lim_net n attr)). destruct (LimitModel.nonempty (LimitModel.emissions (lim_net n attr))); [|apply same_refl].
    change (fun g t => LimitModel.weight (lim_net r attr) t / LimitModel.g_eff g t) with (fun g t => LimitModel.weight (lim_net n attr) t / LimitModel.g_eff g t). apply energy_removed.
    intros a I F C Y E. apply (de_initial n D _ a J I F). split; [exact C|split; [exact Y|]]. unfold LimitModel.concerned, LimitModel.lookup in E.
    destruct (find _ _) as [[k e]|] eqn:G; [|discriminate]. apply find_some in G. destruct G as [G K]. apply String.eqb_eq in K. cbn [fst] in K. subst k.
    unfold LimitModel.emissions in G. apply filter_In in G. destruct G as [G N]. exists e. split; [exact G|]. apply negb_true_iff in N. intros B. apply Qeq_bool_iff in B. cbn [snd] in N. congruence.
  - unfold LimitModel.operational_limit. unfold LimitModel.selected. cbn [LimitModel.inv_period LimitModel.carrier_attr]. apply energy_removed.
    intros a I F C Y E. apply (de_initial n D _ a J I F). split; [exact C|split; [exact Y|]]. unfold LimitModel.concerned in E. destruct (String.eqb (carrier a) c) eqn:K; [|discriminate]. now apply String.eqb_eq in K.
  - unfold CapModel.volume_limit. apply transmission_removed; try reflexivity.
    + intros c C. apply named_removed; auto. intros a I F K E M. apply (de_branches n D _ a J I F). split; [rewrite K; exact C|split; [exact E|exact M]].
    + intros c. apply nonempty_nil.
    + intros c. apply nonempty_nil.
  - unfold CapModel.cost_limit. cbn [CapModel.multi k_net]. rewrite !andb_false_r. cbn [andb].
    change (fun a => CapModel.k_capital a * CapModel.cost_weight (k_net r) (CapModel.t_period {| CapModel.t_carriers := cs; CapModel.t_sense := s; CapModel.t_period := None; CapModel.t_const := q |}) a)
      with (fun a => CapModel.k_capital a * CapModel.cost_weight (k_net n) (CapModel.t_period {| CapModel.t_carriers := cs; CapModel.t_sense := s; CapModel.t_period := None; CapModel.t_const := q |}) a).
    apply transmission_removed; try reflexivity.
    + intros c C. apply named_removed; auto. intros a I F K E M. apply (de_branches n D _ a J I F). split; [rewrite K; exact C|split; [exact E|exact M]].
    + intros c E. apply nonempty_nil in E. unfold CapModel.t_named. now rewrite E.
    + intros c E. apply nonempty_nil in E. unfold CapModel.t_named. now rewrite E.
Qed.

(* columns of the buses *)
Lemma column_removed col : detached n -> In col (columns n) -> same (column_rows n col) (column_rows r col).
Proof.
  intros D J. unfold column_rows, CapModel.bus_column. cbn [removed carriers buses].
  change (CapModel.parse (k_net r) (carriers n) false (fun _ => None) (CapModel.col_name col)) with (CapModel.parse (k_net n) (carriers n) false (fun _ => None) (CapModel.col_name col)).
  destruct (CapModel.parse (k_net n) (carriers n) false (fun _ => None) (CapModel.col_name col)) as [s k p| |] eqn:P; try apply same_refl.
  assert (PN : p = None /\ In k (carriers n) /\ (CapModel.col_name col = ("nom_min_" ++ k)%string \/ CapModel.col_name col = ("nom_max_" ++ k)%string)).
  { apply CapProofs.parse_iff in P. destruct P as (pre & rest & PR & E & K & [[-> ->]|(w & z & _ & _ & _ & _ & _ & X & _)]); [|discriminate]. split; [reflexivity|]. split; [exact K|]. destruct s; cbn in PR; try discriminate; injection PR as <-; auto. }
  destruct PN as [-> [KC NAME]].
  assert (TT : forall b, In b (buses n) -> CapModel.col_val col b <> None -> CapModel.bus_terms (k_net r) k None b = CapModel.bus_terms (k_net n) k None b).
  { intros b B V. unfold CapModel.bus_terms. apply flat_map_ext'. intros ca _. change (CapModel.has_carrier (k_net r)) with (CapModel.has_carrier (k_net n)). destruct (CapModel.one_port (fst ca)) eqn:O; [|reflexivity]. destruct (CapModel.has_carrier (k_net n) (fst ca)); [|reflexivity]. cbn [andb].
    f_equal. unfold CapModel.tech_assets, CapModel.ext_i, CapModel.cls. cbn [CapModel.assets k_net removed assets]. rewrite !filter_filter. apply sel_drop. intros a I F.
    cbn [CapModel.k_class CapModel.k_ext CapModel.k_carrier CapModel.k_bus k_view].
    destruct (String.eqb (cls a) (fst ca)) eqn:K; [|reflexivity]. destruct (ext a) eqn:E; [|reflexivity]. destruct (String.eqb (carrier a) k) eqn:CK; [|reflexivity]. destruct (String.eqb (bus0 a) b) eqn:BB; [|now rewrite !andb_false_r].
    apply String.eqb_eq in K. apply String.eqb_eq in CK. apply String.eqb_eq in BB. exfalso. apply (de_columns n D col a J I F). unfold counts_at_bus. rewrite CK, BB, K. split; [|split; [exact E|split; [exact KC|split; [exact NAME|split; [exact B|exact V]]]]].
    unfold CapModel.one_port in O. apply CapProofs.mem_iff in O. unfold storage_class. simpl in O. intuition congruence. }
  set (row := fun (m : net) b => match CapModel.col_val col b with Some q => [{| lhs := CapModel.bus_terms (k_net m) k None b; sns := s; rhs := q |}] | None => [] end).
  assert (ROWS : flat_map (row r) (buses n) = flat_map (row n) (buses n)).
  { apply flat_map_ext'. intros b B. unfold row. destruct (CapModel.col_val col b) eqn:V; [|reflexivity]. rewrite TT; [reflexivity|exact B|congruence]. }
  assert (Z : forall m, CapModel.bus_any (k_net m) k None = false -> problem (flat_map (row m) (buses n)) = []).
  { intros m A. unfold CapModel.problem. rewrite filter_flat. apply flat_nil. intros b _. unfold row. destruct (CapModel.col_val col b); [|reflexivity].
    assert (BT : CapModel.bus_terms (k_net m) k None b = []); [|rewrite BT; reflexivity]. unfold CapModel.bus_terms. apply flat_nil. intros ca I. destruct (CapModel.one_port (fst ca) && CapModel.has_carrier (k_net m) (fst ca)) eqn:O; [|reflexivity].
    assert (TA : CapModel.nonempty (CapModel.tech_assets (k_net m) k None (fst ca)) = false).
    { apply not_true_iff_false. intros X. assert (Y : CapModel.bus_any (k_net m) k None = true) by (unfold CapModel.bus_any; apply existsb_exists; exists ca; rewrite O, X; auto). congruence. }
    apply nonempty_nil in TA. rewrite TA. reflexivity. }
  cbn [same]. fold (row n) (row r). destruct (CapModel.bus_any (k_net n) k None) eqn:A, (CapModel.bus_any (k_net r) k None) eqn:A'.
  - apply same_eq. now rewrite ROWS.
  - apply same_eq. rewrite <- ROWS. apply Z. exact A'.
  - apply same_eq. rewrite ROWS. symmetry. apply Z. exact A.
  - intros x. tauto.
Qed.

(* all rows *)
Definition cap_rows_idle (x : sol) : Prop := forall a, In a (assets n) -> flag a = false -> ext a = true -> cap_at (cls a) (nattr (cls a)) x a.
Lemma capacity_removed x : (forall a, In a (assets n) -> In (cls a) classes) -> (sat x (problem (capacity n)) <-> sat x (problem (capacity r)) /\ cap_rows_idle x).
Proof.
  intros W. rewrite (capacity_iff n x W), (capacity_iff r x). 2:{ intros a I. cbn [removed assets] in I. apply filter_In in I. apply W. tauto. }
  cbn [removed assets]. unfold cap_rows_idle. split.
  - intros H. split; intros a I; [apply filter_In in I; intros E; apply H; tauto|]. intros F E. auto.
  - intros [H1 H2] a I E. destruct (flag a) eqn:F; auto. apply H1; auto. apply filter_In. auto.
Qed.

Lemma forall2_map {A B} (R : B -> B -> Prop) (f g : A -> B) l : (forall a, In a l -> R (f a) (g a)) -> Forall2 R (map f l) (map g l).
Proof. induction l as [|a l IH]; intros H; constructor; [apply H; now left|apply IH; intros b I; apply H; now right]. Qed.

Lemma collect_some cs l : collect (Some cs :: l) = option_map (app cs) (collect l).
Proof. reflexivity. Qed.
Lemma model_removed kvl : well_named n -> detached n -> cycles_intact kvl n -> in_operation n ->
  match create_model kvl n, create_model kvl r with
  | Some a, Some b => forall x, sat x (problem a) <-> sat x (problem b) /\ cap_rows_idle x
  | None, None => True
  | _, _ => False
  end.
Proof.
  intros [_ W] D [K _] O. unfold create_model, parts. cbn [app]. rewrite (collect_some (capacity n)), (collect_some (capacity r)).
  assert (S : same (collect ([Some (operation n); balances n; Some (kvl (filter passive (assets n))); Some (storage_units n); Some (stores n); Some (supplies n); losses n "Line"; losses n "Transformer"] ++ map (limit_rows n) (limits n) ++ map (column_rows n) (columns n)))
                   (collect ([Some (operation r); balances r; Some (kvl (filter passive (assets r))); Some (storage_units r); Some (stores r); Some (supplies r); losses r "Line"; losses r "Transformer"] ++ map (limit_rows r) (limits r) ++ map (column_rows r) (columns r)))).
  { apply collect_same. apply Forall2_app; [|apply Forall2_app; apply forall2_map; intros l J; [now apply limit_removed|now apply column_removed]].
    repeat apply Forall2_cons; [| | | | | | | |apply Forall2_nil].
    - rewrite operation_removed by exact D. apply same_refl.
    - now apply balances_removed.
    - exact K.
    - rewrite units_removed. apply same_refl.
    - rewrite stores_removed. apply same_refl.
    - apply same_eq. symmetry. apply supplies_removed.
    - rewrite losses_removed; auto. apply same_refl.
    - rewrite losses_removed; auto. apply same_refl. }
  cbn [app] in S. 
  match type of S with same ?a ?b => destruct a as [a'|], b as [b'|] end; cbn [option_map same] in *; try contradiction.
  - intros x. rewrite !sat_problem_app, (capacity_removed x W), (S x). tauto.
  - exact Logic.I.
Qed.
End N.

(* bounds of variables, objective *)
Lemma total_drop {A} (f : A -> Q) (p : A -> bool) l : (forall a, In a l -> p a = false -> f a == 0) -> BalanceSpec.total f (filter p l) == BalanceSpec.total f l.
Proof.
  intros H. rewrite BalanceProofs.total_filter. apply BalanceProofs.total_ext. intros a I. destruct (p a) eqn:P; [reflexivity|]. symmetry. auto.
Qed.
Lemma known_net m : (forall a, In a (assets m) -> In (cls a) classes) -> ObjectiveSpec.known (o_net m).
Proof.
  intros W a I. cbn [ObjectiveModel.assets o_net] in I. apply in_map_iff in I. destruct I as [b [<- I]]. unfold ObjectiveSpec.is. cbn [ObjectiveModel.a_class o_view].
  apply existsb_exists. exists (cls b). split; [apply (W b I)|apply String.eqb_refl].
Qed.
Lemma known_removed n : (forall a, In a (assets n) -> In (cls a) classes) -> forall a, In a (assets (removed n)) -> In (cls a) classes.
Proof. intros W a I. cbn [removed assets] in I. apply filter_In in I. apply W. tauto. Qed.
Lemma constant_removed n : (forall a, In a (assets n) -> In (cls a) classes) -> ObjectiveModel.constant (o_net (removed n)) == ObjectiveModel.constant (o_net n).
Proof.
  intros W. rewrite (ObjectiveProofs.constant_part (o_net (removed n)) (known_net _ (known_removed n W))), (ObjectiveProofs.constant_part (o_net n) (known_net n W)).
  cbn [ObjectiveModel.assets o_net removed assets]. rewrite !BalanceProofs.total_map. rewrite total_drop; [reflexivity|].
  intros a _ F. unfold ObjectiveModel.annual. cbn [ObjectiveModel.multi o_net ObjectiveModel.a_flag o_view ObjectiveModel.a_ext]. rewrite F. destruct (ext a); [ring|reflexivity].
Qed.
Lemma const_removed n x : (forall a, In a (assets n) -> In (cls a) classes) -> (ObjectiveModel.const_fixed (o_net n) x <-> ObjectiveModel.const_fixed (o_net (removed n)) x).
Proof.
  intros W. pose proof (constant_removed n W) as E. unfold ObjectiveModel.const_fixed.
  assert (B : Qeq_bool (ObjectiveModel.constant (o_net (removed n))) 0 = Qeq_bool (ObjectiveModel.constant (o_net n)) 0).
  { apply eq_true_iff_eq. rewrite !Qeq_bool_iff, E. tauto. }
  rewrite B. split; intros H G; rewrite (H G), E; reflexivity.
Qed.
Definition idle_integers (n : net) (x : sol) : Prop :=
  forall a, In a (assets n) -> flag a = false -> ext a = true -> Qle_bool (nom_mod a) 0 = false -> exists z : nat, x (mod_var a) == inject_Z (Z.of_nat z).
Lemma commit_idle a b T x : flag a = false -> if b : bool then CommitModel.relaxed (cls a) (u_view a) T x else CommitModel.binary (cls a) (u_view a) T x.
Proof.
  intros F. destruct b; (split; [|split]); intros t _ A; cbn [CommitModel.u_active u_view] in A; unfold on in A; congruence.
Qed.
Lemma domains_removed n x : (forall a, In a (assets n) -> In (cls a) classes) -> (domains n x <-> domains (removed n) x /\ idle_integers n x).
Proof.
  intros W. unfold domains, idle_integers, mod_var. change (lossy (removed n)) with (lossy n). cbn [removed assets nsnaps linear]. rewrite (const_removed n x W).
  assert (IA : forall a, In a (filter flag (assets n)) <-> In a (assets n) /\ flag a = true) by (intros a; apply filter_In).
  split.
  - intros (M & C & S & L & K). split; [|intros a I _; apply M; exact I]. split; [|split; [|split; [|split]]].
    + intros a I. apply M. apply IA in I. tauto.
    + intros a I. apply C. apply IA in I. tauto.
    + intros a I. apply S. apply IA in I. tauto.
    + intros a t I. apply L. apply IA in I. tauto.
    + exact K.
  - intros ((M & C & S & L & K) & Z). split; [|split; [|split; [|split]]].
    + intros a I E G. destruct (flag a) eqn:F; [apply M; auto; apply IA; auto|apply Z; auto].
    + intros a I E. destruct (flag a) eqn:F; [apply C; auto; apply IA; auto|now apply commit_idle].
    + intros a I E. destruct (flag a) eqn:F; [apply S; auto; apply IA; auto|]. intros t v _ V. unfold StorageModel.spill_label, StorageModel.var_of in V. cbn [StorageModel.s_active s_view] in V. unfold on in V. rewrite F in V. destruct (negb _); discriminate.
    + intros a t I P LS T F. apply L; auto. apply IA. auto.
    + exact K.
Qed.

Lemma feasible_removed kvl n x : well_named n -> detached n -> cycles_intact kvl n -> in_operation n ->
  (feasible kvl n x <-> feasible kvl (removed n) x /\ idle_capacities n x).
Proof.
  intros WN D K O. pose proof (model_removed n kvl WN D K O) as M. destruct WN as [_ W].
  assert (IC : idle_capacities n x <-> cap_rows_idle n x /\ idle_integers n x).
  { unfold idle_capacities, cap_rows_idle, idle_integers, cap_at, modules_fit, cap_var, mod_var. cbn zeta. split.
    - intros H. split; intros a I F E; destruct (H a I F E) as [R MF]; [|intros G; apply (MF G)]. split; [exact R|]. intros G. apply (MF G).
    - intros [H1 H2] a I F E. destruct (H1 a I F E) as [R MF]. split; [exact R|]. intros G. split; [apply (MF G)|apply (H2 a I F E G)]. }
  unfold feasible. split.
  - intros [cs [E [S Dm]]]. rewrite E in M. destruct (create_model kvl (removed n)) as [cs'|]; [|contradiction]. apply M in S. apply (domains_removed n x W) in Dm. split; [exists cs'; tauto|]. apply IC. tauto.
  - intros [[cs' [E [S Dm]]] I]. rewrite E in M. destruct (create_model kvl n) as [cs|]; [|contradiction]. exists cs. apply IC in I. split; [reflexivity|]. rewrite (M x), (domains_removed n x W). tauto.
Qed.

Lemma cost_removed n x q q' : well_named n -> costs_sane n -> ObjectiveModel.const_fixed (o_net n) x -> cost n x = Some q -> cost (removed n) x = Some q' -> q == q'.
Proof.
  intros [_ W] CS CF. unfold cost, define_objective. intros E E'.
  destruct (ObjectiveModel.objective (o_net n)) as [ps|] eqn:O; [|discriminate]. destruct (ObjectiveModel.objective (o_net (removed n))) as [ps'|] eqn:O'; [|discriminate].
  cbn [option_map] in E, E'. injection E as <-. injection E' as <-.
  assert (P : forall m, (forall a, In a (assets m) -> In a (assets n)) -> ObjectiveSpec.proper (o_net m) ObjectiveModel.a_start /\ ObjectiveSpec.proper (o_net m) ObjectiveModel.a_shut).
  { intros m H. split; intros a I; cbn [ObjectiveModel.assets o_net] in I; apply in_map_iff in I; destruct I as [b [<- I]]; apply (CS b (H b I)). }
  rewrite (ObjectiveProofs.single_horizon (o_net n) x ps (known_net n W)), (ObjectiveProofs.single_horizon (o_net (removed n)) x ps' (known_net _ (known_removed n W))); auto.
  2: exact (proj1 (const_removed n x W) CF). 2,3: apply P; intros a I; cbn [removed assets] in I; apply filter_In in I; tauto. 2,3: apply P; auto.
  cbn [ObjectiveModel.assets o_net removed assets ObjectiveModel.w_snap w_obj]. unfold ObjectiveSpec.days. cbn [ObjectiveModel.nsnaps o_net removed nsnaps].
  assert (OFF : forall a v t, flag a = false -> ObjectiveSpec.at_ x (o_view a) v t = 0).
  { intros a v t F. unfold ObjectiveSpec.at_. cbn [ObjectiveModel.a_on o_view]. unfold on. now rewrite F. }
  assert (DI : forall a t, flag a = false -> ObjectiveSpec.dispatch x (o_view a) t = 0).
  { intros a t F. unfold ObjectiveSpec.dispatch. rewrite !OFF by exact F. repeat match goal with |- context [if ?b then _ else _] => destruct b end; reflexivity. }
  assert (ST : forall a t, flag a = false -> ObjectiveSpec.stored x (o_view a) t = 0).
  { intros a t F. unfold ObjectiveSpec.stored. rewrite !OFF by exact F. repeat match goal with |- context [if ?b then _ else _] => destruct b end; reflexivity. }
  assert (SP : forall a t, flag a = false -> ObjectiveSpec.spilled x (o_view a) t = 0).
  { intros a t F. unfold ObjectiveSpec.spilled. rewrite !OFF by exact F. repeat match goal with |- context [if ?b then _ else _] => destruct b end; reflexivity. }
  assert (UN : forall a w t, flag a = false -> ObjectiveSpec.unit_value x w (o_view a) t = 0).
  { intros a w t F. unfold ObjectiveSpec.unit_value. rewrite !OFF by exact F. repeat match goal with |- context [if ?b then _ else _] => destruct b end; reflexivity. }
  apply Qplus_comp; [apply Qplus_comp|].
  - rewrite !BalanceProofs.total_map. rewrite total_drop; [reflexivity|]. intros a _ F. cbn [ObjectiveModel.a_flag o_view]. rewrite F. reflexivity.
  - apply BalanceProofs.total_ext. intros t _. apply Qmult_comp; [reflexivity|]. rewrite !BalanceProofs.total_map. rewrite total_drop; [reflexivity|]. intros a _ F. unfold ObjectiveSpec.running. rewrite DI, ST, SP, UN by exact F. ring.
  - apply BalanceProofs.total_ext. intros t _. rewrite !BalanceProofs.total_map. rewrite total_drop; [reflexivity|]. intros a _ F. unfold ObjectiveSpec.starts. rewrite !UN by exact F. ring.
Qed.

(* every variable of the rows belongs to an asset *)
Definition owned (A : list asset) (cs : list con) : Prop := forall v, mentions cs v -> exists a, In a A /\ belongs a v.
Definition lab_ok (a : asset) (l : label) : Prop := forall v, l = Some v -> belongs a v.
Definition lin_ok (a : asset) (l : lin) : Prop := forall q v, In (q, Some v) l -> belongs a v.
Lemma owned_nil A : owned A [].
Proof. intros v [c [q [[] _]]]. Qed.
Lemma owned_app A a b : owned A a -> owned A b -> owned A (a ++ b).
Proof. intros H1 H2 v [c [q [I J]]]. apply in_app_or in I. destruct I as [I|I]; [apply H1|apply H2]; exists c, q; auto. Qed.
Lemma owned_flat {B} A (g : B -> list con) l : (forall b, In b l -> owned A (g b)) -> owned A (flat_map g l).
Proof. intros H v [c [q [I J]]]. apply in_flat_map in I. destruct I as [b [Ib I]]. apply (H b Ib). exists c, q. auto. Qed.
Lemma owned_add {B} A ts (comps : list B) mask f : (forall t b, In b comps -> forall q v, In (q, Some v) (lhs (f t b)) -> exists a, In a A /\ belongs a v) -> owned A (add_constraints ts comps mask f).
Proof.
  intros H v [c [q [I J]]]. unfold add_constraints in I. apply in_flat_map in I. destruct I as [t [_ I]]. apply in_flat_map in I. destruct I as [b [Ib I]].
  destruct (mask t b); [|destruct I]. destruct I as [<-|[]]. eapply H; eauto.
Qed.
Lemma owned_view {B} A (w : asset -> B) ts P l mask f : (forall a, In a l -> In a A) -> (forall t a, In a l -> lin_ok a (lhs (f t (w a)))) -> owned A (add_constraints ts (filter P (map w l)) mask f).
Proof.
  intros S H. apply owned_add. intros t b Ib q v J. apply filter_In in Ib. destruct Ib as [Ib _]. apply in_map_iff in Ib. destruct Ib as [a [<- Ia]]. exists a. split; [auto|]. exact (H t a Ia q v J).
Qed.
Lemma owned_view' {B} A (w : asset -> B) ts l mask f : (forall a, In a l -> In a A) -> (forall t a, In a l -> lin_ok a (lhs (f t (w a)))) -> owned A (add_constraints ts (map w l) mask f).
Proof.
  intros S H. apply owned_add. intros t b Ib q v J. apply in_map_iff in Ib. destruct Ib as [a [<- Ia]]. exists a. split; [auto|]. exact (H t a Ia q v J).
Qed.
Lemma owned_one {B} A (a : asset) (u : B) ts mask f : In a A -> (forall t, lin_ok a (lhs (f t u))) -> owned A (add_constraints ts [u] mask f).
Proof. intros S H. apply owned_add. intros t b [<-|[]] q v J. exists a. split; [auto|]. exact (H t q v J). Qed.
Lemma lin_nil a : lin_ok a [].
Proof. intros q v []. Qed.
Lemma lin_cons a q l r : lab_ok a l -> lin_ok a r -> lin_ok a ((q, l) :: r).
Proof. intros H R p v [E|I]; [|exact (R p v I)]. apply H. apply (f_equal snd) in E. exact E. Qed.
Lemma lin_app a l r : lin_ok a l -> lin_ok a r -> lin_ok a (l ++ r).
Proof. intros L R q v I. apply in_app_or in I. destruct I as [I|I]; [exact (L q v I)|exact (R q v I)]. Qed.
Lemma lin_map {B} a (f : B -> Q * label) l : (forall b, lab_ok a (snd (f b))) -> lin_ok a (map f l).
Proof. intros H q v I. apply in_map_iff in I. destruct I as [b [E _]]. apply (H b). now rewrite E. Qed.
Lemma lab_none a : lab_ok a None.
Proof. intros v E. discriminate. Qed.
Lemma lab_shift a f t : (forall t, lab_ok a (f t)) -> lab_ok a (shift f t).
Proof. intros H. destruct t; [apply lab_none|apply H]. Qed.
Lemma lab_if a (b : bool) l : lab_ok a l -> lab_ok a (if b then l else None).
Proof. destruct b; auto using lab_none. Qed.
Lemma lab_some a c attr t : cls a = c -> lab_ok a (Some ((c ++ "-" ++ attr)%string, t, nm a)).
Proof. intros <- v E. injection E as <-. exists attr, t. reflexivity. Qed.
Lemma lab_op a c v at_ t : cls a = c -> lab_ok a (DispatchModel.op c v (d_view at_ a) t).
Proof. intros K. unfold DispatchModel.op. apply lab_if. apply lab_some. exact K. Qed.
Lemma lab_cap a c na at_ : cls a = c -> lab_ok a (DispatchModel.cap c na (d_view at_ a)).
Proof. intros K. apply lab_some. exact K. Qed.
Lemma lab_mod a c at_ : cls a = c -> lab_ok a (DispatchModel.n_mod c (d_view at_ a)).
Proof. intros K. apply lab_some. exact K. Qed.
Lemma lab_uvar a c v t : cls a = c -> lab_ok a (CommitModel.uvar c (u_view a) v t).
Proof. intros K. unfold CommitModel.uvar. apply lab_if. apply lab_some. exact K. Qed.
Lemma lab_var a c attr t : cls a = c -> lab_ok a (StorageModel.var_of (s_view a) (c ++ "-" ++ attr)%string t).
Proof. intros K. unfold StorageModel.var_of. apply lab_if. apply lab_some. exact K. Qed.
Ltac apps := repeat match goal with |- owned _ (_ ++ _) => apply owned_app end.
Ltac lins := repeat first [apply lin_nil | apply lin_cons | apply lin_app | apply lab_shift; intros ? | apply lab_op; assumption | apply lab_cap; assumption | apply lab_mod; assumption | apply lab_uvar; assumption].

Section Own.
Variable m : net.
Notation A := (assets m).
Lemma of_class_in a c : In a (of_class m c) -> In a A /\ cls a = c.
Proof. unfold of_class. rewrite filter_In, String.eqb_eq. tauto. Qed.
Lemma own_capacity_of c na : owned A (capacity_of m c na).
Proof.
  unfold capacity_of, DispatchModel.nominal, DispatchModel.fixed_nominal, DispatchModel.modular, DispatchModel.ext_assets, DispatchModel.mod_assets. cbn zeta.
  apps; apply owned_view; try (intros a I; apply (of_class_in a c I)); intros t a I; apply of_class_in in I; destruct I as [_ K]; cbn [lhs DispatchModel.mk]; lins.
Qed.
Lemma own_commitment c a : In a A -> cls a = c -> owned A (CommitModel.commitment c (u_view a) (nsnaps m) false) /\ owned A (CommitModel.tighten c (u_view a) (nsnaps m)).
Proof.
  intros I K. split.
  - unfold CommitModel.commitment, CommitModel.transition, CommitModel.up_time, CommitModel.down_time, CommitModel.stay_up, CommitModel.stay_down, CommitModel.window.
    apps; try (destruct (Nat.eqb _ 0); [apply owned_nil|]); apply (owned_one A a _ _ _ _ I); intros t; cbn [lhs CommitModel.con1]; unfold CommitModel.start_up, CommitModel.status, CommitModel.shut_down; lins;
      apply lin_map; intros j; cbn [snd]; apply lab_uvar; exact K.
  - unfold CommitModel.tighten. cbn zeta. apps; apply (owned_one A a _ _ _ _ I); intros t; cbn [lhs CommitModel.con1]; unfold CommitModel.start_up, CommitModel.status, CommitModel.shut_down, CommitModel.power; lins.
Qed.
Lemma own_operation_of row : owned A (operation_of m row).
Proof.
  destruct row as [[[c attr] na] k]. unfold operation_of, commitment_of. cbn zeta.
  assert (S : forall a, In a (of_class m c) -> In a A) by (intros a I; apply (of_class_in a c I)).
  apply owned_app; [|apply owned_app; [|apply owned_app; [|apply owned_app; [|apply owned_app]]]].
  - unfold DispatchModel.non_extendables, DispatchModel.fixed_assets. apply owned_app; apply owned_view; auto; intros t a I; apply of_class_in in I; destruct I as [_ K]; cbn [lhs DispatchModel.mk]; unfold DispatchModel.loss_term; destruct (_ && _); lins.
  - unfold DispatchModel.extendables, DispatchModel.ext_assets. apply owned_app; apply owned_view; auto; intros t a I; apply of_class_in in I; destruct I as [_ K]; cbn [lhs DispatchModel.mk]; unfold DispatchModel.loss_term; destruct (_ && _); lins.
  - unfold DispatchModel.committables, DispatchModel.com_assets. apply owned_app; apply owned_view; auto; intros t a I; apply of_class_in in I; destruct I as [_ K]; cbn [lhs DispatchModel.mk]; lins.
  - apply owned_app; apply owned_flat; intros a I; apply filter_In in I; destruct I as [I _]; apply of_class_in in I; destruct I as [I K]; [apply (own_commitment c a I K)|]. destruct (tightened m a); [apply (own_commitment c a I K)|apply owned_nil].
  - destruct (has_uc c); [|apply owned_nil]. unfold RampModel.ramps. destruct (RampModel.early_return _ _); [apply owned_nil|].
    unfold RampModel.fixed_ramps, RampModel.extendable_ramps, RampModel.com_ramps, RampModel.fix_, RampModel.ext_, RampModel.com_.
    apps; apply owned_view; auto; intros t a I; apply of_class_in in I; destruct I as [_ K]; cbn zeta; cbn [lhs DispatchModel.mk]; unfold RampModel.p, RampModel.status; cbn [RampModel.base r_view]; lins.
  - unfold DispatchModel.fixed_operation. apply owned_view'; auto. intros t a I. apply of_class_in in I. destruct I as [_ K]. cbn [lhs DispatchModel.mk]. lins.
Qed.
Lemma own_balances cs : balances m = Some cs -> owned A cs.
Proof.
  unfold balances, BalanceModel.balance. destruct (_ || _); [discriminate|]. intros E. injection E as <-. apply owned_add. intros t b _ q v J. cbn [lhs] in J.
  unfold BalanceModel.balance_lhs in J. apply in_map_iff in J. destruct J as [e [E J]]. apply filter_In in J. destruct J as [J _].
  assert (L : forall c attr (a : asset) (x : string) (p : Q), In a (of_class m c) -> e = (x, (p, BalanceModel.lab (on a) (c ++ "-" ++ attr)%string (nm a) t)) -> exists a, In a A /\ belongs a v).
  { intros c attr a x p I X. apply of_class_in in I. destruct I as [I K]. exists a. split; [exact I|]. subst e. cbn [snd] in E. unfold BalanceModel.lab in E. destruct (on a t); [|discriminate]. injection E as _ <-. exists attr, t. now rewrite K. }
  unfold BalanceModel.entries, BalanceModel.one, BalanceModel.br, b_net in J. cbn [BalanceModel.gens BalanceModel.stores BalanceModel.units BalanceModel.lines BalanceModel.trafos BalanceModel.links] in J.
  rewrite !in_app_iff in J.
  assert (M : forall {B} c attr (w : asset -> B) (g : B -> BalanceModel.entry), In e (map g (map w (of_class m c))) -> (forall a, exists x p, g (w a) = (x, (p, BalanceModel.lab (on a) (c ++ "-" ++ attr)%string (nm a) t))) -> exists a, In a A /\ belongs a v).
  { intros B c attr w g I X. apply in_map_iff in I. destruct I as [b' [G I]]. apply in_map_iff in I. destruct I as [a [<- I]]. destruct (X a) as [x [p Y]]. apply (L c attr a x p I). congruence. }
  destruct J as [J|[J|[J|[J|[J|[J|[J|[J|[J|J]]]]]]]]].
  - apply (M _ "Generator" "p" c_view _ J). intros a. do 2 eexists. reflexivity.
  - apply (M _ "Store" "p" c_view _ J). intros a. do 2 eexists. reflexivity.
  - apply (M _ "StorageUnit" "p_dispatch" c_view _ J). intros a. do 2 eexists. reflexivity.
  - apply (M _ "StorageUnit" "p_store" c_view _ J). intros a. do 2 eexists. reflexivity.
  - destruct J as [J|J]; apply (M _ "Line" "s" br_view _ J); intros a; do 2 eexists; reflexivity.
  - destruct J as [J|J]; apply (M _ "Transformer" "s" br_view _ J); intros a; do 2 eexists; reflexivity.
  - apply (M _ "Link" "p" l_view _ J). intros a. do 2 eexists. reflexivity.
  - apply (M _ "Link" "p" l_view _ J). intros a. do 2 eexists. reflexivity.
  - apply in_flat_map in J. destruct J as [l [Il J]]. apply in_map_iff in Il. destruct Il as [a [<- Ia]]. apply in_map_iff in J. destruct J as [pe [X _]]. apply (L "Link" "p" a (fst pe) (snd pe t) Ia). symmetry. exact X.
  - destruct (lossy m); [|destruct J]. rewrite !in_app_iff in J. destruct J as [[J|J]|[J|J]]; [apply (M _ "Line" "loss" br_view _ J)|apply (M _ "Line" "loss" br_view _ J)|apply (M _ "Transformer" "loss" br_view _ J)|apply (M _ "Transformer" "loss" br_view _ J)]; intros a; do 2 eexists; reflexivity.
Qed.
Lemma lab_ffill a f t : (forall t, lab_ok a (f t)) -> lab_ok a (StorageModel.ffill f t).
Proof. intros H. induction t as [|t IH]; cbn [StorageModel.ffill]; destruct (f _) eqn:E; auto using lab_none; rewrite <- E; apply H. Qed.
Lemma lab_prev a c attr t : cls a = c -> lab_ok a (StorageModel.prev_label (nsnaps m) None (c ++ "-" ++ attr)%string (s_view a) t).
Proof.
  intros K. cbn [StorageModel.prev_label]. unfold StorageModel.previous, StorageModel.where_. apply lab_if. apply lab_ffill. intros t'. unfold StorageModel.roll.
  assert (H : forall s, lab_ok a (StorageModel.ffill (fun t0 => if StorageModel.s_active (s_view a) t0 then StorageModel.level (c ++ "-" ++ attr)%string (s_view a) t0 else None) s)).
  { intros s. apply lab_ffill. intros s'. apply lab_if. apply lab_var. exact K. }
  destruct t'; apply H.
Qed.
Lemma own_energy a c attr flows infl : In a A -> cls a = c -> (forall t, lin_ok a (flows t)) -> owned A (StorageModel.energy_balance (nsnaps m) None (c ++ "-" ++ attr)%string (s_view a) flows infl).
Proof.
  intros I K H. unfold StorageModel.energy_balance. apply (owned_one A a _ _ _ _ I). intros t. cbn [lhs]. apply lin_cons; [apply lab_var; exact K|]. apply lin_app; [apply H|]. apply lin_cons; [apply lab_prev; exact K|apply lin_nil].
Qed.
Lemma own_units : owned A (storage_units m).
Proof.
  unfold storage_units. apply owned_flat. intros a I. apply of_class_in in I. destruct I as [I K]. unfold StorageModel.unit_balance. apply (own_energy a "StorageUnit" "state_of_charge"); auto.
  intros t. unfold StorageModel.unit_flows. apply lin_cons; [apply (lab_var a "StorageUnit" "p_dispatch"); exact K|]. apply lin_cons; [apply (lab_var a "StorageUnit" "p_store"); exact K|]. apply lin_cons; [|apply lin_nil].
  unfold StorageModel.spill_label. apply lab_if. apply (lab_var a "StorageUnit" "spill"); exact K.
Qed.
Lemma own_stores : owned A (stores m).
Proof.
  unfold stores. apply owned_flat. intros a I. apply of_class_in in I. destruct I as [I K]. unfold StorageModel.store_balance. apply (own_energy a "Store" "e"); auto.
  intros t. apply lin_cons; [apply (lab_var a "Store" "p"); exact K|apply lin_nil].
Qed.
Lemma own_supplies : owned A (supplies m).
Proof.
  unfold supplies, CapModel.total_supply. assert (H : forall a, In a (of_class m "Generator") -> lin_ok a (CapModel.supply_terms (w_gen m) (seq 0 (nsnaps m)) (sup_view a))).
  { intros a I. apply of_class_in in I. destruct I as [_ K]. unfold CapModel.supply_terms. apply lin_map. intros t. cbn [snd CapModel.u_active sup_view CapModel.u_name]. apply lab_if. apply (lab_some a "Generator" "p"). exact K. }
  apply owned_app; apply owned_flat; intros b I; apply in_map_iff in I; destruct I as [a [<- I]]; [destruct (CapModel.u_min (sup_view a))|destruct (CapModel.u_max (sup_view a))]; try apply owned_nil;
    intros v [c [q' [[<-|[]] J]]]; exists a; (split; [apply (of_class_in a _ I)|exact (H a I _ v J)]).
Qed.
Lemma own_losses c cs : c = "Line" \/ c = "Transformer" -> losses m c = Some cs -> owned A cs.
Proof.
  intros C. unfold losses. destruct (lossy m); [|intros E; injection E as <-; apply owned_nil]. unfold LossModel.loss_constraints. destruct (map lo_view (of_class m c)) as [|b bs] eqn:B; [intros E; injection E as <-; apply owned_nil|]. rewrite <- B. clear B.
  destruct (forallb _ _); [|discriminate]. intros E. injection E as <-.
  assert (LB : forall a t attr, In a (of_class m c) -> lab_ok a (if on a t then Some ((c ++ ("-" ++ attr))%string, t, nm a) else None)).
  { intros a t attr I. apply of_class_in in I. apply lab_if. apply lab_some. tauto. }
  apply owned_app; [|apply owned_flat; intros k _; cbn [flat_map]; apps; try apply owned_nil]; unfold LossModel.upper, LossModel.tangent; apply owned_view'; try (intros a I; apply (of_class_in a c I)); intros t a I; cbn [lhs].
  - apply lin_cons; [apply (LB a t "loss" I)|apply lin_nil].
  - apply lin_cons; [apply (LB a t "loss" I)|]. apply lin_cons; [apply (LB a t "s" I)|apply lin_nil].
  - apply lin_cons; [apply (LB a t "loss" I)|]. apply lin_cons; [apply (LB a t "s" I)|apply lin_nil].
Qed.
Lemma own_limit_con em coef attr g sel c : LimitModel.limit_con (lim_net m attr) em coef g sel = Some c -> owned A [c].
Proof.
  unfold LimitModel.limit_con. destruct (_ || _); [|discriminate]. intros E. injection E as <-. intros v [c [q [[<-|[]] J]]]. cbn [lhs] in J. rewrite !in_app_iff in J.
  assert (ST : forall k attr' P, In (q, Some v) (LimitModel.sto_terms em (k ++ "-" ++ attr')%string (filter P (map st_view (of_class m k))) sel) -> exists a, In a A /\ belongs a v).
  { intros k attr' P I. unfold LimitModel.sto_terms in I. apply in_map_iff in I. destruct I as [s [X I]]. apply filter_In in I. destruct I as [I _]. apply in_map_iff in I. destruct I as [a [<- I]]. exists a. split; [apply (of_class_in a _ I)|].
    apply (f_equal snd) in X. cbn [snd LimitModel.st_of st_view] in X. revert X. unfold LimitModel.final_label.
    assert (G : forall l acc, lab_ok a acc -> lab_ok a (fold_left (fun acc t => match StorageModel.level (k ++ "-" ++ attr')%string (s_view a) t with Some v => Some v | None => acc end) l acc)).
    { induction l as [|t l IH]; intros acc H; [exact H|]. cbn [fold_left]. apply IH. destruct (StorageModel.level _ _ t) eqn:L; [|exact H]. rewrite <- L. apply lab_var. apply (of_class_in a _ I). }
    intros X. apply (G sel None (lab_none a) v X). }
  destruct J as [J|[J|J]].
  - unfold LimitModel.gen_terms in J. apply in_flat_map in J. destruct J as [g' [I J]]. unfold LimitModel.my_gens in I. apply filter_In in I. destruct I as [I _]. cbn [LimitModel.gens lim_net] in I. apply in_map_iff in I. destruct I as [a [<- I]]. apply of_class_in in I. destruct I as [I K].
    exists a. split; [exact I|]. apply in_map_iff in J. destruct J as [t [X _]]. apply (f_equal snd) in X. cbn [snd] in X. unfold LimitModel.gen_var in X. revert X. apply lab_if. apply (lab_some a "Generator" "p"). exact K.
  - apply (ST "StorageUnit" "state_of_charge" _ J).
  - apply (ST "Store" "e" _ J).
Qed.
Lemma k_in a c : In a (CapModel.cls (k_net m) c) -> exists b, In b A /\ a = k_view b /\ cls b = c.
Proof.
  unfold CapModel.cls. cbn [CapModel.assets k_net]. intros I. apply filter_In in I. destruct I as [I K]. apply in_map_iff in I. destruct I as [b [<- I]]. apply String.eqb_eq in K. eauto.
Qed.
Lemma own_transmission g present coef cs : rows (CapModel.transmission (k_net m) g present coef) = Some cs -> owned A cs.
Proof.
  unfold CapModel.transmission. destruct (existsb _ _); [|intros E; injection E as <-; apply owned_nil]. destruct (CapModel.bad_period _ _); [discriminate|]. cbn [rows]. match goal with |- context [flat_map ?f ?l] => remember (flat_map f l) as LL eqn:EL end. intros E. injection E as <-.
  intros v [c [q [[<-|[]] J]]]. cbn [lhs] in J. rewrite EL in J. apply in_flat_map in J. destruct J as [ca [_ J]]. destruct (present (fst ca)); [|destruct J]. unfold CapModel.t_terms in J. apply in_map_iff in J. destruct J as [a [X I]].
  apply filter_In in I. destruct I as [I _]. unfold CapModel.t_named, CapModel.ext_i in I. apply filter_In in I. destruct I as [I _]. apply filter_In in I. destruct I as [I _]. destruct (k_in a _ I) as [b [Ib [-> K]]].
  exists b. split; [exact Ib|]. apply (f_equal snd) in X. revert X. apply lab_some. exact K.
Qed.
Lemma own_limit l cs : limit_rows m l = Some cs -> owned A cs.
Proof.
  destruct l as [attr s q|c s q|k s q|k s q]; cbn [limit_rows].
  - unfold rows_of. intros E. injection E as <-. destruct (LimitModel.primary_energy _ _) as [c|] eqn:P; [|apply owned_nil]. unfold LimitModel.primary_energy in P. destruct (LimitModel.selected _ _); [|discriminate]. destruct (LimitModel.nonempty _); [|discriminate]. eapply own_limit_con. exact P.
  - unfold rows_of. intros E. injection E as <-. destruct (LimitModel.operational_limit _ _) as [c'|] eqn:P; [|apply owned_nil]. unfold LimitModel.operational_limit in P. destruct (LimitModel.selected _ _); [|discriminate]. eapply own_limit_con. exact P.
  - unfold CapModel.volume_limit. apply own_transmission.
  - unfold CapModel.cost_limit. destruct (_ && _); [discriminate|]. apply own_transmission.
Qed.
Lemma own_column col cs : column_rows m col = Some cs -> owned A cs.
Proof.
  unfold column_rows, CapModel.bus_column. destruct (CapModel.parse _ _ _ _ _) as [s k p| |]; [|intros E; injection E as <-; apply owned_nil|discriminate]. intros E. injection E as <-.
  destruct (CapModel.bus_any _ _ _); [|apply owned_nil]. apply owned_flat. intros b _. destruct (CapModel.col_val col b); [|apply owned_nil]. intros v [c [q' [[<-|[]] J]]]. cbn [lhs] in J.
  unfold CapModel.bus_terms in J. apply in_flat_map in J. destruct J as [ca [_ J]]. destruct (_ && _); [|destruct J]. apply in_map_iff in J. destruct J as [a [X I]].
  apply filter_In in I. destruct I as [I _]. unfold CapModel.tech_assets, CapModel.ext_i in I. apply filter_In in I. destruct I as [I _]. apply filter_In in I. destruct I as [I _]. apply filter_In in I. destruct I as [I _]. destruct (k_in a _ I) as [d [Id [-> K]]].
  exists d. split; [exact Id|]. apply (f_equal snd) in X. revert X. apply lab_some. exact K.
Qed.
Lemma collect_owned l cs : collect l = Some cs -> (forall p, In (Some p) l -> owned A p) -> owned A cs.
Proof.
  revert cs. induction l as [|o l IH]; intros cs E H; [injection E as <-; apply owned_nil|]. destruct o as [p|]; [|discriminate]. cbn [collect] in E. destruct (collect l) as [r|]; [|discriminate]. injection E as <-.
  apply owned_app; [apply H; now left|apply IH; auto]. intros p' I. apply H. now right.
Qed.
Lemma model_owned kvl cs : (forall l v, mentions (kvl l) v -> exists a, In a l /\ belongs a v) -> create_model kvl m = Some cs -> owned A cs.
Proof.
  intros K E. apply (collect_owned _ _ E). intros p I. unfold parts in I. rewrite !in_app_iff in I. destruct I as [I|[I|I]].
  - destruct I as [I|[I|[I|[I|[I|[I|[I|[I|[I|[]]]]]]]]]]; try (injection I as <-).
    + apply owned_flat. intros ca _. apply own_capacity_of.
    + apply owned_flat. intros row _. apply own_operation_of.
    + now apply own_balances.
    + intros v M. apply K in M. destruct M as [a [J B]]. apply filter_In in J. exists a. tauto.
    + apply own_units.
    + apply own_stores.
    + apply own_supplies.
    + apply (own_losses "Line"); auto.
    + apply (own_losses "Transformer"); auto.
  - apply in_map_iff in I. destruct I as [l [I _]]. now apply (own_limit l).
  - apply in_map_iff in I. destruct I as [l [I _]]. now apply (own_column l).
Qed.
End Own.

(* changing the variables of deactivated assets only *)
Definition agree (m : net) (x y : sol) : Prop :=
  (forall a v, In a (assets m) -> belongs a v -> x v = y v) /\ x ("objective_constant", O, "") = y ("objective_constant", O, "").
Lemma eval_agree x y l : (forall q v, In (q, Some v) l -> x v = y v) -> eval x l == eval y l.
Proof.
  induction l as [|[q [v|]] l IH]; intros H; [reflexivity| |]; cbn [eval val]; rewrite IH by (intros p w I; apply (H p w); now right); [|reflexivity]. rewrite (H q v (or_introl eq_refl)). reflexivity.
Qed.
Lemma rows_agree m x y cs : agree m x y -> owned (assets m) cs -> sat x (problem cs) -> sat y (problem cs).
Proof.
  intros [AG _] O S. rewrite sat_problem in *. intros c I T. specialize (S c I T).
  assert (E : eval y (lhs c) == eval x (lhs c)). { apply eval_agree. intros q v J. destruct (O v) as [a [Ia B]]; [exists c, q; auto|]. symmetry. eauto. }
  unfold holds in *. destruct (sns c); rewrite E; exact S.
Qed.
Lemma val_agree x y a l : (forall v, belongs a v -> x v = y v) -> lab_ok a l -> val x l = val y l.
Proof. intros H L. destruct l as [v|]; [|reflexivity]. cbn [val]. apply H. now apply L. Qed.
Lemma domains_agree m x y : agree m x y -> domains m x -> domains m y.
Proof.
  intros [AG CG] (M & C & S & L & K). split; [|split; [|split; [|split]]].
  - intros a I E G. destruct (M a I E G) as [z Z]. exists z. rewrite <- Z. rewrite (AG a); [reflexivity|exact I|]. exists "n_mod", O. reflexivity.
  - intros a I E. specialize (C a I E). assert (V : forall w t, val x (CommitModel.uvar (cls a) (u_view a) w t) = val y (CommitModel.uvar (cls a) (u_view a) w t)).
    { intros w t. apply (val_agree x y a); [intros v; now apply AG|now apply lab_uvar]. }
    destruct (linear m); destruct C as [C1 [C2 C3]]; (split; [|split]); intros t T O; [specialize (C1 t T O)|specialize (C2 t T O)|specialize (C3 t T O)|specialize (C1 t T O)|specialize (C2 t T O)|specialize (C3 t T O)];
      unfold CommitModel.status, CommitModel.start_up, CommitModel.shut_down in *; rewrite <- V; assumption.
  - intros a I E t v T V. rewrite <- (AG a v I); [now apply (S a I E t)|]. assert (LO : lab_ok a (StorageModel.spill_label (s_view a) (unit_data m a) t)) by (unfold StorageModel.spill_label; apply lab_if; now apply (lab_var a "StorageUnit" "spill")). now apply LO.
  - intros a t I P LS T F. rewrite <- (AG a _ I); [now apply L|]. exists "loss", t. reflexivity.
  - intros G. specialize (K G). unfold ObjectiveModel.const_label in *. cbn [val] in *. now rewrite <- CG.
Qed.
Lemma feasible_agree kvl m x y : (forall l v, mentions (kvl l) v -> exists a, In a l /\ belongs a v) -> agree m x y -> feasible kvl m x -> feasible kvl m y.
Proof.
  intros K AG [cs [E [S D]]]. exists cs. split; [exact E|]. split; [|now apply (domains_agree m x)]. apply (rows_agree m x y cs AG); auto. now apply (model_owned m kvl).
Qed.

(* the objective *)
Definition piece_lin (p : ObjectiveModel.piece) : lin := match p with ObjectiveModel.Linear l | ObjectiveModel.Square l => l | ObjectiveModel.Missing => [] end.
Definition pieces_ok (m : net) (ps : list ObjectiveModel.piece) : Prop :=
  forall p q v, In p ps -> In (q, Some v) (piece_lin p) -> (exists a, In a (assets m) /\ belongs a v) \/ v = ("objective_constant", O, "").
Lemma pieces_app m a b : pieces_ok m a -> pieces_ok m b -> pieces_ok m (a ++ b).
Proof. intros H1 H2 p q v I. apply in_app_or in I. destruct I; [now apply H1|now apply H2]. Qed.
Lemma square_agree x y l : (forall q v, In (q, Some v) l -> x v = y v) -> ObjectiveModel.square x l == ObjectiveModel.square y l.
Proof.
  induction l as [|[q [v|]] l IH]; intros H; [reflexivity| |]; cbn [ObjectiveModel.square val]; rewrite IH by (intros p w I; apply (H p w); now right); [|reflexivity]. rewrite (H q v (or_introl eq_refl)). reflexivity.
Qed.
Lemma value_agree m x y ps : agree m x y -> pieces_ok m ps -> ObjectiveModel.value_of x ps == ObjectiveModel.value_of y ps.
Proof.
  intros [AG CG]. unfold ObjectiveModel.value_of. induction ps as [|p ps IH]; intros H; [reflexivity|]. cbn [fold_right]. rewrite IH by (intros p' q v I; apply (H p' q v); now right).
  apply Qplus_comp; [|reflexivity]. assert (E : forall q v, In (q, Some v) (piece_lin p) -> x v = y v).
  { intros q v I. destruct (H p q v (or_introl eq_refl) I) as [[a [Ia B]]| ->]; eauto. }
  destruct p; cbn [ObjectiveModel.piece_value piece_lin] in *; [now apply eval_agree|now apply square_agree|reflexivity].
Qed.
Lemma o_in m c a : In a (ObjectiveModel.cls (o_net m) c) -> exists b, In b (assets m) /\ a = o_view b /\ cls b = c.
Proof. unfold ObjectiveModel.cls. cbn [ObjectiveModel.assets o_net]. intros I. apply filter_In in I. destruct I as [I K]. apply in_map_iff in I. destruct I as [b [<- I]]. apply String.eqb_eq in K. eauto. Qed.
Lemma lab_oop b c attr t : cls b = c -> lab_ok b (ObjectiveModel.op_label c attr (o_view b) t).
Proof. intros K. unfold ObjectiveModel.op_label. cbn zeta. apply lab_if. apply lab_some. exact K. Qed.
Lemma terms_ok m f c attr l q v : (forall a, In a l -> In a (ObjectiveModel.cls (o_net m) c)) -> In (q, Some v) (ObjectiveModel.terms (o_net m) f (ObjectiveModel.op_label c attr) l) -> exists a, In a (assets m) /\ belongs a v.
Proof.
  intros S I. unfold ObjectiveModel.terms in I. apply in_flat_map in I. destruct I as [a [Ia I]]. apply in_map_iff in I. destruct I as [t [X _]]. destruct (o_in m c a (S a Ia)) as [b [Ib [-> K]]].
  exists b. split; [exact Ib|]. apply (f_equal snd) in X. revert X. now apply lab_oop.
Qed.
Lemma pieces_owned m ps : define_objective m = Some ps -> pieces_ok m ps.
Proof.
  unfold define_objective. intros E. apply ObjectiveProofs.objective_pieces in E. destruct E as [-> _]. unfold ObjectiveModel.pieces.
  assert (OP : forall sq f rows, sq = ObjectiveModel.Linear \/ sq = ObjectiveModel.Square -> pieces_ok m (ObjectiveModel.operation (o_net m) sq f rows)).
  { intros sq f rows SQ p q v I J. left. unfold ObjectiveModel.operation in I. apply in_flat_map in I. destruct I as [ca [_ I]]. cbn zeta in I. destruct (ObjectiveModel.nonempty _); [|destruct I]. destruct I as [<-|[]].
    destruct (ObjectiveModel.exists_array _ _ _); [|destruct J].
    assert (X : In (q, Some v) (ObjectiveModel.terms (o_net m) f (ObjectiveModel.op_label (fst ca) (snd ca)) (filter (ObjectiveModel.charged (o_net m) f) (ObjectiveModel.cls (o_net m) (fst ca))))) by (destruct SQ; subst sq; exact J).
    revert X. apply terms_ok. intros a Ia. apply filter_In in Ia. tauto. }
  assert (COM : forall a c, In a (ObjectiveModel.com (o_net m) c) -> In a (ObjectiveModel.cls (o_net m) c)) by (intros a c I; unfold ObjectiveModel.com in I; apply filter_In in I; tauto).
  assert (SW : forall attr f, pieces_ok m (ObjectiveModel.switching (o_net m) attr f)).
  { intros attr f p q v I J. left. unfold ObjectiveModel.switching in I. apply in_flat_map in I. destruct I as [c [_ I]]. destruct (Qeq_bool _ 0); [destruct I|]. destruct I as [<-|[]]. cbn [piece_lin] in J.
    apply in_flat_map in J. destruct J as [a [Ia J]]. apply in_map_iff in J. destruct J as [t [X _]]. destruct (o_in m c a (COM a c Ia)) as [b [Ib [-> K]]]. exists b. split; [exact Ib|]. apply (f_equal snd) in X. revert X. now apply lab_oop. }
  apply pieces_app; [|apply pieces_app; [|apply pieces_app; [|apply pieces_app; [|apply pieces_app; [|apply pieces_app; [|apply pieces_app; [|apply pieces_app]]]]]]]; auto.
  - intros p q v I J. right. destruct (Qeq_bool _ 0); [destruct I|]. destruct I as [<-|[]]. cbn [piece_lin] in J. destruct J as [J|[]]. apply (f_equal snd) in J. cbn [snd] in J. unfold ObjectiveModel.const_label in J. injection J as <-. reflexivity.
  - intros p q v I J. left. unfold ObjectiveModel.standby in I. apply in_flat_map in I. destruct I as [c [_ I]]. destruct (ObjectiveModel.nonempty _); [|destruct I]. destruct I as [<-|[]]. cbn [piece_lin] in J. revert J. apply terms_ok. intros a Ia. apply filter_In in Ia. apply COM. tauto.
  - intros p q v I J. left. unfold ObjectiveModel.investment in I. apply in_flat_map in I. destruct I as [ca [_ I]]. destruct (ObjectiveModel.nonempty _); [|destruct I]. destruct I as [<-|[]]. cbn [piece_lin] in J. apply in_map_iff in J. destruct J as [a [X Ia]].
    unfold ObjectiveModel.ext in Ia. apply filter_In in Ia. destruct (o_in m (fst ca) a (proj1 Ia)) as [b [Ib [-> K]]]. exists b. split; [exact Ib|]. apply (f_equal snd) in X. revert X. now apply lab_some.
Qed.
Lemma cost_agree m x y q q' : agree m x y -> cost m x = Some q -> cost m y = Some q' -> q == q'.
Proof.
  unfold cost. intros AG. destruct (define_objective m) as [ps|] eqn:O; [|discriminate]. cbn [option_map]. intros E E'. injection E as <-. injection E' as <-. apply (value_agree m); auto. now apply pieces_owned.
Qed.

(* taking the capacities of deactivated assets from elsewhere *)
Definition var_dec (v w : var) : {v = w} + {v <> w}.
Proof. decide equality; [apply string_dec|]. decide equality; [apply Nat.eq_dec|apply string_dec]. Defined.
Definition idle_vars (n : net) : list var := flat_map (fun a => [cap_var a; mod_var a]) (filter (fun a => negb (flag a)) (assets n)).
Definition patch (n : net) (x y : sol) : sol := fun v => if in_dec var_dec v (idle_vars n) then x v else y v.
Lemma idle_in n v : In v (idle_vars n) <-> exists a, In a (assets n) /\ flag a = false /\ (v = cap_var a \/ v = mod_var a).
Proof.
  unfold idle_vars. rewrite in_flat_map. split.
  - intros [a [I J]]. apply filter_In in I. rewrite negb_true_iff in I. exists a. cbn [In] in J. destruct I, J as [J|[J|[]]]; auto.
  - intros [a [I [F J]]]. exists a. rewrite filter_In, negb_true_iff. cbn [In]. destruct J; auto.
Qed.
Lemma class_split c c' s s' : In c classes -> In c' classes -> (c ++ "-" ++ s)%string = (c' ++ "-" ++ s')%string -> c = c'.
Proof.
  unfold classes. cbn [In]. intros [<-|[<-|[<-|[<-|[<-|[<-|[]]]]]]] [<-|[<-|[<-|[<-|[<-|[<-|[]]]]]]] E; cbn [append] in E; try reflexivity; discriminate E.
Qed.
Lemma nodup_key {A B} (f : A -> B) l a b : NoDup (map f l) -> In a l -> In b l -> f a = f b -> a = b.
Proof.
  induction l as [|c l IH]; intros N Ia Ib E; [destruct Ia|]. cbn [map] in N. inversion N as [|? ? N1 N2]; subst.
  destruct Ia as [->|Ia], Ib as [->|Ib]; auto; exfalso; apply N1; [rewrite E|rewrite <- E]; now apply in_map.
Qed.
Lemma belongs_active n a v : well_named n -> In a (assets n) -> flag a = true -> belongs a v -> ~ In v (idle_vars n).
Proof.
  intros [ND W] I F [attr [t ->]] J. apply idle_in in J. destruct J as [b [Ib [Fb J]]].
  assert (E : cls a = cls b /\ nm a = nm b).
  { destruct J as [J|J]; unfold cap_var, mod_var in J; injection J as E1 E2 E3; (split; [|exact E3]).
    - eapply class_split; [apply (W a I)|apply (W b Ib)|exact E1].
    - eapply (class_split (cls a) (cls b) attr "n_mod"); [apply (W a I)|apply (W b Ib)|exact E1]. }
  destruct E as [E1 E2]. assert (a = b) by (apply (nodup_key (fun a => (cls a, nm a)) (assets n)); auto; congruence). subst b. congruence.
Qed.
Lemma const_not_idle n : well_named n -> ~ In (("objective_constant", O, "") : var) (idle_vars n).
Proof.
  intros [_ W] J. apply idle_in in J. destruct J as [b [Ib [_ J]]]. specialize (W b Ib).
  assert (E : exists s, "objective_constant" = (cls b ++ "-" ++ s)%string) by (destruct J as [J|J]; unfold cap_var, mod_var in J; injection J as E1 _; [exists (nattr (cls b))|exists "n_mod"]; exact E1).
  destruct E as [s E]. unfold classes in W. cbn [In] in W. destruct W as [W|[W|[W|[W|[W|[W|[]]]]]]]; rewrite <- W in E; discriminate E.
Qed.
Lemma patch_agree n x y : well_named n -> agree (removed n) y (patch n x y).
Proof.
  intros WN. split.
  - intros a v I B. cbn [removed assets] in I. apply filter_In in I. destruct I as [I F]. unfold patch. destruct (in_dec var_dec v (idle_vars n)) as [J|]; [|reflexivity]. exfalso. exact (belongs_active n a v WN I F B J).
  - unfold patch. destruct (in_dec var_dec _ (idle_vars n)) as [J|]; [|reflexivity]. exfalso. exact (const_not_idle n WN J).
Qed.
Lemma patch_idle n x y : idle_capacities n x -> idle_capacities n (patch n x y).
Proof.
  intros H a I F E. assert (C : patch n x y (cap_var a) = x (cap_var a) /\ patch n x y (mod_var a) = x (mod_var a)).
  { split; unfold patch; destruct (in_dec var_dec _ (idle_vars n)) as [|N]; auto; exfalso; apply N; apply idle_in; eauto. }
  destruct C as [-> ->]. auto.
Qed.
Lemma patch_same n x y : same_operation n (patch n x y) y.
Proof.
  intros v H. unfold patch. destruct (in_dec var_dec v (idle_vars n)) as [J|]; [|reflexivity]. apply idle_in in J. destruct J as [a [I [F J]]]. destruct (H a I F). tauto.
Qed.

Lemma patched_feasible kvl n x y : well_named n -> detached n -> cycles_intact kvl n -> in_operation n -> idle_capacities n x -> feasible kvl (removed n) y -> feasible kvl n (patch n x y).
Proof.
  intros WN D K O IC FY. apply feasible_removed; auto. split; [|now apply patch_idle]. apply (feasible_agree kvl _ y); auto; [apply K|now apply patch_agree].
Qed.
Lemma const_of kvl m x : feasible kvl m x -> ObjectiveModel.const_fixed (o_net m) x.
Proof. intros [cs [_ [_ D]]]. apply D. Qed.
Lemma optimal_removed kvl n x : well_named n -> detached n -> cycles_intact kvl n -> in_operation n -> costs_sane n -> define_objective (removed n) <> None ->
  optimal kvl n x -> optimal kvl (removed n) x.
Proof.
  intros WN D K O CS DO [FX [q [CX BEST]]]. assert (FX' := FX). apply feasible_removed in FX'; auto. destruct FX' as [FR IC]. split; [exact FR|].
  destruct (cost (removed n) x) as [q'|] eqn:CR; [|unfold cost in CR; destruct (define_objective (removed n)); [discriminate|congruence]].
  exists q'. split; [reflexivity|]. intros y p FY CY. pose proof (cost_removed n x q q' WN CS (const_of _ _ _ FX) CX CR) as E.
  set (z := patch n x y). assert (FZ : feasible kvl n z) by now apply patched_feasible.
  destruct (cost n z) as [s|] eqn:CZ; [|unfold cost in *; destruct (define_objective n); discriminate]. destruct (cost (removed n) z) as [s'|] eqn:CZ'; [|unfold cost in *; destruct (define_objective (removed n)); discriminate].
  pose proof (BEST z s FZ CZ). pose proof (cost_removed n z s s' WN CS (const_of _ _ _ FZ) CZ CZ'). pose proof (cost_agree (removed n) y z p s' (patch_agree n x y WN) CY CZ'). lra.
Qed.
Lemma optimal_restored kvl n x y : well_named n -> detached n -> cycles_intact kvl n -> in_operation n -> costs_sane n -> define_objective n <> None ->
  idle_capacities n x -> optimal kvl (removed n) y -> exists z, optimal kvl n z /\ same_operation n z y.
Proof.
  intros WN D K O CS DO IC [FY [q [CY BEST]]]. exists (patch n x y). split; [|apply patch_same]. set (z := patch n x y). assert (FZ : feasible kvl n z) by now apply patched_feasible. split; [exact FZ|].
  destruct (cost n z) as [s|] eqn:CZ; [|unfold cost in CZ; destruct (define_objective n); [discriminate|congruence]]. exists s. split; [reflexivity|]. intros w p FW CW.
  destruct (cost (removed n) z) as [s'|] eqn:CZ'; [|unfold cost in *; destruct (define_objective (removed n)); discriminate].
  destruct (cost (removed n) w) as [p'|] eqn:CW'; [|unfold cost in *; destruct (define_objective (removed n)); discriminate].
  pose proof (cost_removed n z s s' WN CS (const_of _ _ _ FZ) CZ CZ'). pose proof (cost_removed n w p p' WN CS (const_of _ _ _ FW) CW CW'). pose proof (cost_agree (removed n) y z q s' (patch_agree n x y WN) CY CZ').
  assert (FR : feasible kvl (removed n) w) by (apply feasible_removed in FW; tauto). pose proof (BEST w p' FR CW'). lra.
Qed.

(* the objective can be written down *)
Lemma objectives_defined n :
  (exists a, In a (assets n) /\ flag a = true /\ (ext a = true /\ In (cls a) classes \/
    In (cls a) ["Generator"; "Link"; "Store"; "StorageUnit"] /\ exists t, (t < nsnaps n)%nat /\ ~ marginal a t == 0)) ->
  (forall a t, In a (assets n) -> cls a = "StorageUnit" -> (t < nsnaps n)%nat -> ~ spill_cost a t == 0 ->
    exists b s, In b (assets n) /\ cls b = "StorageUnit" /\ flag b = true /\ (s < nsnaps n)%nat /\ 0 < inflow b s) ->
  define_objective n <> None /\ define_objective (removed n) <> None.
Proof.
  intros [a [I [F C]]] SP.
  assert (G : forall m, In a (assets m) -> nsnaps m = nsnaps n -> (forall b, In b (assets m) -> In b (assets n)) -> (forall b, In b (assets n) -> flag b = true -> In b (assets m)) -> define_objective m <> None).
  { intros m Im Tm S1 S2. unfold define_objective. destruct (ObjectiveProofs.defined (o_net m)) as [ps ->]; [| |discriminate].
    - intros o Io K [t [T Z]]. cbn [o_net ObjectiveModel.assets ObjectiveModel.nsnaps] in *. apply in_map_iff in Io. destruct Io as [b [<- Ib]]. cbn in K, Z. rewrite Tm in T.
      destruct (SP b t (S1 b Ib) K T Z) as [d [s [Id [Kd [Fd [Ts J]]]]]]. exists (o_view d). split; [apply in_map; auto|]. split; [exact Kd|]. exists s. cbn. rewrite Tm. auto.
    - exists (o_view a). cbn [o_net ObjectiveModel.assets]. split; [now apply in_map|]. unfold ObjectiveSpec.is, classes in *. destruct C as [[E K]|[K [t [T Z]]]]; [left|right].
      + split; [|exact E]. apply existsb_exists. exists (cls a). split; [exact K|]. cbn. apply String.eqb_refl.
      + split; [|exists t; cbn; rewrite Tm; auto]. apply existsb_exists. exists (cls a). split; [exact K|]. cbn. apply String.eqb_refl. }
  split; apply G; auto; cbn [removed assets]; intros; try (apply filter_In; auto); match goal with H : In _ (filter _ _) |- _ => apply filter_In in H; tauto end.
Qed.

(* concrete networks *)
Definition blank (c nm_ b : string) (on_ ext_ : bool) : asset :=
  {| cls := c; nm := nm_; bus0 := b; bus1 := b; sgn := 1; ports := []; carrier := "AC"; flag := on_; ext := ext_; committable := false;
     nom := 5; nom_min := 0; nom_max := None; nom_set := None; nom_mod := 0; min_pu := fun _ => 0; max_pu := fun _ => 1; max_hours := 1;
     op_set := fun _ _ => None; up := fun _ => None; down := fun _ => None; up_static := None; down_static := None; start_lim := 1; shut_lim := 1;
     min_up := 0; min_down := 0; up_before := 1; down_before := 0; eff := fun _ => 1; stand := fun _ => 0; init := 0; cyclic := false;
     eff_dispatch := fun _ => 1; eff_store := fun _ => 1; inflow := fun _ => 0; capital := 0; marginal := fun _ => 1; storage_cost := fun _ => 0;
     spill_cost := fun _ => 0; quadratic := fun _ => 0; standby := fun _ => 0; start_cost := 0; shut_cost := 0; len := 1; e_min := None; e_max := None; r_eff := 1 |}.
Definition small (T : nat) (l : list asset) (dem : nat -> Q) (tan : nat) (lims : list limit) (cols : list CapModel.column) : net :=
  {| assets := l; loads := [{| BalanceModel.d_bus := "a"; BalanceModel.d_sign := -(1); BalanceModel.d_p := dem; BalanceModel.d_active := true |}];
     buses := ["a"]; nsnaps := T; w_obj := fun _ => 1; w_gen := fun _ => 1; w_sto := fun _ => 1; tangents := tan; linear := false;
     emission := fun _ => []; carriers := ["AC"]; limits := lims; columns := cols |}.
Definition no_kvl : list asset -> list con := fun _ => [].
Definition gen_ := blank "Generator" "g" "a" true false.
Definition with_ramps (a : asset) (lo : Q) (r : nat -> option Q) : asset :=
  {| cls := cls a; nm := nm a; bus0 := bus0 a; bus1 := bus1 a; sgn := sgn a; ports := ports a; carrier := carrier a; flag := flag a; ext := ext a; committable := committable a;
     nom := 1; nom_min := nom_min a; nom_max := nom_max a; nom_set := nom_set a; nom_mod := nom_mod a; min_pu := fun _ => lo; max_pu := max_pu a; max_hours := max_hours a;
     op_set := op_set a; up := r; down := r; up_static := up_static a; down_static := down_static a; start_lim := start_lim a; shut_lim := shut_lim a;
     min_up := min_up a; min_down := min_down a; up_before := up_before a; down_before := down_before a; eff := eff a; stand := stand a; init := init a; cyclic := cyclic a;
     eff_dispatch := eff_dispatch a; eff_store := eff_store a; inflow := inflow a; capital := capital a; marginal := marginal a; storage_cost := storage_cost a;
     spill_cost := spill_cost a; quadratic := quadratic a; standby := standby a; start_cost := start_cost a; shut_cost := shut_cost a; len := len a; e_min := e_min a; e_max := e_max a; r_eff := r_eff a |}.
Definition with_range (a : asset) (lo : Q) (hi : option Q) : asset :=
  {| cls := cls a; nm := nm a; bus0 := bus0 a; bus1 := bus1 a; sgn := sgn a; ports := ports a; carrier := carrier a; flag := flag a; ext := ext a; committable := committable a;
     nom := nom a; nom_min := lo; nom_max := hi; nom_set := nom_set a; nom_mod := nom_mod a; min_pu := min_pu a; max_pu := max_pu a; max_hours := max_hours a;
     op_set := op_set a; up := up a; down := down a; up_static := up_static a; down_static := down_static a; start_lim := start_lim a; shut_lim := shut_lim a;
     min_up := min_up a; min_down := min_down a; up_before := up_before a; down_before := down_before a; eff := eff a; stand := stand a; init := init a; cyclic := cyclic a;
     eff_dispatch := eff_dispatch a; eff_store := eff_store a; inflow := inflow a; capital := capital a; marginal := marginal a; storage_cost := storage_cost a;
     spill_cost := spill_cost a; quadratic := quadratic a; standby := standby a; start_cost := start_cost a; shut_cost := shut_cost a; len := len a; e_min := e_min a; e_max := e_max a; r_eff := r_eff a |}.
Definition with_level (a : asset) (i : Q) (sp : Q) : asset :=
  {| cls := cls a; nm := nm a; bus0 := bus0 a; bus1 := bus1 a; sgn := sgn a; ports := ports a; carrier := carrier a; flag := flag a; ext := ext a; committable := committable a;
     nom := nom a; nom_min := nom_min a; nom_max := nom_max a; nom_set := nom_set a; nom_mod := nom_mod a; min_pu := min_pu a; max_pu := max_pu a; max_hours := max_hours a;
     op_set := op_set a; up := up a; down := down a; up_static := up_static a; down_static := down_static a; start_lim := start_lim a; shut_lim := shut_lim a;
     min_up := min_up a; min_down := min_down a; up_before := up_before a; down_before := down_before a; eff := eff a; stand := stand a; init := i; cyclic := cyclic a;
     eff_dispatch := eff_dispatch a; eff_store := eff_store a; inflow := inflow a; capital := capital a; marginal := marginal a; storage_cost := storage_cost a;
     spill_cost := fun _ => sp; quadratic := quadratic a; standby := standby a; start_cost := start_cost a; shut_cost := shut_cost a; len := len a; e_min := e_min a; e_max := e_max a; r_eff := r_eff a |}.

Definition ramp_net : net := small 2 [with_ramps gen_ (-(1)) (fun _ => Some 1); blank "Generator" "h" "a" false false] (fun t => match t with O => 1 | _ => -(1) end) 0 [] [].
Definition ramp_x : sol := fun v => match v with (_, O, _) => 1 | _ => -(1) end.
Definition range_net : net := small 1 [gen_; with_range (blank "Generator" "h" "a" false true) 2 (Some 1)] (fun _ => 1) 0 [] [].
Definition volume_net : net := small 1 [gen_; with_range (blank "Line" "h" "a" false true) 2 (Some 3)] (fun _ => 1) 0 [Volume "AC" Le 1] [].
Definition column_net : net := small 1 [gen_; with_range (blank "Generator" "h" "a" false true) 2 (Some 3)] (fun _ => 1) 0 [] [{| CapModel.col_name := "nom_max_AC"; CapModel.col_val := fun _ => Some 1 |}].
Definition level_net : net := small 1 [gen_; with_level (blank "Store" "h" "a" false false) 5 0] (fun _ => 1) 0 [Operational "AC" Le 3] [].
Definition loss_net : net := small 1 [gen_; blank "Line" "h" "a" false true] (fun _ => 1) 1 [] [].
Definition spill_net : net := small 1 [gen_; with_level (blank "StorageUnit" "h" "a" false false) 0 1] (fun _ => 1) 0 [] [].
Definition one_x : sol := fun _ => 1.
Lemma easy_domains m x : forallb (fun a => Qle_bool (nom_mod a) 0 && negb (com a) && negb (String.eqb (cls a) "StorageUnit") && negb (passive a)) (assets m) = true ->
  Qeq_bool (ObjectiveModel.constant (o_net m)) 0 = true -> domains m x.
Proof.
  intros A K. rewrite forallb_forall in A. assert (B : forall a, In a (assets m) -> Qle_bool (nom_mod a) 0 = true /\ com a = false /\ cls a <> "StorageUnit" /\ passive a = false).
  { intros a I. specialize (A a I). rewrite !andb_true_iff, !negb_true_iff in A. destruct A as [[[A1 A2] A3] A4]. apply String.eqb_neq in A3. auto. }
  split; [|split; [|split; [|split]]].
  - intros a I _ G. destruct (B a I) as [E _]. congruence.
  - intros a I E. destruct (B a I) as [_ [F _]]. congruence.
  - intros a I E. destruct (B a I) as [_ [_ [F _]]]. congruence.
  - intros a t I E. destruct (B a I) as [_ [_ [_ F]]]. congruence.
  - intros E. congruence.
Qed.
Ltac small_ok := split; [split; [cbn; repeat (constructor; [cbn; intuition discriminate|]); constructor|cbn; unfold classes; cbn [In]; intros a [<-|[<-|[]]]; cbn [cls blank]; auto 10]|split;
  [split; [intros x; split; intros _ c []|intros l v [c [q [[] _]]]]|exists gen_; cbn; auto]].
Ltac feas := eexists; split; [vm_compute; reflexivity|split; [apply satb_iff; vm_compute; reflexivity|apply easy_domains; vm_compute; reflexivity]].
Definition usual (n : net) : Prop := well_named n /\ cycles_intact no_kvl n /\ in_operation n.
Lemma row_holds x cs c : sat x (problem cs) -> In c (problem cs) -> holds x c.
Proof. intros S. apply S. Qed.
Lemma ramp_refuted : usual ramp_net /\ feasible no_kvl (removed ramp_net) ramp_x /\ idle_capacities ramp_net ramp_x /\ ~ exists y, feasible no_kvl ramp_net y.
Proof.
  split; [|split; [feas|split]].
  - split; [split; [cbn; repeat (constructor; [cbn; intuition discriminate|]); constructor|cbn; intros a [<-|[<-|[]]]; cbn; auto 10]|split; [split; [intros x; split; intros _ c []|intros l v [c [q [[] _]]]]|]].
    eexists. split; [left; reflexivity|]. cbn. auto.
  - intros a [<-|[<-|[]]]; discriminate.
  - intros [y [cs [E [S _]]]]. vm_compute in E. injection E as <-.
    pose proof (row_holds y _ {| lhs := [(1, Some ("Generator-p", 0%nat, "g")); (1, None)]; sns := Eq; rhs := 1 |} S ltac:(cbn; tauto)) as H1.
    pose proof (row_holds y _ {| lhs := [(1, Some ("Generator-p", 1%nat, "g")); (1, None)]; sns := Eq; rhs := -1 |} S ltac:(cbn; tauto)) as H2.
    pose proof (row_holds y _ {| lhs := [(1, Some ("Generator-p", 1%nat, "g")); (-1, Some ("Generator-p", 0%nat, "g"))]; sns := Ge; rhs := -1 |} S ltac:(cbn; tauto)) as H3.
    unfold holds in *. cbn [sns lhs rhs eval val] in *. lra.
Qed.
Lemma range_refuted : usual range_net /\ detached range_net /\ feasible no_kvl (removed range_net) one_x /\ ~ exists y, feasible no_kvl range_net y.
Proof.
  split; [small_ok|split; [|split; [feas|]]].
  - constructor; cbn; try tauto.
    + intros c H A a I F G. destruct I as [<-|[<-|[]]]; [discriminate|]. cbn in F. subst c. intros t T. exfalso. destruct (A gen_ (or_introl eq_refl) eq_refl eq_refl t T) as [u [d [U _]]]. discriminate U.
    + intros c H A a I F G. destruct I as [<-|[<-|[]]]; split; reflexivity.
  - intros [y [cs [E [S _]]]]. vm_compute in E. injection E as <-.
    pose proof (row_holds y _ {| lhs := [(1, Some ("Generator-p_nom", 0%nat, "h"))]; sns := Ge; rhs := 2 |} S ltac:(cbn; tauto)) as H1.
    pose proof (row_holds y _ {| lhs := [(1, Some ("Generator-p_nom", 0%nat, "h"))]; sns := Le; rhs := 1 |} S ltac:(cbn; tauto)) as H2.
    unfold holds in *. cbn [sns lhs rhs eval val] in *. lra.
Qed.
Definition three_x : sol := fun v => match v with (s, _, _) => if String.eqb s "Generator-p" then 1 else 3 end.
Lemma volume_refuted : usual volume_net /\ feasible no_kvl (removed volume_net) three_x /\ idle_capacities volume_net three_x /\ ~ exists y, feasible no_kvl volume_net y.
Proof.
  split; [small_ok|split; [feas|split]].
  - intros a [<-|[<-|[]]]; [discriminate|]. intros _ _. split; [|intros H; discriminate H]. split; [vm_compute; discriminate|]. split; [intros u H; injection H as <-; vm_compute; discriminate|discriminate].
  - intros [y [cs [E [S _]]]]. vm_compute in E. injection E as <-.
    pose proof (row_holds y _ {| lhs := [(1, Some ("Line-s_nom", 0%nat, "h"))]; sns := Ge; rhs := 2 |} S ltac:(cbn; tauto)) as H1.
    pose proof (row_holds y _ {| lhs := [(1, Some ("Line-s_nom", 0%nat, "h"))]; sns := Le; rhs := 1 |} S ltac:(cbn; tauto)) as H2.
    unfold holds in *. cbn [sns lhs rhs eval val] in *. lra.
Qed.
Lemma column_refuted : usual column_net /\ feasible no_kvl (removed column_net) three_x /\ idle_capacities column_net three_x /\ ~ exists y, feasible no_kvl column_net y.
Proof.
  split; [small_ok|split; [feas|split]].
  - intros a [<-|[<-|[]]]; [discriminate|]. intros _ _. split; [|intros H; discriminate H]. split; [vm_compute; discriminate|]. split; [intros u H; injection H as <-; vm_compute; discriminate|discriminate].
  - intros [y [cs [E [S _]]]]. vm_compute in E. injection E as <-.
    pose proof (row_holds y _ {| lhs := [(1, Some ("Generator-p_nom", 0%nat, "h"))]; sns := Ge; rhs := 2 |} S ltac:(cbn; tauto)) as H1.
    pose proof (row_holds y _ {| lhs := [(1, Some ("Generator-p_nom", 0%nat, "h"))]; sns := Le; rhs := 1 |} S ltac:(cbn; tauto)) as H2.
    unfold holds in *. cbn [sns lhs rhs eval val] in *. lra.
Qed.
Lemma level_refuted : usual level_net /\ feasible no_kvl (removed level_net) one_x /\ idle_capacities level_net one_x /\ ~ exists y, feasible no_kvl level_net y.
Proof.
  split; [small_ok|split; [feas|split]].
  - intros a [<-|[<-|[]]]; discriminate.
  - intros [y [cs [E [S _]]]]. vm_compute in E. injection E as <-.
    pose proof (row_holds y _ {| lhs := [(1, Some ("Generator-p", 0%nat, "g")); (1, None)]; sns := Eq; rhs := 1 |} S ltac:(cbn; tauto)) as H1.
    pose proof (row_holds y _ {| lhs := [(1, Some ("Generator-p", 0%nat, "g")); (-1, None)]; sns := Le; rhs := -2 |} S ltac:(cbn; tauto)) as H2.
    unfold holds in *. cbn [sns lhs rhs eval val] in *. lra.
Qed.
Lemma loss_refuted : usual loss_net /\ feasible no_kvl (removed loss_net) one_x /\ idle_capacities loss_net one_x /\ create_model no_kvl loss_net = None.
Proof.
  split; [small_ok|split; [feas|split; [|vm_compute; reflexivity]]].
  intros a [<-|[<-|[]]]; [discriminate|]. intros _ _. split; [|intros H; discriminate H]. split; [vm_compute; discriminate|]. split; discriminate.
Qed.
Lemma spill_refuted : usual spill_net /\ feasible no_kvl (removed spill_net) one_x /\ cost (removed spill_net) one_x = Some 1 /\ create_model no_kvl spill_net <> None /\ define_objective spill_net = None.
Proof.
  split; [small_ok|split; [feas|split; [|split]]].
  - vm_compute. reflexivity.
  - vm_compute. discriminate.
  - vm_compute. reflexivity.
Qed.

Lemma cost_some m x : define_objective m <> None -> exists s, cost m x = Some s.
Proof. unfold cost. destruct (define_objective m); [cbn; eauto|congruence]. Qed.
(* a network that meets all conditions *)
Definition fine_net : net := small 2 [gen_; with_range (blank "Generator" "h" "a" false true) 2 (Some 4); blank "StorageUnit" "s" "a" false true; blank "Line" "l" "a" false false] (fun _ => 1) 0 [Primary "co2" Le 7; Volume "DC" Le 1] [].
Definition fine_x : sol := fun v => match v with (s, _, _) => if String.eqb s "Generator-p" then 1 else 3 end.
Lemma fine_case : usual fine_net /\ detached fine_net /\ costs_sane fine_net /\ optimal no_kvl fine_net fine_x /\ optimal no_kvl (removed fine_net) one_x /\
  define_objective fine_net <> None /\ define_objective (removed fine_net) <> None /\ idle_capacities fine_net fine_x /\ ~ idle_capacities fine_net one_x /\ cost fine_net fine_x = Some 2 /\ cost (removed fine_net) fine_x = Some 2.
Proof.
  assert (U : usual fine_net).
  { split; [split; [cbn; repeat (constructor; [cbn; intuition discriminate|]); constructor|cbn; intros a [<-|[<-|[<-|[<-|[]]]]]; cbn; auto 10]|split; [split; [intros x; split; intros _ c []|intros l v [c [q [[] _]]]]|]].
    eexists. split; [left; reflexivity|]. cbn. auto. }
  assert (D : detached fine_net).
  { constructor; cbn; try tauto.
    - intros c H A a I F G. assert (X : cls a = c -> c = "Generator" \/ c = "Link" -> a = gen_ \/ a = with_range (blank "Generator" "h" "a" false true) 2 (Some 4)) by (intros <-; destruct I as [<-|[<-|[<-|[<-|[]]]]]; auto; intros [X|X]; discriminate X).
      destruct (X F H) as [->| ->]; [discriminate G|]. cbn in F. subst c. intros t T. exfalso. destruct (A gen_ (or_introl eq_refl) eq_refl eq_refl t T) as [u [d [V _]]]. discriminate V.
    - intros c H A a I F G. destruct I as [<-|[<-|[<-|[<-|[]]]]]; split; reflexivity.
    - intros l a _ I _ _. destruct I as [<-|[<-|[<-|[<-|[]]]]]; reflexivity.
    - intros l a L I F [K [E J]]. destruct I as [<-|[<-|[<-|[<-|[]]]]]; cbn in *; try discriminate E; try discriminate F; destruct K; discriminate. }
  assert (OX : ObjectiveModel.const_fixed (o_net fine_net) fine_x) by (intros E; vm_compute in E; discriminate E).
  assert (IC : idle_capacities fine_net fine_x).
  { intros a I F E. split; [|intros M; destruct I as [<-|[<-|[<-|[<-|[]]]]]; discriminate M]. unfold in_range. destruct I as [<-|[<-|[<-|[<-|[]]]]]; try discriminate; (split; [vm_compute; discriminate|split; [|discriminate]]); intros u V; try discriminate V. injection V as <-. vm_compute; discriminate. }
  assert (DO : define_objective fine_net <> None) by (vm_compute; discriminate). assert (DR : define_objective (removed fine_net) <> None) by (vm_compute; discriminate).
  assert (CS : costs_sane fine_net) by (intros a [<-|[<-|[<-|[<-|[]]]]]; cbn; lra).
  assert (RB : forall y q', feasible no_kvl (removed fine_net) y -> cost (removed fine_net) y = Some q' -> 2 <= q').
  { intros y q' [cs [E [S _]]] C. vm_compute in E. injection E as <-.
    pose proof (row_holds y _ {| lhs := [(1, Some ("Generator-p", 0%nat, "g"))]; sns := Eq; rhs := 1 |} S ltac:(cbn; tauto)) as H1.
    pose proof (row_holds y _ {| lhs := [(1, Some ("Generator-p", 1%nat, "g"))]; sns := Eq; rhs := 1 |} S ltac:(cbn; tauto)) as H2.
    unfold holds in *. cbn [sns lhs rhs eval val] in *. unfold cost in C.
    assert (O : define_objective (removed fine_net) = Some [ObjectiveModel.Linear [(1, Some ("Generator-p", 0%nat, "g")); (1, Some ("Generator-p", 1%nat, "g"))]]) by (vm_compute; reflexivity).
    rewrite O in C. unfold ObjectiveModel.value_of in C. cbn [option_map fold_right ObjectiveModel.piece_value eval val] in C. injection C as <-. lra. }
  assert (OPT : optimal no_kvl (removed fine_net) fine_x).
  { split; [feas|]. exists 2. split; [vm_compute; reflexivity|exact RB]. }
  assert (OPT1 : optimal no_kvl (removed fine_net) one_x).
  { split; [feas|]. exists 2. split; [vm_compute; reflexivity|exact RB]. }
  assert (FF : feasible no_kvl fine_net fine_x) by (destruct U as [U1 [U2 U3]]; apply feasible_removed; auto; split; [apply OPT|exact IC]).
  split; [exact U|]. split; [exact D|]. split; [exact CS|]. split; [|split; [exact OPT1|split; [exact DO|split; [exact DR|split; [exact IC|split; [|split; vm_compute; reflexivity]]]]]].
  - split; [exact FF|]. exists 2. split; [vm_compute; reflexivity|]. intros y q' FY C. destruct U as [U1 [U2 U3]].
    destruct (cost_some _ y DR) as [s CR].
    pose proof (cost_removed fine_net y q' s U1 CS (const_of _ _ _ FY) C CR). apply feasible_removed in FY; auto. pose proof (RB y s (proj1 FY) CR). lra.
  - intros H. destruct (H (with_range (blank "Generator" "h" "a" false true) 2 (Some 4))) as [[X _] _]; cbn; auto.
Qed.
