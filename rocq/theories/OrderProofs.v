From Coq Require Import List String Bool QArith ZArith Arith Permutation Lia Lqa.
From Verif Require Import LinModel WholeModel IdleSpec OrderSpec.
From Verif Require DispatchModel RampModel CommitModel BalanceModel StorageModel LimitModel CapModel LossModel ObjectiveModel UnitProofs.
Import ListNotations.
Open Scope string_scope.
Open Scope list_scope.
Open Scope Q_scope.

(* lists *)
Lemma P_filter {A} (f : A -> bool) l l' : Permutation l l' -> Permutation (filter f l) (filter f l').
Proof.
  induction 1; cbn; [constructor| | |now etransitivity; eauto].
  - destruct (f x); [now constructor|assumption].
  - destruct (f x), (f y); try reflexivity. constructor.
Qed.
Lemma P_existsb {A} (f : A -> bool) l l' : Permutation l l' -> existsb f l = existsb f l'.
Proof.
  intros P. apply eq_true_iff_eq. rewrite !existsb_exists. split; intros (y & J & H); exists y; split; auto.
  - now apply (Permutation_in y P).
  - now apply (Permutation_in y (Permutation_sym P)).
Qed.
Lemma P_forallb {A} (f : A -> bool) l l' : Permutation l l' -> forallb f l = forallb f l'.
Proof.
  intros P. apply eq_true_iff_eq. rewrite !forallb_forall. split; intros H y J; apply H.
  - now apply (Permutation_in y (Permutation_sym P)).
  - now apply (Permutation_in y P).
Qed.
Lemma P_incl {A} (l l' : list A) : Permutation l l' -> incl l l'.
Proof. intros P y J. now apply (Permutation_in y P). Qed.
Lemma P_nonempty {A} (l l' : list A) : Permutation l l' -> match l with [] => false | _ => true end = match l' with [] => false | _ => true end.
Proof. intros P. destruct l, l'; auto; [now apply Permutation_nil_cons in P|symmetry in P; now apply Permutation_nil_cons in P]. Qed.
Lemma P_flat {A B} (f g : A -> list B) l l' : Permutation l l' -> (forall a, Permutation (f a) (g a)) -> Permutation (flat_map f l) (flat_map g l').
Proof.
  intros P H. transitivity (flat_map f l'); [now apply Permutation_flat_map|]. clear P.
  induction l' as [|a r IH]; [constructor|]. cbn. now apply Permutation_app.
Qed.
Lemma P_sum {A} (f g : A -> Q) l l' : Permutation l l' -> (forall a, f a == g a) -> fold_right (fun a q => f a + q) 0 l == fold_right (fun a q => g a + q) 0 l'.
Proof.
  intros P H. induction P; cbn [fold_right].
  - reflexivity.
  - rewrite (H x), IHP. reflexivity.
  - rewrite (H x), (H y). 
    assert (E : fold_right (fun a q => f a + q) 0 l == fold_right (fun a q => g a + q) 0 l) by (clear - H; induction l as [|a r IH]; cbn [fold_right]; [reflexivity|now rewrite (H a), IH]).
    rewrite E. ring.
  - rewrite IHP1. 
    assert (E : fold_right (fun a q => f a + q) 0 l' == fold_right (fun a q => g a + q) 0 l') by (clear - H; induction l' as [|a r IH]; cbn [fold_right]; [reflexivity|now rewrite (H a), IH]).
    rewrite <- E, IHP2. reflexivity.
Qed.
Lemma incl_flat {A B} (f : A -> list B) l l' : incl l l' -> incl (flat_map f l) (flat_map f l').
Proof. intros H b J. apply in_flat_map in J. destruct J as (a & Ja & Jb). apply in_flat_map. exists a. split; auto. Qed.
Lemma incl_filt {A} (f : A -> bool) l l' : incl l l' -> incl (filter f l) (filter f l').
Proof. intros H a J. apply filter_In in J. apply filter_In. intuition. Qed.
Lemma incl_app2 {A} (a b a' b' : list A) : incl a a' -> incl b b' -> incl (a ++ b) (a' ++ b').
Proof. intros H K. apply incl_app; [now apply incl_appl|now apply incl_appr]. Qed.
Lemma incl_add {A} ts (l l' : list A) mk f : incl l l' -> incl (add_constraints ts l mk f) (add_constraints ts l' mk f).
Proof.
  intros H. unfold add_constraints. intros c J. apply in_flat_map in J. destruct J as (t & Jt & J). apply in_flat_map. exists t. split; [exact Jt|].
  now apply (incl_flat _ l l' H).
Qed.
Lemma eval_perm x l l' : Permutation l l' -> eval x l == eval x l'.
Proof.
  induction 1; cbn [eval]; [reflexivity| | |now rewrite IHPermutation1].
  - destruct x0 as [c v]. now rewrite IHPermutation.
  - destruct x0 as [c v], y as [d w]. ring.
Qed.
Lemma square_perm x l l' : Permutation l l' -> ObjectiveModel.square x l == ObjectiveModel.square x l'.
Proof.
  induction 1; cbn [ObjectiveModel.square]; [reflexivity| | |now rewrite IHPermutation1].
  - destruct x0 as [c v]. now rewrite IHPermutation.
  - destruct x0 as [c v], y as [d w]. ring.
Qed.

(* rows *)
Definition like (c d : con) : Prop := Permutation (lhs c) (lhs d) /\ sns c = sns d /\ rhs c == rhs d.
Definition covers (A B : list con) : Prop := forall c, In c A -> exists d, In d B /\ like c d.
Definition ocov (a b : option (list con)) : Prop := match a, b with Some A, Some B => covers A B | None, None => True | _, _ => False end.
Lemma like_refl c : like c c.
Proof. repeat split; reflexivity. Qed.
Lemma cov_incl A B : incl A B -> covers A B.
Proof. intros H c J. exists c. split; [now apply H|apply like_refl]. Qed.
Lemma cov_app A B A' B' : covers A A' -> covers B B' -> covers (A ++ B) (A' ++ B').
Proof.
  intros H K c J. apply in_app_or in J. destruct J as [J|J]; [destruct (H c J) as (d & Jd & L)|destruct (K c J) as (d & Jd & L)]; exists d; split; auto; apply in_or_app; auto.
Qed.
Lemma cov_flat {A} (f g : A -> list con) l l' : incl l l' -> (forall a, covers (f a) (g a)) -> covers (flat_map f l) (flat_map g l').
Proof.
  intros H K c J. apply in_flat_map in J. destruct J as (a & Ja & Jc). destruct (K a c Jc) as (d & Jd & L). exists d. split; [|exact L].
  apply in_flat_map. exists a. split; auto.
Qed.
Lemma cov_problem A B : covers A B -> covers (CapModel.problem A) (CapModel.problem B).
Proof.
  intros H c J. apply filter_In in J. destruct J as [J T]. destruct (H c J) as (d & Jd & L). exists d. split; [|exact L]. apply filter_In. split; [exact Jd|].
  unfold CapModel.has_term in *. now rewrite <- (P_existsb _ _ _ (proj1 L)).
Qed.
Lemma cov_sat x A B : covers A B -> sat x (CapModel.problem B) -> sat x (CapModel.problem A).
Proof.
  intros H S c J. destruct (cov_problem A B H c J) as (d & Jd & (P & E & R)). specialize (S d Jd). unfold holds in *. rewrite E.
  pose proof (eval_perm x _ _ P) as V. destruct (sns d); lra.
Qed.
Lemma collect_none l : collect l = None <-> In None l.
Proof.
  induction l as [|o r IH]; cbn; [split; [discriminate|tauto]|]. destruct o as [p|]; [|tauto].
  destruct (collect r); cbn; split; intros H; try discriminate.
  - destruct H as [H|H]; [discriminate|]. apply IH in H. discriminate.
  - right. now apply IH.
  - reflexivity.
Qed.
Lemma collect_mem l cs : collect l = Some cs -> forall c, In c cs <-> exists p, In (Some p) l /\ In c p.
Proof.
  revert cs. induction l as [|o r IH]; cbn; intros cs H.
  - injection H as <-. intros c. cbn. split; [tauto|intros (p & [] & _)].
  - destruct o as [p|]; [|discriminate]. destruct (collect r) as [rs|]; [|discriminate]. cbn in H. injection H as <-. intros c. rewrite in_app_iff, (IH rs eq_refl c). split.
    + intros [J|(p' & J & K)]; [exists p; auto|exists p'; auto].
    + intros (p' & [J|J] & K); [injection J as <-; auto|right; exists p'; auto].
Qed.
Lemma collect_cov l l' : (forall o, In o l -> exists o', In o' l' /\ ocov o o') -> (forall o, In o l' -> exists o', In o' l /\ ocov o o') -> ocov (collect l) (collect l').
Proof.
  intros H K. destruct (collect l) as [cs|] eqn:E, (collect l') as [cs'|] eqn:E'; cbn; auto.
  - intros c J. apply (collect_mem l cs E) in J. destruct J as (p & Jp & Jc). destruct (H _ Jp) as ([p'|] & J' & C); [|destruct C]. cbn in C.
    destruct (C c Jc) as (d & Jd & L). exists d. split; [|exact L]. apply (collect_mem l' cs' E'). exists p'. auto.
  - apply collect_none in E'. destruct (K _ E') as ([p'|] & J' & C); [destruct C|]. apply collect_none in J'. congruence.
  - apply collect_none in E. destruct (H _ E) as ([p'|] & J' & C); [destruct C|]. apply collect_none in J'. congruence.
Qed.
Lemma ocov_cong a b a' b' : a = a' -> b = b' -> ocov a' b' -> ocov a b.
Proof. now intros -> ->. Qed.

(* pieces *)
Definition plike (p q : ObjectiveModel.piece) : Prop :=
  match p, q with
  | ObjectiveModel.Linear l, ObjectiveModel.Linear l' => Permutation l l'
  | ObjectiveModel.Square l, ObjectiveModel.Square l' => Permutation l l'
  | ObjectiveModel.Missing, ObjectiveModel.Missing => True
  | _, _ => False
  end.
Lemma plike_value x p q : plike p q -> ObjectiveModel.piece_value x p == ObjectiveModel.piece_value x q.
Proof. destruct p, q; cbn; try tauto; intros P; [now apply eval_perm|now apply square_perm|reflexivity]. Qed.
Lemma F2_flat {A} (f g : A -> list ObjectiveModel.piece) l : (forall a, Forall2 plike (f a) (g a)) -> Forall2 plike (flat_map f l) (flat_map g l).
Proof. intros H. induction l as [|a r IH]; cbn; [constructor|]. apply Forall2_app; auto. Qed.
Lemma F2_value x l l' : Forall2 plike l l' -> ObjectiveModel.value_of x l == ObjectiveModel.value_of x l'.
Proof. unfold ObjectiveModel.value_of. induction 1 as [|p q r r' P _ IH]; cbn [fold_right]; [reflexivity|]. now rewrite (plike_value x p q P), IH. Qed.
Lemma F2_missing l l' : Forall2 plike l l' -> existsb ObjectiveModel.is_missing l = existsb ObjectiveModel.is_missing l' /\ ObjectiveModel.nonempty l = ObjectiveModel.nonempty l'.
Proof. induction 1 as [|p q r r' P _ [IH _]]; [now split|]. split; [|reflexivity]. cbn [existsb]. rewrite IH. destruct p, q; cbn in *; tauto. Qed.

Lemma lookup_perm c : forall l l' : list (string * Q), Permutation l l' -> NoDup (map fst l) -> LimitModel.lookup l c = LimitModel.lookup l' c.
Proof.
  assert (G : forall (l : list (string * Q)) q, NoDup (map fst l) -> (LimitModel.lookup l c = Some q <-> In (c, q) l)).
  { intros l q. unfold LimitModel.lookup. induction l as [|[k v] r IH]; cbn; intros D; [split; [discriminate|tauto]|]. inversion D; subst.
    destruct (String.eqb k c) eqn:E; cbn.
    - apply String.eqb_eq in E. subst k. split; [intros H; injection H as <-; now left|]. intros [H|H]; [now injection H as <-|]. exfalso. apply H1. apply in_map_iff. now exists (c, q).
    - rewrite IH by assumption. split; [now right|]. intros [H|H]; [|exact H]. injection H as -> _. rewrite String.eqb_refl in E. discriminate. }
  intros l l' P D. assert (D' : NoDup (map fst l')) by (apply (Permutation_NoDup (l := map fst l)); [now apply Permutation_map|exact D]).
  destruct (LimitModel.lookup l c) as [q|] eqn:E, (LimitModel.lookup l' c) as [q'|] eqn:E'; auto.
  - apply G in E; auto. apply (Permutation_in _ P) in E. apply G in E; auto. congruence.
  - apply G in E; auto. apply (Permutation_in _ P) in E. apply G in E; auto. congruence.
  - apply G in E'; auto. apply (Permutation_in _ (Permutation_sym P)) in E'. apply G in E'; auto. congruence.
Qed.
Lemma NoDup_filter_fst (f : string * Q -> bool) l : NoDup (map fst l) -> NoDup (map fst (filter f l)).
Proof.
  induction l as [|e r IH]; cbn; intros D; [constructor|]. inversion D; subst. destruct (f e); cbn; [|auto]. constructor; [|auto].
  intros J. apply in_map_iff in J. destruct J as (e' & E & J). apply filter_In in J. apply H1. apply in_map_iff. exists e'. tauto.
Qed.

(* the parts of the problem *)
Lemma ro_sym n n' : reordered n n' -> reordered n' n.
Proof.
  intros [? ? ? ? ? ? E R]. constructor; try (now symmetry); try assumption.
  - intros attr. destruct (E attr) as [P D]. split; [now symmetry|]. apply (Permutation_NoDup (l := map fst (emission n attr))); [now apply Permutation_map|exact D].
  - intuition.
Qed.
Section R.
Variables n n' : net.
Hypothesis R : reordered n n'.
Let T_ : nsnaps n' = nsnaps n := proj1 (ro_rest _ _ R).
Let WO : w_obj n' = w_obj n := proj1 (proj2 (ro_rest _ _ R)).
Let WG : w_gen n' = w_gen n := proj1 (proj2 (proj2 (ro_rest _ _ R))).
Let WS : w_sto n' = w_sto n := proj1 (proj2 (proj2 (proj2 (ro_rest _ _ R)))).
Let TA : tangents n' = tangents n := proj1 (proj2 (proj2 (proj2 (proj2 (ro_rest _ _ R))))).
Let LI : linear n' = linear n := proj2 (proj2 (proj2 (proj2 (proj2 (ro_rest _ _ R))))).

Lemma of_class_perm c : Permutation (of_class n c) (of_class n' c).
Proof. apply P_filter, R. Qed.
Lemma class_incl c : incl (of_class n c) (of_class n' c).
Proof. apply P_incl, of_class_perm. Qed.
Lemma lossy_same : lossy n' = lossy n.
Proof. unfold lossy. now rewrite TA. Qed.

Lemma capacity_cov : covers (capacity n) (capacity n').
Proof.
  apply cov_flat; [apply incl_refl|]. intros [c attr]. cbn [fst snd]. unfold capacity_of.
  assert (H : incl (map (d_view "") (of_class n c)) (map (d_view "") (of_class n' c))) by apply incl_map, class_incl.
  apply cov_incl. apply incl_app2; [apply incl_app2|apply incl_app2]; apply incl_add; apply incl_filt; exact H.
Qed.
Lemma ramps_incl c attr T rolling l l' : Permutation l l' -> incl (RampModel.ramps c attr T rolling l) (RampModel.ramps c attr T rolling l').
Proof.
  intros P. unfold RampModel.ramps, RampModel.early_return, RampModel.everywhere. rewrite !(P_forallb _ _ _ P).
  destruct (_ || _); [apply incl_refl|]. apply P_incl in P.
  apply incl_app2; [|apply incl_app2]; (apply incl_app2; apply incl_add; apply incl_filt; exact P).
Qed.
Lemma operation_cov : covers (operation n) (operation n').
Proof.
  apply cov_flat; [apply incl_refl|]. intros [[[c attr] nattr] k]. unfold operation_of. rewrite T_, lossy_same.
  assert (H : incl (map (d_view attr) (of_class n c)) (map (d_view attr) (of_class n' c))) by apply incl_map, class_incl.
  apply cov_incl. apply incl_app2; [|apply incl_app2; [|apply incl_app2; [|apply incl_app2; [|apply incl_app2]]]].
  - apply incl_app2; apply incl_add; apply incl_filt; exact H.
  - apply incl_app2; apply incl_add; apply incl_filt; exact H.
  - apply incl_app2; apply incl_add; apply incl_filt; exact H.
  - unfold commitment_of, tightened. rewrite T_, LI. apply incl_app2; apply incl_flat, incl_filt, class_incl.
  - destruct (has_uc c); [|apply incl_refl]. apply ramps_incl, Permutation_map, of_class_perm.
  - apply incl_add, H.
Qed.

Lemma entries_perm t : Permutation (BalanceModel.entries (b_net n) (lossy n) t) (BalanceModel.entries (b_net n') (lossy n') t).
Proof.
  rewrite lossy_same. unfold BalanceModel.entries.
  assert (ONE : forall sg v c, Permutation (BalanceModel.one sg v (map c_view (of_class n c)) t) (BalanceModel.one sg v (map c_view (of_class n' c)) t)).
  { intros. unfold BalanceModel.one. apply Permutation_map, Permutation_map, of_class_perm. }
  assert (BR : forall s0 s1 v c, Permutation (BalanceModel.br s0 s1 v (map br_view (of_class n c)) t) (BalanceModel.br s0 s1 v (map br_view (of_class n' c)) t)).
  { intros. unfold BalanceModel.br. apply Permutation_app; apply Permutation_map, Permutation_map, of_class_perm. }
  cbn [b_net BalanceModel.gens BalanceModel.stores BalanceModel.units BalanceModel.lines BalanceModel.trafos BalanceModel.links].
  repeat (apply Permutation_app; [first [apply ONE|apply BR|apply Permutation_map, Permutation_map, of_class_perm|apply Permutation_flat_map, Permutation_map, of_class_perm]|]).
  destruct (lossy n); [apply Permutation_app; apply BR|constructor].
Qed.
Lemma lhs_perm b t : Permutation (BalanceModel.balance_lhs (b_net n) (lossy n) b t) (BalanceModel.balance_lhs (b_net n') (lossy n') b t).
Proof. apply Permutation_map, P_filter, entries_perm. Qed.
Lemma rhs_same b t : BalanceModel.balance_rhs (b_net n) b t == BalanceModel.balance_rhs (b_net n') b t.
Proof.
  unfold BalanceModel.balance_rhs. cbn [b_net BalanceModel.loads].
  assert (G : forall l l' : list Q, Permutation l l' -> fold_right Qplus 0 l == fold_right Qplus 0 l').
  { intros l l' P. exact (P_sum (fun q => q) (fun q => q) l l' P (fun q => Qeq_refl q)). }
  apply G, Permutation_map, P_filter, R.
Qed.
Lemma empty_same l l' : Permutation l l' -> BalanceModel.is_empty l = BalanceModel.is_empty l'.
Proof. apply P_forallb. Qed.
Lemma existsb_cong {A} (f g : A -> bool) l : (forall a, f a = g a) -> existsb f l = existsb g l.
Proof. intros H. induction l as [|a r IH]; cbn; [reflexivity|]. now rewrite H, IH. Qed.
Lemma Qeq_bool_cong p q r : p == q -> Qeq_bool p r = Qeq_bool q r.
Proof. intros H. apply eq_true_iff_eq. rewrite !Qeq_bool_iff. split; intros K; lra. Qed.
Lemma balances_cov : ocov (balances n) (balances n').
Proof.
  unfold balances, BalanceModel.balance. rewrite T_.
  assert (NT : BalanceModel.no_terms (b_net n) (lossy n) (buses n) = BalanceModel.no_terms (b_net n') (lossy n') (buses n')).
  { unfold BalanceModel.no_terms. f_equal. rewrite (P_existsb _ _ _ (entries_perm 0)). apply existsb_cong. intros e. apply P_existsb, R. }
  assert (ED : BalanceModel.empty_demand (b_net n) (lossy n) (buses n) (nsnaps n) = BalanceModel.empty_demand (b_net n') (lossy n') (buses n') (nsnaps n)).
  { unfold BalanceModel.empty_demand. apply existsb_cong. intros t. rewrite (P_existsb _ _ _ (ro_buses _ _ R)). apply existsb_cong. intros b.
    now rewrite (empty_same _ _ (lhs_perm b t)), (Qeq_bool_cong _ _ 0 (rhs_same b t)). }
  rewrite NT, ED. destruct (_ || _); [exact Logic.I|]. cbn [ocov]. unfold add_constraints.
  apply cov_flat; [apply incl_refl|]. intros t. apply cov_flat; [apply P_incl, R|]. intros b. rewrite (empty_same _ _ (lhs_perm b t)).
  destruct (negb _); [|intros c []]. intros c [<-|[]]. eexists. split; [now left|]. split; [apply lhs_perm|]. split; [reflexivity|apply rhs_same].
Qed.

Lemma units_cov : covers (storage_units n) (storage_units n').
Proof. apply cov_incl. unfold storage_units, unit_data. rewrite T_, WS. apply incl_flat, class_incl. Qed.
Lemma stores_cov : covers (stores n) (stores n').
Proof. apply cov_incl. unfold stores. rewrite T_, WS. apply incl_flat, class_incl. Qed.
Lemma supplies_cov : covers (supplies n) (supplies n').
Proof. apply cov_incl. unfold supplies, CapModel.total_supply. rewrite T_, WG. apply incl_app2; apply incl_flat, incl_map, class_incl. Qed.
Lemma losses_cov c : ocov (losses n c) (losses n' c).
Proof.
  unfold losses. rewrite lossy_same, TA, T_. destruct (lossy n); [|apply cov_incl, incl_refl].
  assert (P : Permutation (map lo_view (of_class n c)) (map lo_view (of_class n' c))) by apply Permutation_map, of_class_perm.
  unfold LossModel.loss_constraints. destruct (map lo_view (of_class n c)) as [|b l], (map lo_view (of_class n' c)) as [|b' l'].
  - apply cov_incl, incl_refl.
  - now apply Permutation_nil_cons in P.
  - symmetry in P. now apply Permutation_nil_cons in P.
  - rewrite (P_forallb _ _ _ P). destruct (forallb _ _); [|exact Logic.I]. cbn [ocov]. apply P_incl in P. apply cov_app.
    + apply cov_incl, incl_add, P.
    + apply cov_flat; [apply incl_refl|]. intros k. apply cov_flat; [apply incl_refl|]. intros s. apply cov_incl, incl_add, P.
Qed.

Lemma limit_cov attr em em' coef g sel : (forall c, em c = em' c) ->
  ocov (rows_of (LimitModel.limit_con (lim_net n attr) em coef g sel)) (rows_of (LimitModel.limit_con (lim_net n' attr) em' coef g sel)).
Proof.
  intros E.
  assert (EO : forall c, LimitModel.em_of em c = LimitModel.em_of em' c) by (intros c; unfold LimitModel.em_of; now rewrite E).
  assert (CO : forall c, LimitModel.concerned em c = LimitModel.concerned em' c) by (intros c; unfold LimitModel.concerned; now rewrite E).
  assert (G : Permutation (LimitModel.my_gens (lim_net n attr) em) (LimitModel.my_gens (lim_net n' attr) em')).
  { unfold LimitModel.my_gens. cbn [lim_net LimitModel.gens]. rewrite (filter_ext _ (fun g => LimitModel.concerned em' (LimitModel.g_carrier g))) by (intros; apply CO).
    apply P_filter, Permutation_map, of_class_perm. }
  assert (U : Permutation (LimitModel.my_units (lim_net n attr) em) (LimitModel.my_units (lim_net n' attr) em')).
  { unfold LimitModel.my_units. cbn [lim_net LimitModel.units].
    rewrite (filter_ext _ (fun s => LimitModel.concerned em' (LimitModel.st_carrier s) && negb (StorageModel.s_cyclic (LimitModel.st_of s)))) by (intros; now rewrite CO).
    apply P_filter, Permutation_map, of_class_perm. }
  assert (S : Permutation (LimitModel.my_stores (lim_net n attr) em) (LimitModel.my_stores (lim_net n' attr) em')).
  { unfold LimitModel.my_stores. cbn [lim_net LimitModel.stores].
    rewrite (filter_ext _ (fun s => LimitModel.concerned em' (LimitModel.st_carrier s) && negb (StorageModel.s_cyclic (LimitModel.st_of s)))) by (intros; now rewrite CO).
    apply P_filter, Permutation_map, of_class_perm. }
  unfold LimitModel.limit_con. unfold LimitModel.nonempty at 1 2 3. rewrite (P_nonempty _ _ G), (P_nonempty _ _ U), (P_nonempty _ _ S).
  unfold LimitModel.nonempty. destruct (_ || _ || _); cbn [rows_of ocov]; [|intros c []].
  intros c [<-|[]]. eexists. split; [now left|]. split; [|split; [reflexivity|]]; cbn [lhs rhs sns].
  - apply Permutation_app; [|apply Permutation_app].
    + apply P_flat; [exact G|]. intros a. rewrite (map_ext _ (fun t => (LimitModel.em_of em' (LimitModel.g_carrier a) * coef a t, LimitModel.gen_var a t))) by (intros; now rewrite EO). reflexivity.
    + unfold LimitModel.sto_terms. erewrite map_ext by (intros a; rewrite EO; reflexivity). now apply Permutation_map.
    + unfold LimitModel.sto_terms. erewrite map_ext by (intros a; rewrite EO; reflexivity). now apply Permutation_map.
  - unfold LimitModel.initial_of.
    assert (EQ : forall a : LimitModel.sto, LimitModel.em_of em (LimitModel.st_carrier a) * StorageModel.s_init (LimitModel.st_of a) == LimitModel.em_of em' (LimitModel.st_carrier a) * StorageModel.s_init (LimitModel.st_of a))
      by (intros a; now rewrite EO).
    pose proof (P_sum _ _ _ _ U EQ) as H1. pose proof (P_sum _ _ _ _ S EQ) as H2. cbn beta in H1, H2. rewrite H1, H2. reflexivity.
Qed.

Lemma ext_i_perm c : Permutation (CapModel.ext_i (k_net n) c) (CapModel.ext_i (k_net n') c).
Proof. apply P_filter, P_filter, Permutation_map, R. Qed.
Lemma named_perm g c : Permutation (CapModel.t_named (k_net n) g c) (CapModel.t_named (k_net n') g c).
Proof. apply P_filter, ext_i_perm. Qed.
Lemma transmission_cov g present present' coef : (forall c, present c = present' c) ->
  ocov (rows (CapModel.transmission (k_net n) g present coef)) (rows (CapModel.transmission (k_net n') g present' coef)).
Proof.
  intros E. unfold CapModel.transmission. rewrite (existsb_cong _ (fun ca => present' (fst ca))) by (intros; apply E).
  destruct (existsb _ _); [|intros c []]. change (CapModel.bad_period (k_net n')) with (CapModel.bad_period (k_net n)). destruct (CapModel.bad_period _ _); [exact Logic.I|].
  intros c [<-|[]]. eexists. split; [now left|]. split; [|split; reflexivity]. cbn [lhs]. apply P_flat; [reflexivity|]. intros ca. rewrite E.
  destruct (present' (fst ca)); [|constructor]. apply Permutation_map, P_filter, named_perm.
Qed.
Lemma limit_rows_cov l : ocov (limit_rows n l) (limit_rows n' l).
Proof.
  destruct l as [attr s q|c s q|cs s q|cs s q]; unfold limit_rows.
  - unfold LimitModel.primary_energy, LimitModel.selected. cbn [LimitModel.inv_period lim_net LimitModel.nsnaps LimitModel.weight]. rewrite T_, WG.
    destruct (ro_emission _ _ R attr) as [P D].
    assert (PE : Permutation (LimitModel.emissions (lim_net n attr)) (LimitModel.emissions (lim_net n' attr))) by (apply P_filter; exact P).
    unfold LimitModel.nonempty at 1 2. rewrite (P_nonempty _ _ PE). destruct (LimitModel.emissions (lim_net n' attr)) eqn:EM; [intros c []|]. rewrite <- EM in *.
    apply limit_cov. intros c. apply lookup_perm; [exact PE|]. apply NoDup_filter_fst, D.
  - unfold LimitModel.operational_limit, LimitModel.selected. cbn [LimitModel.inv_period lim_net LimitModel.nsnaps LimitModel.weight]. rewrite T_, WG. now apply limit_cov.
  - apply transmission_cov. intros c. unfold CapModel.nonempty. apply P_nonempty, named_perm.
  - unfold CapModel.cost_limit. cbn [k_net CapModel.multi CapModel.invest negb]. rewrite !andb_false_r. cbn [andb].
    apply transmission_cov. intros c. unfold CapModel.nonempty. apply P_nonempty, ext_i_perm.
Qed.
Lemma tech_perm ca p c : Permutation (CapModel.tech_assets (k_net n) ca p c) (CapModel.tech_assets (k_net n') ca p c).
Proof. apply P_filter, P_filter, ext_i_perm. Qed.
Lemma mem_same s : CapModel.mem s (carriers n) = CapModel.mem s (carriers n').
Proof. apply P_existsb, R. Qed.
Lemma column_cov col : ocov (column_rows n col) (column_rows n' col).
Proof.
  unfold column_rows, CapModel.bus_column, CapModel.parse, CapModel.parse_rest. rewrite !mem_same.
  destruct (if CapModel.starts "nom_min_" _ then _ else _) as [s c p| |]; [|intros d []|exact Logic.I].
  assert (A : CapModel.bus_any (k_net n) c p = CapModel.bus_any (k_net n') c p).
  { unfold CapModel.bus_any. apply existsb_cong. intros ca. f_equal. unfold CapModel.nonempty. apply P_nonempty, tech_perm. }
  rewrite A. destruct (CapModel.bus_any (k_net n') c p); [|cbn; intros d []]. cbn [ocov]. apply cov_flat; [apply P_incl, R|]. intros b.
  destruct (CapModel.col_val col b) as [q|]; [|intros d []]. intros d [<-|[]]. eexists. split; [now left|]. split; [|split; reflexivity]. cbn [lhs].
  unfold CapModel.bus_terms. apply P_flat; [reflexivity|]. intros ca. cbn [k_net CapModel.has_carrier]. destruct (_ && _); [|constructor].
  apply Permutation_map, P_filter, tech_perm.
Qed.
End R.

Lemma F2_in {A B} (P : A -> B -> Prop) l l' a : Forall2 P l l' -> In a l -> exists b, In b l' /\ P a b.
Proof. induction 1 as [|x y r r' H _ IH]; [intros []|]. intros [<-|J]; [exists y; split; [now left|exact H]|]. destruct (IH J) as (b & Jb & K). exists b. split; [now right|exact K]. Qed.
Section W.
Variable kvl : list asset -> list con.
Variables n n' : net.
Hypothesis R : reordered n n'.
(* parts other than Kirchhoff's voltage law *)
Definition others (n : net) : list (option (list con)) :=
  [Some (capacity n); Some (operation n); balances n; Some (storage_units n); Some (stores n); Some (supplies n); losses n "Line"; losses n "Transformer"] ++
  map (limit_rows n) (limits n) ++ map (column_rows n) (columns n).
Lemma others_in m m' : reordered m m' -> forall o, In o (others m) -> exists o', In o' (others m') /\ ocov o o'.
Proof.
  clear R. intros R o J. unfold others in *. apply in_app_or in J. destruct J as [J|J].
  - match type of J with In _ ?h => match goal with |- exists o', In o' (?h' ++ _) /\ _ => assert (F : Forall2 ocov h h') end end.
    { repeat constructor; [apply capacity_cov|apply operation_cov|apply balances_cov|apply units_cov|apply stores_cov|apply supplies_cov|apply losses_cov|apply losses_cov]; exact R. }
    destruct (F2_in _ _ _ _ F J) as (o' & J' & C). exists o'. split; [apply in_or_app; now left|exact C].
  - apply in_app_or in J. destruct J as [J|J]; apply in_map_iff in J; destruct J as (l & <- & J).
    + exists (limit_rows m' l). split; [|now apply limit_rows_cov]. apply in_or_app. right. apply in_or_app. left. apply in_map. now apply (Permutation_in _ (ro_limits _ _ R)).
    + exists (column_rows m' l). split; [|now apply column_cov]. apply in_or_app. right. apply in_or_app. right. apply in_map. now apply (Permutation_in _ (ro_columns _ _ R)).
Qed.
Lemma others_cov : ocov (collect (others n)) (collect (others n')).
Proof. apply collect_cov; apply others_in; [exact R|now apply ro_sym]. Qed.
End W.
Lemma collect_app A B : collect (A ++ B) = match collect A, collect B with Some a, Some b => Some (a ++ b) | _, _ => None end.
Proof.
  induction A as [|o r IH]; cbn; [now destruct (collect B)|]. destruct o as [p|]; [|reflexivity]. rewrite IH.
  destruct (collect r), (collect B); cbn; try reflexivity. now rewrite app_assoc.
Qed.
(* membership is all that matters for being satisfied *)
Lemma split_model kvl n x : (exists cs, create_model kvl n = Some cs /\ sat x (CapModel.problem cs)) <->
  (exists cs, collect (others n) = Some cs /\ sat x (CapModel.problem cs)) /\ sat x (CapModel.problem (kvl (filter passive (assets n)))).
Proof.
  unfold create_model.
  assert (M : forall o, In o (parts kvl n) <-> In o (others n) \/ o = Some (kvl (filter passive (assets n)))).
  { intros o. unfold parts, others. rewrite !in_app_iff. cbn [In]. intuition. }
  assert (N : collect (parts kvl n) = None <-> collect (others n) = None).
  { rewrite !collect_none, M. intuition discriminate. }
  destruct (collect (parts kvl n)) as [cs|] eqn:E, (collect (others n)) as [cs'|] eqn:E'; try (destruct N as [N N']; first [discriminate (N eq_refl)|discriminate (N' eq_refl)]).
  - assert (I_ : forall c, In c cs <-> In c cs' \/ In c (kvl (filter passive (assets n)))).
    { intros c. rewrite (collect_mem _ _ E), (collect_mem _ _ E'). split.
      - intros (p & J & K). apply M in J. destruct J as [J|J]; [left; exists p; auto|injection J as ->; now right].
      - intros [(p & J & K)|K]; [exists p; split; [apply M; now left|exact K]|exists (kvl (filter passive (assets n))); split; [apply M; now right|exact K]]. }
    split.
    + intros (cs0 & H & S). injection H as <-. split; [exists cs'; split; [reflexivity|]|]; intros c J; apply S; apply filter_In in J; apply filter_In; (split; [apply I_|]; tauto).
    + intros ((cs0 & H & S) & K). injection H as <-. exists cs. split; [reflexivity|]. intros c J. apply filter_In in J. destruct J as [J T]. apply I_ in J.
      destruct J as [J|J]; [apply S|apply K]; apply filter_In; auto.
  - split; [intros (? & H & _); discriminate|intros ((? & H & _) & _); discriminate].
Qed.
Lemma defined_iff kvl n : create_model kvl n = None <-> collect (others n) = None.
Proof.
  unfold create_model. rewrite !collect_none. unfold parts, others. rewrite !in_app_iff. cbn [In]. intuition discriminate.
Qed.

(* the objective *)
Section O.
Variables n n' : net.
Hypothesis R : reordered n n'.
Let T_ : nsnaps n' = nsnaps n := proj1 (ro_rest _ _ R).
Let WO : w_obj n' = w_obj n := proj1 (proj2 (ro_rest _ _ R)).
Lemma cls_perm c : Permutation (ObjectiveModel.cls (o_net n) c) (ObjectiveModel.cls (o_net n') c).
Proof. apply P_filter, Permutation_map, R. Qed.
Lemma oext_perm c : Permutation (ObjectiveModel.ext (o_net n) c) (ObjectiveModel.ext (o_net n') c).
Proof. apply P_filter, cls_perm. Qed.
Lemma ocom_perm c : Permutation (ObjectiveModel.com (o_net n) c) (ObjectiveModel.com (o_net n') c).
Proof. apply P_filter, cls_perm. Qed.
Lemma constant_same : ObjectiveModel.constant (o_net n) == ObjectiveModel.constant (o_net n').
Proof.
  unfold ObjectiveModel.constant. apply (P_sum (fun ca => fold_right (fun a q' => ObjectiveModel.annual (o_net n) a * ObjectiveModel.a_nom a + q') 0 (ObjectiveModel.ext (o_net n) (fst ca)))
    (fun ca => fold_right (fun a q' => ObjectiveModel.annual (o_net n') a * ObjectiveModel.a_nom a + q') 0 (ObjectiveModel.ext (o_net n') (fst ca)))); [reflexivity|].
  intros ca. apply (P_sum (fun a => ObjectiveModel.annual (o_net n) a * ObjectiveModel.a_nom a) (fun a => ObjectiveModel.annual (o_net n') a * ObjectiveModel.a_nom a)); [apply oext_perm|reflexivity].
Qed.
Lemma charged_same f a : ObjectiveModel.charged (o_net n) f a = ObjectiveModel.charged (o_net n') f a.
Proof. unfold ObjectiveModel.charged. cbn [o_net ObjectiveModel.nsnaps]. now rewrite T_. Qed.
Lemma charged_perm f l l' : Permutation l l' -> Permutation (filter (ObjectiveModel.charged (o_net n) f) l) (filter (ObjectiveModel.charged (o_net n') f) l').
Proof. intros P. rewrite (filter_ext _ (ObjectiveModel.charged (o_net n') f)) by (intros; apply charged_same). now apply P_filter. Qed.
Lemma terms_perm f lab l l' : Permutation l l' -> Permutation (ObjectiveModel.terms (o_net n) f lab l) (ObjectiveModel.terms (o_net n') f lab l').
Proof.
  intros P. unfold ObjectiveModel.terms, ObjectiveModel.weighting. cbn [o_net ObjectiveModel.nsnaps ObjectiveModel.multi ObjectiveModel.w_snap]. rewrite T_, WO. now apply Permutation_flat_map.
Qed.
Lemma array_same c attr : ObjectiveModel.exists_array (o_net n) c attr = ObjectiveModel.exists_array (o_net n') c attr.
Proof.
  unfold ObjectiveModel.exists_array. cbn [o_net ObjectiveModel.nsnaps]. rewrite T_. destruct (ObjectiveModel.is_spill _); [apply P_existsb, cls_perm|].
  unfold ObjectiveModel.nonempty. apply P_nonempty, cls_perm.
Qed.
Lemma operation_like sq f l : (forall a b, Permutation a b -> plike (sq a) (sq b)) -> Forall2 plike (ObjectiveModel.operation (o_net n) sq f l) (ObjectiveModel.operation (o_net n') sq f l).
Proof.
  intros S. apply F2_flat. intros [c attr]. cbn [fst snd]. pose proof (charged_perm f _ _ (cls_perm c)) as P. unfold ObjectiveModel.nonempty. rewrite (P_nonempty _ _ P).
  destruct (filter (ObjectiveModel.charged (o_net n') f) (ObjectiveModel.cls (o_net n') c)) as [|a l'] eqn:E; [constructor|]. rewrite <- E in *. rewrite array_same.
  constructor; [|constructor]. destruct (ObjectiveModel.exists_array _ _ _); [|exact Logic.I]. apply S, terms_perm, P.
Qed.
Lemma standby_like : Forall2 plike (ObjectiveModel.standby (o_net n)) (ObjectiveModel.standby (o_net n')).
Proof.
  apply F2_flat. intros c. unfold ObjectiveModel.nonempty. rewrite (P_nonempty _ _ (ocom_perm c)).
  destruct (ObjectiveModel.com (o_net n') c) eqn:E; [constructor|]. rewrite <- E. constructor; [|constructor]. apply terms_perm, charged_perm, ocom_perm.
Qed.
Lemma investment_like : Forall2 plike (ObjectiveModel.investment (o_net n)) (ObjectiveModel.investment (o_net n')).
Proof.
  apply F2_flat. intros [c attr]. cbn [fst snd]. unfold ObjectiveModel.nonempty. rewrite (P_nonempty _ _ (oext_perm c)).
  destruct (ObjectiveModel.ext (o_net n') c) eqn:E; [constructor|]. rewrite <- E. constructor; [|constructor].
  apply (Permutation_map (fun a => (ObjectiveModel.annual (o_net n) a, ObjectiveModel.nom_label c attr a))), oext_perm.
Qed.
Lemma switching_like attr f : Forall2 plike (ObjectiveModel.switching (o_net n) attr f) (ObjectiveModel.switching (o_net n') attr f).
Proof.
  apply F2_flat. intros c. rewrite (Qeq_bool_cong _ _ 0 (P_sum f f _ _ (ocom_perm c) (fun a => Qeq_refl (f a)))).
  destruct (Qeq_bool _ 0); [constructor|]. constructor; [|constructor]. cbn [o_net ObjectiveModel.nsnaps]. rewrite T_. apply Permutation_flat_map, ocom_perm.
Qed.
Lemma pieces_like : Forall2 plike (ObjectiveModel.pieces (o_net n)) (ObjectiveModel.pieces (o_net n')).
Proof.
  unfold ObjectiveModel.pieces. rewrite (Qeq_bool_cong _ _ 0 constant_same).
  apply Forall2_app; [destruct (Qeq_bool (ObjectiveModel.constant (o_net n')) 0); [constructor|constructor; [apply Permutation_refl|constructor]]|].
  apply Forall2_app; [apply operation_like; auto|]. apply Forall2_app; [apply operation_like; auto|]. apply Forall2_app; [apply operation_like; auto|].
  apply Forall2_app; [apply operation_like; auto|]. apply Forall2_app; [apply standby_like|]. apply Forall2_app; [apply investment_like|].
  apply Forall2_app; apply switching_like.
Qed.
Lemma cost_same x : same_value (cost n x) (cost n' x).
Proof.
  unfold cost, define_objective, ObjectiveModel.objective. destruct (F2_missing _ _ pieces_like) as [-> ->].
  destruct (existsb _ _); [exact Logic.I|]. destruct (ObjectiveModel.nonempty _); [|exact Logic.I]. cbn. apply F2_value, pieces_like.
Qed.
Lemma domains_to x : domains n x -> domains n' x.
Proof.
  intros (A & B & C & D & E). pose proof (Permutation_sym (ro_assets _ _ R)) as P. unfold domains. rewrite T_, (lossy_same n n' R).
  replace (linear n') with (linear n) by (symmetry; apply (ro_rest _ _ R)).
  assert (UD : forall a, unit_data n' a = unit_data n a) by (intros a; unfold unit_data; now rewrite (proj1 (proj2 (proj2 (proj2 (ro_rest _ _ R)))))).
  split; [|split; [|split; [|split]]].
  - intros a J. apply A. now apply (Permutation_in _ P).
  - intros a J. apply B. now apply (Permutation_in _ P).
  - intros a J. rewrite UD. apply C. now apply (Permutation_in _ P).
  - intros a t J. apply D. now apply (Permutation_in _ P).
  - unfold ObjectiveModel.const_fixed in *. rewrite <- (Qeq_bool_cong _ _ 0 constant_same), <- constant_same. exact E.
Qed.
End O.

Lemma feasible_to kvl n n' x : kvl_unordered kvl -> reordered n n' -> feasible kvl n x -> feasible kvl n' x.
Proof.
  intros K R (cs & E & S & D).
  assert (H : exists cs, create_model kvl n = Some cs /\ sat x (CapModel.problem cs)) by eauto. apply split_model in H. destruct H as ((c0 & E0 & S0) & KV).
  assert (H : exists cs, create_model kvl n' = Some cs /\ sat x (CapModel.problem cs)).
  { apply split_model. split.
    - pose proof (others_cov _ _ (ro_sym _ _ R)) as C. rewrite E0 in C. destruct (collect (others n')) as [c1|]; [|destruct C]. exists c1. split; [reflexivity|].
      exact (cov_sat x _ _ C S0).
    - exact (K _ _ x (P_filter passive _ _ (ro_assets _ _ R)) KV). }
  destruct H as (cs' & E' & S'). exists cs'. split; [exact E'|]. split; [exact S'|exact (domains_to _ _ R x D)].
Qed.
Lemma feasible_same kvl n n' x : kvl_unordered kvl -> reordered n n' -> (feasible kvl n x <-> feasible kvl n' x).
Proof. intros K R. split; apply feasible_to; auto. now apply ro_sym. Qed.
Lemma defined_same kvl n n' : reordered n n' -> (create_model kvl n = None <-> create_model kvl n' = None).
Proof.
  intros R. rewrite !defined_iff. pose proof (others_cov _ _ R) as C. destruct (collect (others n)), (collect (others n')); cbn in C; try tauto; split; discriminate.
Qed.
Lemma optimal_to kvl n n' x : kvl_unordered kvl -> reordered n n' -> optimal kvl n x -> optimal kvl n' x.
Proof.
  intros K R (F & q & C & M). split; [exact (feasible_to _ _ _ _ K R F)|].
  pose proof (cost_same _ _ R x) as E. rewrite C in E. destruct (cost n' x) as [q'|] eqn:C'; [|destruct E]. cbn in E. exists q'. split; [reflexivity|].
  intros y p Fy Cy. pose proof (cost_same _ _ R y) as Ey. rewrite Cy in Ey. destruct (cost n y) as [p0|] eqn:Cy0; [|destruct Ey]. cbn in Ey.
  specialize (M y p0 (feasible_to _ _ _ _ K (ro_sym _ _ R) Fy) Cy0). lra.
Qed.
Lemma optimal_same kvl n n' x : kvl_unordered kvl -> reordered n n' -> (optimal kvl n x <-> optimal kvl n' x).
Proof. intros K R. split; apply optimal_to; auto. now apply ro_sym. Qed.

(* a concrete case *)
Definition turned : net :=
  {| assets := rev (assets UnitProofs.mesh_net); loads := loads UnitProofs.mesh_net; buses := ["b"; "a"]; nsnaps := 1; w_obj := w_obj UnitProofs.mesh_net;
     w_gen := w_gen UnitProofs.mesh_net; w_sto := w_sto UnitProofs.mesh_net; tangents := 0; linear := false; emission := emission UnitProofs.mesh_net;
     carriers := ["AC"]; limits := limits UnitProofs.mesh_net; columns := [] |}.
Lemma turned_case : kvl_unordered UnitProofs.loop /\ reordered UnitProofs.mesh_net turned /\ create_model UnitProofs.loop turned <> create_model UnitProofs.loop UnitProofs.mesh_net.
Proof.
  split; [intros l l' x _ S; exact S|]. split.
  - constructor; try reflexivity.
    + apply Permutation_rev.
    + apply perm_swap.
    + intros attr. split; [reflexivity|]. cbn. constructor; [intros []|constructor].
    + repeat split.
  - vm_compute. discriminate.
Qed.
