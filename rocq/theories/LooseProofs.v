From Coq Require Import List String Bool QArith ZArith Arith Lia Lqa.
From Verif Require Import LinModel WholeModel IdleSpec LooseSpec.
From Verif Require LinProofs DispatchModel RampModel CommitModel BalanceModel StorageModel LimitModel CapModel LossModel ObjectiveModel ObjectiveProofs IdleProofs OrderProofs.
Import ListNotations.
Open Scope string_scope.
Open Scope list_scope.
Open Scope Q_scope.

(* lists *)
Lemma F2_filter {A B} (R : A -> B -> Prop) (f : A -> bool) (g : B -> bool) l l' : (forall a b, R a b -> f a = g b) -> Forall2 R l l' -> Forall2 R (filter f l) (filter g l').
Proof. intros H F. induction F as [|a b l l' E F IH]; cbn [filter]; [constructor|]. rewrite (H a b E). destruct (g b); [now constructor|exact IH]. Qed.
Lemma F2_map_eq {A B C} (R : A -> B -> Prop) (f : A -> C) (g : B -> C) l l' : (forall a b, R a b -> f a = g b) -> Forall2 R l l' -> map f l = map g l'.
Proof. intros H F. induction F as [|a b l l' E F IH]; cbn [map]; [reflexivity|]. now rewrite (H a b E), IH. Qed.
Lemma F2_flat_eq {A B C} (R : A -> B -> Prop) (f : A -> list C) (g : B -> list C) l l' : (forall a b, R a b -> f a = g b) -> Forall2 R l l' -> flat_map f l = flat_map g l'.
Proof. intros H F. induction F as [|a b l l' E F IH]; cbn [flat_map]; [reflexivity|]. now rewrite (H a b E), IH. Qed.
Lemma F2_right {A B} (R : A -> B -> Prop) l l' b : Forall2 R l l' -> In b l' -> exists a, In a l /\ R a b.
Proof. intros F. induction F as [|a c l l' E F IH]; intros J; [destruct J|]. destruct J as [<-|J]; [exists a; split; [now left|exact E]|]. destruct (IH J) as (d & Jd & Rd). exists d. split; [now right|exact Rd]. Qed.
Lemma F2_left {A B} (R : A -> B -> Prop) l l' a : Forall2 R l l' -> In a l -> exists b, In b l' /\ R a b.
Proof. intros F. induction F as [|c b l l' E F IH]; intros J; [destruct J|]. destruct J as [<-|J]; [exists b; split; [now left|exact E]|]. destruct (IH J) as (d & Jd & Rd). exists d. split; [now right|exact Rd]. Qed.
Lemma F2_both {A B} (R : A -> B -> Prop) l l' : Forall2 R l l' -> Forall2 (fun a b => In a l /\ R a b) l l'.
Proof.
  intros F. assert (G : forall k, incl l k -> Forall2 (fun a b => In a k /\ R a b) l l').
  { induction F as [|a b l l' E F IH]; intros k J; constructor; [split; [apply J; now left|exact E]|]. apply IH. intros c Jc. apply J. now right. }
  apply G, incl_refl.
Qed.
Lemma F2_impl {A B} (R R' : A -> B -> Prop) l l' : (forall a b, R a b -> R' a b) -> Forall2 R l l' -> Forall2 R' l l'.
Proof. intros K F. induction F; constructor; auto. Qed.
Lemma le_times p q c : p <= q -> 0 <= c -> p * c <= q * c.
Proof. apply Qmult_le_compat_r. Qed.

(* the objective does not read the capacity of assets that cannot be extended *)
Section O.
Import ObjectiveModel.
Definition set_nom (o : ObjectiveModel.asset) (q : Q) : ObjectiveModel.asset :=
  {| a_class := a_class o; a_name := a_name o; a_flag := a_flag o; a_in := a_in o; a_on := a_on o; a_ext := a_ext o; a_com := a_com o; a_nom := q; a_capital := a_capital o;
     a_marginal := a_marginal o; a_storage := a_storage o; a_spill := a_spill o; a_quadratic := a_quadratic o; a_standby := a_standby o; a_start := a_start o; a_shut := a_shut o; a_inflow := a_inflow o |}.
Definition S_ (o o' : ObjectiveModel.asset) : Prop := exists q, o' = set_nom o q /\ (a_ext o = true -> q = a_nom o).
Variables (l l' : list ObjectiveModel.asset) (T : nat) (w : nat -> Q) (pp : nat -> Z).
Hypothesis F : Forall2 S_ l l'.
Notation N := ({| ObjectiveModel.assets := l; ObjectiveModel.nsnaps := T; w_snap := w; per := pp; multi := None |}).
Notation N' := ({| ObjectiveModel.assets := l'; ObjectiveModel.nsnaps := T; w_snap := w; per := pp; multi := None |}).
Lemma cls2 c : Forall2 S_ (ObjectiveModel.cls N c) (ObjectiveModel.cls N' c).
Proof. apply F2_filter; [|exact F]. intros o o' (q & -> & _). reflexivity. Qed.
Lemma ext2 c : ObjectiveModel.ext N c = ObjectiveModel.ext N' c.
Proof.
  unfold ObjectiveModel.ext. induction (cls2 c) as [|o o' k k' (q & -> & Q) _ IH]; [reflexivity|]. cbn [filter]. change (a_ext (set_nom o q)) with (a_ext o). destruct (a_ext o) eqn:X; [|exact IH].
  rewrite IH, (Q eq_refl). f_equal. destruct o; reflexivity.
Qed.
Lemma com2 c : Forall2 S_ (ObjectiveModel.com N c) (ObjectiveModel.com N' c).
Proof. apply F2_filter; [|apply cls2]. intros o o' (q & -> & _). reflexivity. Qed.
Lemma F2_nonempty {A B} (R : A -> B -> Prop) k k' : Forall2 R k k' -> ObjectiveModel.nonempty k = ObjectiveModel.nonempty k'.
Proof. now intros []. Qed.
Definition blind (f : ObjectiveModel.asset -> nat -> Q) : Prop := forall o q, f (set_nom o q) = f o.
Lemma terms2 f lab k k' : blind f -> (forall o q t, lab (set_nom o q) t = lab o t) -> Forall2 S_ k k' -> terms N f lab k = terms N' f lab k'.
Proof.
  intros B L G. unfold terms. apply (F2_flat_eq S_); [|exact G]. intros o o' (q & -> & _). apply map_ext. intros t. rewrite B, L. reflexivity.
Qed.
Lemma charged2 f k k' : blind f -> Forall2 S_ k k' -> Forall2 S_ (filter (charged N f) k) (filter (charged N' f) k').
Proof. intros B. apply F2_filter. intros o o' (q & -> & _). unfold charged. cbn [ObjectiveModel.nsnaps]. rewrite (B o q). reflexivity. Qed.
Lemma array2 c attr : exists_array N c attr = exists_array N' c attr.
Proof.
  unfold exists_array. destruct (is_spill _); [|apply (F2_nonempty S_), cls2]. induction (cls2 c) as [|o o' k k' (q & -> & _) _ IH]; [reflexivity|]. cbn [existsb]. rewrite IH. reflexivity.
Qed.
Lemma operation2 sq f rows : blind f -> operation N sq f rows = operation N' sq f rows.
Proof.
  intros B. unfold operation. apply flat_map_ext. intros [c attr]. cbn [fst snd]. pose proof (charged2 f _ _ B (cls2 c)) as C. cbn zeta. rewrite (F2_nonempty S_ _ _ C).
  destruct (nonempty _); [|reflexivity]. rewrite array2. destruct (exists_array N' c attr); [|reflexivity]. do 2 f_equal. now apply terms2.
Qed.
Lemma constant2 : constant N = constant N'.
Proof. unfold constant. unfold nominal. cbn [fold_right fst]. rewrite !ext2. reflexivity. Qed.
Lemma switching2 attr f : (forall o q, f (set_nom o q) = f o) -> switching N attr f = switching N' attr f.
Proof.
  intros B. unfold switching. apply flat_map_ext. intros c. assert (E : fold_right (fun a q => f a + q) 0 (ObjectiveModel.com N c) = fold_right (fun a q => f a + q) 0 (ObjectiveModel.com N' c)).
  { induction (com2 c) as [|o o' k k' (q & -> & _) _ IH]; [reflexivity|]. cbn [fold_right]. now rewrite IH, B. }
  rewrite E. destruct (Qeq_bool _ 0); [reflexivity|]. do 2 f_equal. apply (F2_flat_eq S_); [|apply com2]. intros o o' (q & -> & _). apply map_ext. intros t. now rewrite B.
Qed.
Lemma objective2 : objective N = objective N'.
Proof.
  assert (E : pieces N = pieces N').
  { unfold pieces. rewrite constant2. rewrite !operation2 by (intros o q; reflexivity). rewrite !switching2 by reflexivity. do 5 f_equal. f_equal; [|f_equal].
    - unfold standby. apply flat_map_ext. intros c. rewrite (F2_nonempty S_ _ _ (com2 c)). destruct (nonempty _); [|reflexivity]. do 2 f_equal. apply terms2; [intros o q; reflexivity|reflexivity|]. apply charged2; [intros o q; reflexivity|apply com2].
    - unfold investment. apply flat_map_ext. intros c. rewrite ext2. reflexivity. }
  unfold objective. now rewrite E.
Qed.
End O.

Section L.
Variable kvl : list asset -> list con.
Variables n n' : net.
Variable x : sol.
Hypothesis H : looser kvl n n'.
Hypothesis D : domains n x.
Notation T := (nsnaps n).
Definition R_ (a b : asset) : Prop := In a (assets n) /\ (exists z, b = relimit a z) /\ looser_asset n a b.
Lemma all2 : Forall2 R_ (assets n) (assets n').
Proof. apply F2_both, H. Qed.
Lemma class2 c : Forall2 R_ (of_class n c) (of_class n' c).
Proof. apply F2_filter; [|apply all2]. intros a b (_ & (z & ->) & _). reflexivity. Qed.
Lemma class2c c : Forall2 (fun a b => (cls a = c /\ cls b = c) /\ R_ a b) (of_class n c) (of_class n' c).
Proof.
  pose proof (class2 c) as F. apply F2_both in F. eapply F2_impl; [|exact F]. cbn. intros a b (J & R). apply filter_In in J. destruct J as [_ E]. apply String.eqb_eq in E. split; [|exact R]. split; [exact E|].
  destruct R as (_ & (z & ->) & _). exact E.
Qed.

(* one list of rows follows from another *)
Definition imp (A B : list con) : Prop := sat x (CapModel.problem A) -> sat x (CapModel.problem B).
Lemma imp_refl A : imp A A.
Proof. easy. Qed.
Lemma imp_nil A : imp A [].
Proof. intros _ c []. Qed.
Lemma imp_app A B A' B' : imp A A' -> imp B B' -> imp (A ++ B) (A' ++ B').
Proof. unfold imp. rewrite !IdleProofs.sat_problem_app. tauto. Qed.
Lemma imp_flat {A} (f g : A -> list con) l : (forall a, In a l -> imp (f a) (g a)) -> imp (flat_map f l) (flat_map g l).
Proof.
  induction l as [|a r IH]; intros K; [apply imp_refl|]. cbn [flat_map]. apply imp_app; [apply K; now left|]. apply IH. intros b J. apply K. now right.
Qed.
Lemma imp_flat2 {A B} (R : A -> B -> Prop) (f : A -> list con) (g : B -> list con) l l' : (forall a b, R a b -> imp (f a) (g b)) -> Forall2 R l l' -> imp (flat_map f l) (flat_map g l').
Proof. intros K F. induction F as [|a b l l' E F IH]; [apply imp_refl|]. cbn [flat_map]. apply imp_app; auto. Qed.
Definition weaker (c c' : con) : Prop := CapModel.has_term c' = true -> CapModel.has_term c = true /\ (holds x c -> holds x c').
Lemma imp_one c c' : weaker c c' -> imp [c] [c'].
Proof.
  intros W. unfold imp. rewrite !IdleProofs.sat_problem. intros S d [<-|[]] E. destruct (W E) as [E' K]. apply K, S; [now left|exact E'].
Qed.
Lemma imp_add {A B} (R : A -> B -> Prop) ts (l : list A) (l' : list B) P P' mask mask' f f' : Forall2 R l l' ->
  (forall t a b, In t ts -> R a b -> P' b = true -> mask' t b = true -> P a = true /\ mask t a = true /\ weaker (f t a) (f' t b)) ->
  imp (add_constraints ts (filter P l) mask f) (add_constraints ts (filter P' l') mask' f').
Proof.
  intros F K. unfold add_constraints. apply imp_flat. intros t Jt. induction F as [|a b l l' E F IH]; [apply imp_nil|]. cbn [filter]. specialize (K t a b Jt E).
  destruct (P' b) eqn:Pb.
  - cbn [flat_map]. destruct (mask' t b) eqn:Mb.
    + destruct (K eq_refl eq_refl) as (-> & M & W). cbn [flat_map]. rewrite M. apply imp_app; [now apply imp_one|exact IH].
    + cbn [app]. destruct (P a); [|exact IH]. cbn [flat_map]. unfold imp. rewrite IdleProofs.sat_problem_app. intros [_ G]. now apply IH.
  - destruct (P a); [|exact IH]. cbn [flat_map]. unfold imp. rewrite IdleProofs.sat_problem_app. intros [_ G]. now apply IH.
Qed.
Lemma imp_add' {A B} (R : A -> B -> Prop) ts (l : list A) (l' : list B) mask mask' f f' : Forall2 R l l' ->
  (forall t a b, In t ts -> R a b -> mask' t b = true -> mask t a = true /\ weaker (f t a) (f' t b)) ->
  imp (add_constraints ts l mask f) (add_constraints ts l' mask' f').
Proof.
  intros F K. assert (TR : forall A (k : list A), filter (fun _ => true) k = k) by (intros ? k; induction k as [|a r IH]; cbn; [|rewrite IH]; reflexivity).
  rewrite <- (TR A l), <- (TR B l'). apply (imp_add R); [exact F|]. intros t a b Jt E _ M. split; [reflexivity|]. now apply K.
Qed.
Lemma F2_map {A B A' B'} (R : A -> B -> Prop) (f : A -> A') (g : B -> B') l l' : Forall2 R l l' -> Forall2 (fun a' b' => exists a b, a' = f a /\ b' = g b /\ R a b) (map f l) (map g l').
Proof. intros F. induction F as [|a b l l' E F IH]; cbn [map]; constructor; eauto. Qed.

Lemma nsnaps' : nsnaps n' = nsnaps n. Proof. apply H. Qed.
Lemma lossy' : lossy n' = lossy n. Proof. unfold lossy. destruct (ln_data _ _ _ H) as (_ & _ & _ & _ & _ & _ & -> & _). reflexivity. Qed.

(* capacities *)
Definition C_ (c : string) (a b : asset) : Prop := (cls a = c /\ cls b = c) /\ R_ a b.
Lemma capacity_imp c at_ : imp (capacity_of n c at_) (capacity_of n' c at_).
Proof.
  unfold capacity_of. cbn zeta. pose proof (F2_map _ (d_view "") (d_view "") _ _ (class2c c)) as F. unfold DispatchModel.nominal, DispatchModel.fixed_nominal, DispatchModel.modular.
  apply imp_app; [apply imp_app|apply imp_app]; eapply imp_add; try exact F.
  - intros t v w _ (a & b & -> & -> & (_ & J & (z & ->) & L)) E _. split; [exact E|]. split; [reflexivity|]. intros _. split; [reflexivity|]. destruct (la_ext _ _ _ L E) as (_ & M & _). unfold holds. cbn [DispatchModel.mk lhs sns rhs eval]. change (DispatchModel.nom_min (d_view "" (relimit a z))) with (nom_min (relimit a z)). change (DispatchModel.nom_min (d_view "" a)) with (nom_min a). change (DispatchModel.cap c at_ (d_view "" (relimit a z))) with (DispatchModel.cap c at_ (d_view "" a)). intros. lra.
  - intros t v w _ (a & b & -> & -> & (_ & J & (z & ->) & L)) E M. split; [exact E|]. destruct (la_ext _ _ _ L E) as (_ & _ & U & _). cbn in M. cbn in U. destruct (z_nom_max z) as [q|] eqn:Z; [|discriminate M]. destruct (U q eq_refl) as (u & Eu & LE).
    split; [cbn; rewrite Eu; reflexivity|]. intros _. split; [reflexivity|]. unfold holds. cbn [DispatchModel.mk lhs sns rhs eval]. change (DispatchModel.nom_max (d_view "" (relimit a z))) with (z_nom_max z). change (DispatchModel.nom_max (d_view "" a)) with (nom_max a). rewrite Z, Eu. change (DispatchModel.cap c at_ (d_view "" (relimit a z))) with (DispatchModel.cap c at_ (d_view "" a)). intros. lra.
  - intros t v w _ (a & b & -> & -> & (_ & J & (z & ->) & L)) E M. split; [exact E|]. destruct (la_ext _ _ _ L E) as (_ & _ & _ & [U|U]); cbn in M; cbn in U; [|rewrite U in M; discriminate M]. rewrite U in M.
    split; [exact M|]. intros _. split; [reflexivity|]. unfold holds. cbn. rewrite U. easy.
  - intros t v w _ (a & b & -> & -> & (_ & J & (z & ->) & L)) E M. split; [exact E|]. split; [exact M|]. intros _. split; [reflexivity|]. easy.
Qed.
Lemma cap_nonneg c at_ a : sat x (CapModel.problem (capacity_of n c at_)) -> In a (of_class n c) -> ext a = true -> 0 <= nom_min a -> 0 <= x ((c ++ "-" ++ at_)%string, O, nm a).
Proof.
  intros S J E M. rewrite IdleProofs.sat_problem in S. unfold capacity_of in S. cbn zeta in S.
  specialize (S (DispatchModel.mk [(1, DispatchModel.cap c at_ (d_view "" a))] Ge (nom_min a))). cut (holds x (DispatchModel.mk [(1, DispatchModel.cap c at_ (d_view "" a))] Ge (nom_min a))); [unfold holds; cbn [DispatchModel.mk lhs sns rhs eval]; change (val x (DispatchModel.cap c at_ (d_view "" a))) with (x ((c ++ "-" ++ at_)%string, 0%nat, nm a)); intros; lra|].
  apply S; [|reflexivity]. apply in_or_app. left. unfold DispatchModel.nominal. apply in_or_app. left. unfold add_constraints. apply in_flat_map. exists O. split; [now left|]. apply in_flat_map. exists (d_view "" a). split; [|now left].
  apply filter_In. split; [now apply in_map|exact E].
Qed.

(* operation *)
Lemma seq_lt t k : In t (seq 0 k) -> (t < k)%nat.
Proof. rewrite in_seq. lia. Qed.
Lemma range_fixed c attr at_ k a b t : In (c, attr, at_, k) operations -> C_ c a b -> ext a = false -> com a = false -> (t < T)%nat ->
  fst (DispatchModel.bounds_pu k (d_view attr b) t) * nom b <= fst (DispatchModel.bounds_pu k (d_view attr a) t) * nom a /\
  snd (DispatchModel.bounds_pu k (d_view attr a) t) * nom a <= snd (DispatchModel.bounds_pu k (d_view attr b) t) * nom b.
Proof.
  intros O ((E & _) & _ & _ & L) X K LT. destruct (la_fixed _ _ _ L X K t LT) as (P1 & P2 & P3). unfold passive in P1. rewrite E in *. cbn in O.
  repeat (destruct O as [O|O]; [injection O as <- _ _ <-; cbn [DispatchModel.bounds_pu fst snd d_view DispatchModel.max_pu DispatchModel.min_pu DispatchModel.max_hours]; try specialize (P1 eq_refl); try specialize (P3 eq_refl); lra|]). destruct O.
Qed.
Lemma range_free c attr at_ k a b t : In (c, attr, at_, k) operations -> C_ c a b -> ext a = true \/ com a = true -> (t < T)%nat ->
  fst (DispatchModel.bounds_pu k (d_view attr b) t) <= fst (DispatchModel.bounds_pu k (d_view attr a) t) /\
  snd (DispatchModel.bounds_pu k (d_view attr a) t) <= snd (DispatchModel.bounds_pu k (d_view attr b) t).
Proof.
  intros O ((E & _) & _ & _ & L) X LT. destruct (la_free _ _ _ L X) as (_ & P). destruct (P t LT) as (P1 & P2 & P3). unfold passive in P1. rewrite E in *. cbn in O.
  repeat (destruct O as [O|O]; [injection O as <- _ _ <-; cbn [DispatchModel.bounds_pu fst snd d_view DispatchModel.max_pu DispatchModel.min_pu DispatchModel.max_hours]; try specialize (P1 eq_refl); try specialize (P3 eq_refl); lra|]). destruct O.
Qed.
Definition loss_sum (c : string) (k : DispatchModel.kind) (s : Q) (a : DispatchModel.asset) (t : nat) : Q := eval x (DispatchModel.loss_term c k (lossy n) s a t).
Lemma non_extendables_imp c attr at_ k : In (c, attr, at_, k) operations ->
  imp (DispatchModel.non_extendables c attr k (lossy n) T (map (d_view attr) (of_class n c))) (DispatchModel.non_extendables c attr k (lossy n) T (map (d_view attr) (of_class n' c))).
Proof.
  intros O. pose proof (F2_map _ (d_view attr) (d_view attr) _ _ (class2c c)) as F. unfold DispatchModel.non_extendables, DispatchModel.fixed_assets. apply imp_app; eapply imp_add; try exact F;
    intros t v w Jt (a & b & -> & -> & C) E M; pose proof C as (_ & J & (z & ->) & L); (split; [exact E|]); (split; [exact M|]); intros _; apply seq_lt in Jt; apply andb_true_iff in E; destruct E as [E1 E2]; apply negb_true_iff in E1, E2;
    destruct (range_fixed c attr at_ k _ _ t O C E1 E2 Jt) as [P1 P2].
  - split; [cbn in M; unfold CapModel.has_term; cbn [DispatchModel.mk lhs existsb snd]; unfold DispatchModel.op; cbn [d_view DispatchModel.active]; unfold on in *; now rewrite M|].
    unfold holds. cbn [DispatchModel.mk lhs sns rhs eval]. change (DispatchModel.nom (d_view attr a)) with (nom a). change (DispatchModel.nom (d_view attr (relimit a z))) with (nom (relimit a z)).
    change (DispatchModel.loss_term c k (lossy n) (- (1)) (d_view attr (relimit a z)) t) with (DispatchModel.loss_term c k (lossy n) (- (1)) (d_view attr a) t). change (DispatchModel.op c attr (d_view attr (relimit a z)) t) with (DispatchModel.op c attr (d_view attr a) t). intros. lra.
  - split; [cbn in M; unfold CapModel.has_term; cbn [DispatchModel.mk lhs existsb snd]; unfold DispatchModel.op; cbn [d_view DispatchModel.active]; unfold on in *; now rewrite M|].
    unfold holds. cbn [DispatchModel.mk lhs sns rhs eval]. change (DispatchModel.nom (d_view attr a)) with (nom a). change (DispatchModel.nom (d_view attr (relimit a z))) with (nom (relimit a z)).
    change (DispatchModel.loss_term c k (lossy n) 1 (d_view attr (relimit a z)) t) with (DispatchModel.loss_term c k (lossy n) 1 (d_view attr a) t). change (DispatchModel.op c attr (d_view attr (relimit a z)) t) with (DispatchModel.op c attr (d_view attr a) t). intros. lra.
Qed.
Variable CA : forall c at_ a, In (c, at_) nominal_attrs -> In a (assets n) -> cls a = c -> ext a = true -> 0 <= nom_min a -> 0 <= x ((c ++ "-" ++ at_)%string, O, nm a).
Lemma op_attr c attr at_ k : In (c, attr, at_, k) operations -> In (c, at_) nominal_attrs.
Proof. cbn. intros O. repeat (destruct O as [O|O]; [injection O as <- _ <- _; tauto|]). destruct O. Qed.
Lemma cap_of c attr at_ k a b : In (c, attr, at_, k) operations -> C_ c a b -> ext a = true -> 0 <= x ((c ++ "-" ++ at_)%string, O, nm a).
Proof. intros O ((E & _) & J & _ & L) X. apply CA; auto. - now apply op_attr in O. - apply (la_ext _ _ _ L X). Qed.
Lemma extendables_imp c attr at_ k : In (c, attr, at_, k) operations ->
  imp (DispatchModel.extendables c attr at_ k (lossy n) T (map (d_view attr) (of_class n c))) (DispatchModel.extendables c attr at_ k (lossy n) T (map (d_view attr) (of_class n' c))).
Proof.
  intros O. pose proof (F2_map _ (d_view attr) (d_view attr) _ _ (class2c c)) as F. unfold DispatchModel.extendables, DispatchModel.ext_assets. apply imp_app; eapply imp_add; try exact F;
    intros t v w Jt (a & b & -> & -> & C) E M; pose proof C as (_ & J & (z & ->) & L); (split; [exact E|]); (split; [exact M|]); intros _; apply seq_lt in Jt; change (ext a = true) in E;
    destruct (range_free c attr at_ k _ _ t O C (or_introl E) Jt) as [P1 P2]; pose proof (cap_of c attr at_ k _ _ O C E) as P0; (split; [unfold CapModel.has_term; cbn [DispatchModel.mk lhs existsb snd DispatchModel.cap orb]; apply orb_true_r|]);
    unfold holds; cbn [DispatchModel.mk lhs sns rhs eval]; change (val x (DispatchModel.cap c at_ (d_view attr a))) with (x ((c ++ "-" ++ at_)%string, 0%nat, nm a)); change (val x (DispatchModel.cap c at_ (d_view attr (relimit a z)))) with (x ((c ++ "-" ++ at_)%string, 0%nat, nm a));
    change (DispatchModel.op c attr (d_view attr (relimit a z)) t) with (DispatchModel.op c attr (d_view attr a) t).
  - change (DispatchModel.loss_term c k (lossy n) (- (1)) (d_view attr (relimit a z)) t) with (DispatchModel.loss_term c k (lossy n) (- (1)) (d_view attr a) t). pose proof (le_times _ _ _ P1 P0). intros. lra.
  - change (DispatchModel.loss_term c k (lossy n) 1 (d_view attr (relimit a z)) t) with (DispatchModel.loss_term c k (lossy n) 1 (d_view attr a) t). pose proof (le_times _ _ _ P2 P0). intros. lra.
Qed.
(* statuses *)
Lemma com_unit a v t : In a (assets n) -> com a = true -> In v ["status"; "start_up"; "shut_down"] -> (t < T)%nat -> flag a = true -> 0 <= x ((cls a ++ "-" ++ v)%string, t, nm a).
Proof.
  intros J K V LT FL. destruct D as (_ & C & _). specialize (C a J K).
  assert (B : forall f, CommitModel.is_binary (u_view a) T x f -> val x (f t) = x ((cls a ++ "-" ++ v)%string, t, nm a) -> 0 <= x ((cls a ++ "-" ++ v)%string, t, nm a)).
  { intros f B E. rewrite <- E. destruct (B t LT FL) as [Z|Z]; rewrite Z; lra. }
  assert (G : forall f, CommitModel.is_relaxed (u_view a) T x f -> val x (f t) = x ((cls a ++ "-" ++ v)%string, t, nm a) -> 0 <= x ((cls a ++ "-" ++ v)%string, t, nm a)).
  { intros f G E. rewrite <- E. now destruct (G t LT FL). }
  assert (U : forall s, val x (CommitModel.uvar (cls a) (u_view a) s t) = x ((cls a ++ "-" ++ s)%string, t, nm a)).
  { intros s. unfold CommitModel.uvar. cbn [u_view CommitModel.u_active CommitModel.u_name]. unfold on. now rewrite FL. }
  destruct (linear n); destruct C as (C1 & C2 & C3); destruct V as [<-|[<-|[<-|[]]]]; eauto.
Qed.
Lemma com_is a : com a = commits a. Proof. reflexivity. Qed.
Lemma committables_imp c attr at_ k : In (c, attr, at_, k) operations ->
  imp (DispatchModel.committables c T (map (d_view attr) (of_class n c))) (DispatchModel.committables c T (map (d_view attr) (of_class n' c))).
Proof.
  intros O. pose proof (F2_map _ (d_view attr) (d_view attr) _ _ (class2c c)) as F. unfold DispatchModel.committables, DispatchModel.com_assets. apply imp_app; eapply imp_add; try exact F;
    intros t v w Jt (a & b & -> & -> & C) E M; pose proof C as ((EC & _) & J & (z & ->) & L); (split; [exact E|]); (split; [exact M|]); intros _; apply seq_lt in Jt; change (com a = true) in E; change (flag a = true) in M;
    destruct (la_free _ _ _ L (or_intror E)) as (EN & P); destruct (P t Jt) as (P1 & P2 & _);
    (assert (NP : passive a = false) by (unfold com, has_uc in E; apply andb_true_iff in E; destruct E as [_ E]; apply orb_true_iff in E; unfold passive; destruct E as [E|E]; apply String.eqb_eq in E; rewrite E; reflexivity)); specialize (P1 NP);
    pose proof (la_sane _ _ _ L E) as N0; pose proof (com_unit a "status" t J E (or_introl eq_refl) Jt M) as S0; rewrite EC in S0;
    (split; [unfold CapModel.has_term; cbn [DispatchModel.mk lhs existsb snd]; unfold DispatchModel.op; cbn [d_view DispatchModel.active]; unfold on; now rewrite M|]);
    unfold holds; cbn [DispatchModel.mk lhs sns rhs eval DispatchModel.bounds_pu fst snd];
    change (DispatchModel.nom (d_view attr (relimit a z))) with (nom (relimit a z)); rewrite EN; change (DispatchModel.nom (d_view attr a)) with (nom a);
    change (DispatchModel.op c "status" (d_view attr (relimit a z)) t) with (DispatchModel.op c "status" (d_view attr a) t); change (DispatchModel.op c "p" (d_view attr (relimit a z)) t) with (DispatchModel.op c "p" (d_view attr a) t);
    (replace (val x (DispatchModel.op c "status" (d_view attr a) t)) with (x ((c ++ "-status")%string, t, nm a)) by (unfold DispatchModel.op; cbn [d_view DispatchModel.active]; unfold on; now rewrite M));
    change (DispatchModel.min_pu (d_view attr (relimit a z)) t) with (min_pu (relimit a z) t); change (DispatchModel.max_pu (d_view attr (relimit a z)) t) with (max_pu (relimit a z) t);
    change (DispatchModel.min_pu (d_view attr a) t) with (min_pu a t); change (DispatchModel.max_pu (d_view attr a) t) with (max_pu a t); change ((c ++ "-" ++ "status")%string) with ((c ++ "-status")%string) in S0.
  - pose proof (le_times _ _ _ (le_times _ _ _ P1 N0) S0). intros. lra.
  - pose proof (le_times _ _ _ (le_times _ _ _ P2 N0) S0). intros. lra.
Qed.
Lemma fixed_operation_imp c attr : imp (DispatchModel.fixed_operation c attr T (map (d_view attr) (of_class n c))) (DispatchModel.fixed_operation c attr T (map (d_view attr) (of_class n' c))).
Proof.
  pose proof (F2_map _ (d_view attr) (d_view attr) _ _ (class2c c)) as F. unfold DispatchModel.fixed_operation. eapply imp_add'; [exact F|]. intros t v w Jt (a & b & -> & -> & C) M. destruct C as (_ & J & (z & ->) & L).
  pose proof (la_set _ _ _ L attr t) as G. cbn in M. destruct G as [G|G]; cbn in G; [|rewrite G in M; discriminate M]. rewrite G in M. split; [exact M|]. intros HT. split; [exact HT|]. unfold holds. cbn [DispatchModel.mk lhs sns rhs].
  change (DispatchModel.fix_set (d_view attr (relimit a z)) t) with (z_set z attr t). change (DispatchModel.fix_set (d_view attr a) t) with (op_set a attr t). rewrite G. easy.
Qed.

(* ramp limits *)
Lemma everywhere_iff f (l : list asset) : RampModel.everywhere T (map r_view l) f = true <-> forall a t, In a l -> (t < T)%nat -> f (up a t) = true /\ f (down a t) = true.
Proof.
  unfold RampModel.everywhere. rewrite forallb_forall. split.
  - intros G a t J LT. specialize (G (r_view a) (in_map _ _ _ J)). rewrite forallb_forall in G. specialize (G t ltac:(apply in_seq; lia)). apply andb_true_iff in G. exact G.
  - intros G r J. apply in_map_iff in J. destruct J as (a & <- & J). apply forallb_forall. intros t Jt. apply seq_lt in Jt. apply andb_true_iff. now apply G.
Qed.
Lemma early_keep c : c = "Generator" \/ c = "Link" -> RampModel.early_return T (map r_view (of_class n c)) = true -> RampModel.early_return T (map r_view (of_class n' c)) = true.
Proof.
  intros CC. unfold RampModel.early_return. rewrite !orb_true_iff, !everywhere_iff. intros [G|G]; [left|right].
  - intros b t J LT. destruct (F2_right _ _ _ _ (class2 c) J) as (a & Ja & (_ & (z & ->) & L)). destruct (G a t Ja LT) as [G1 G2]. split.
    + destruct (up (relimit a z) t) as [v|] eqn:E; [|reflexivity]. destruct (la_up _ _ _ L t v E) as (u & Eu & _). rewrite Eu in G1. discriminate G1.
    + destruct (down (relimit a z) t) as [v|] eqn:E; [|reflexivity]. destruct (la_down _ _ _ L t v E) as (u & Eu & _). rewrite Eu in G2. discriminate G2.
  - assert (U : forall a, In a (assets n) -> cls a = c -> unit_ramps T a).
    { intros a Ja E t LT. destruct (G a t ltac:(apply filter_In; split; [exact Ja|now apply String.eqb_eq]) LT) as [G1 G2]. destruct (up a t) as [u|]; [|discriminate G1]. destruct (down a t) as [d|]; [|discriminate G2]. exists u, d. repeat split; now apply Qeq_bool_iff. }
    intros b t J LT. apply filter_In in J. destruct J as [J E]. apply String.eqb_eq in E. destruct (ln_ramps _ _ _ H c CC U b J E t LT) as (u & d & -> & -> & U1 & U2). split; now apply Qeq_bool_iff.
Qed.
Lemma ramps_imp c attr at_ k : In (c, attr, at_, k) operations -> c = "Generator" \/ c = "Link" ->
  imp (RampModel.ramps c at_ T false (map r_view (of_class n c))) (RampModel.ramps c at_ T false (map r_view (of_class n' c))).
Proof.
  intros OP CC. unfold RampModel.ramps. destruct (RampModel.early_return T (map r_view (of_class n c))) eqn:E1; [rewrite (early_keep c CC E1); apply imp_refl|].
  destruct (RampModel.early_return T (map r_view (of_class n' c))); [apply imp_nil|]. clear E1. pose proof (F2_map _ r_view r_view _ _ (class2c c)) as F.
  unfold RampModel.fixed_ramps, RampModel.extendable_ramps, RampModel.com_ramps, RampModel.fix_, RampModel.ext_, RampModel.com_. cbn [RampModel.times].
  repeat match goal with |- imp (_ ++ _) (_ ++ _) => apply imp_app end; eapply imp_add; try exact F;
    intros t v w Jt (a & b & -> & -> & C) E M; pose proof C as ((EC & _) & J & (z & ->) & L); (split; [exact E|]); apply in_seq in Jt; apply andb_true_iff in M; destruct M as [MA MU]; change (flag a = true) in MA; apply negb_true_iff in MU.
  - apply andb_true_iff in E. destruct E as [E _]. apply negb_true_iff in E. change (ext a = false) in E. change (RampModel.is_none (up (relimit a z) t) = false) in MU. destruct (up (relimit a z) t) as [q|] eqn:EU; [|discriminate MU]. destruct (la_up _ _ _ L t q EU) as (u & Eu & LE). rewrite E in LE.
    change (z_up z t = Some q) in EU. split; [cbn [r_view RampModel.base d_view DispatchModel.active RampModel.up]; unfold on; rewrite MA, Eu; reflexivity|]. intros _. split; [unfold CapModel.has_term, RampModel.p, DispatchModel.op; cbn; unfold on; rewrite MA; reflexivity|].
    unfold holds. cbn [DispatchModel.mk lhs sns rhs]. change (RampModel.up (r_view (relimit a z)) t) with (z_up z t). change (RampModel.up (r_view a) t) with (up a t). rewrite EU, Eu. cbn [RampModel.get].
    change (RampModel.p c (r_view (relimit a z))) with (RampModel.p c (r_view a)). change (RampModel.rhs_start false (r_view (relimit a z)) t) with 0. change (RampModel.rhs_start false (r_view a) t) with 0.
    change (DispatchModel.nom (RampModel.base (r_view (relimit a z)))) with (nom (relimit a z)). change (DispatchModel.nom (RampModel.base (r_view a))) with (nom a). intros. lra.
  - apply andb_true_iff in E. destruct E as [E _]. apply negb_true_iff in E. change (ext a = false) in E. change (RampModel.is_none (down (relimit a z) t) = false) in MU. destruct (down (relimit a z) t) as [q|] eqn:EU; [|discriminate MU]. destruct (la_down _ _ _ L t q EU) as (u & Eu & LE). rewrite E in LE.
    change (z_down z t = Some q) in EU. split; [cbn [r_view RampModel.base d_view DispatchModel.active RampModel.down]; unfold on; rewrite MA, Eu; reflexivity|]. intros _. split; [unfold CapModel.has_term, RampModel.p, DispatchModel.op; cbn; unfold on; rewrite MA; reflexivity|].
    unfold holds. cbn [DispatchModel.mk lhs sns rhs]. change (RampModel.down (r_view (relimit a z)) t) with (z_down z t). change (RampModel.down (r_view a) t) with (down a t). rewrite EU, Eu. cbn [RampModel.get].
    change (RampModel.p c (r_view (relimit a z))) with (RampModel.p c (r_view a)). change (RampModel.rhs_start false (r_view (relimit a z)) t) with 0. change (RampModel.rhs_start false (r_view a) t) with 0.
    change (DispatchModel.nom (RampModel.base (r_view (relimit a z)))) with (nom (relimit a z)). change (DispatchModel.nom (RampModel.base (r_view a))) with (nom a). intros. lra.
  - change (ext a = true) in E. change (RampModel.is_none (up (relimit a z) t) = false) in MU. destruct (up (relimit a z) t) as [q|] eqn:EU; [|discriminate MU]. destruct (la_up _ _ _ L t q EU) as (u & Eu & LE). rewrite E in LE. pose proof (cap_of c attr at_ k _ _ OP C E) as P0.
    change (z_up z t = Some q) in EU. split; [cbn [r_view RampModel.base d_view DispatchModel.active RampModel.up]; unfold on; rewrite MA, Eu; reflexivity|]. intros _. split; [unfold CapModel.has_term, RampModel.p, DispatchModel.op; cbn; unfold on; rewrite MA; reflexivity|].
    unfold holds. cbn [DispatchModel.mk lhs sns rhs eval]. change (RampModel.up (r_view (relimit a z)) t) with (z_up z t). change (RampModel.up (r_view a) t) with (up a t). rewrite EU, Eu. cbn [RampModel.get].
    change (RampModel.p c (r_view (relimit a z))) with (RampModel.p c (r_view a)). change (RampModel.rhs_start false (r_view (relimit a z)) t) with 0. change (RampModel.rhs_start false (r_view a) t) with 0.
    change (val x (DispatchModel.cap c at_ (RampModel.base (r_view (relimit a z))))) with (x ((c ++ "-" ++ at_)%string, 0%nat, nm a)). change (val x (DispatchModel.cap c at_ (RampModel.base (r_view a)))) with (x ((c ++ "-" ++ at_)%string, 0%nat, nm a)).
    pose proof (le_times _ _ _ LE P0). intros. lra.
  - change (ext a = true) in E. change (RampModel.is_none (down (relimit a z) t) = false) in MU. destruct (down (relimit a z) t) as [q|] eqn:EU; [|discriminate MU]. destruct (la_down _ _ _ L t q EU) as (u & Eu & LE). rewrite E in LE. pose proof (cap_of c attr at_ k _ _ OP C E) as P0.
    change (z_down z t = Some q) in EU. split; [cbn [r_view RampModel.base d_view DispatchModel.active RampModel.down]; unfold on; rewrite MA, Eu; reflexivity|]. intros _. split; [unfold CapModel.has_term, RampModel.p, DispatchModel.op; cbn; unfold on; rewrite MA; reflexivity|].
    unfold holds. cbn [DispatchModel.mk lhs sns rhs eval]. change (RampModel.down (r_view (relimit a z)) t) with (z_down z t). change (RampModel.down (r_view a) t) with (down a t). rewrite EU, Eu. cbn [RampModel.get].
    change (RampModel.p c (r_view (relimit a z))) with (RampModel.p c (r_view a)). change (RampModel.rhs_start false (r_view (relimit a z)) t) with 0. change (RampModel.rhs_start false (r_view a) t) with 0.
    change (val x (DispatchModel.cap c at_ (RampModel.base (r_view (relimit a z))))) with (x ((c ++ "-" ++ at_)%string, 0%nat, nm a)). change (val x (DispatchModel.cap c at_ (RampModel.base (r_view a)))) with (x ((c ++ "-" ++ at_)%string, 0%nat, nm a)).
    pose proof (le_times _ _ _ LE P0). intros. lra.
  - change (com a = true) in E. change (RampModel.is_none (up_static (relimit a z)) = false) in MU. destruct (up_static (relimit a z)) as [q|] eqn:EU; [|discriminate MU]. destruct (proj1 (la_static _ _ _ L E) q EU) as (u & Eu & LE).
    destruct t as [|s]; [exfalso; lia|]. pose proof (com_unit a "status" s J E (or_introl eq_refl) ltac:(lia) MA) as S0. rewrite EC in S0. pose proof (la_sane _ _ _ L E) as N0. destruct (la_free _ _ _ L (or_intror E)) as (EN & _).
    change (z_ups z = Some q) in EU. split; [cbn [r_view RampModel.base d_view DispatchModel.active RampModel.up_static]; unfold on; rewrite MA, Eu; reflexivity|]. intros _. split; [unfold CapModel.has_term, RampModel.p, DispatchModel.op; cbn; unfold on; rewrite MA; reflexivity|].
    unfold holds. cbn zeta. cbn [DispatchModel.mk lhs sns rhs eval]. change (RampModel.up_static (r_view (relimit a z))) with (z_ups z). change (RampModel.up_static (r_view a)) with (up_static a). rewrite EU, Eu. cbn [RampModel.get].
    change (RampModel.p c (r_view (relimit a z))) with (RampModel.p c (r_view a)). change (RampModel.status c (r_view (relimit a z))) with (RampModel.status c (r_view a)). change (RampModel.rhs_start false (r_view (relimit a z)) (S s)) with 0. change (RampModel.rhs_start false (r_view a) (S s)) with 0.
    change (RampModel.start_lim (r_view (relimit a z))) with (start_lim a). change (RampModel.start_lim (r_view a)) with (start_lim a). unfold RampModel.first. cbn [andb].
    change (DispatchModel.nom (RampModel.base (r_view (relimit a z)))) with (nom (relimit a z)). change (DispatchModel.nom (RampModel.base (r_view a))) with (nom a). rewrite EN. cbn [shift].
    replace (val x (RampModel.status c (r_view a) s)) with (x ((c ++ "-" ++ "status")%string, s, nm a)) by (unfold RampModel.status, DispatchModel.op; cbn [r_view RampModel.base d_view DispatchModel.active]; unfold on; now rewrite MA).
    pose proof (le_times _ _ _ (le_times _ _ _ LE N0) S0). intros. lra.
  - change (com a = true) in E. change (RampModel.is_none (down_static (relimit a z)) = false) in MU. destruct (down_static (relimit a z)) as [q|] eqn:EU; [|discriminate MU]. destruct (proj2 (la_static _ _ _ L E) q EU) as (u & Eu & LE).
    pose proof (com_unit a "status" t J E (or_introl eq_refl) ltac:(lia) MA) as S0. rewrite EC in S0. pose proof (la_sane _ _ _ L E) as N0. destruct (la_free _ _ _ L (or_intror E)) as (EN & _).
    change (z_downs z = Some q) in EU. split; [cbn [r_view RampModel.base d_view DispatchModel.active RampModel.down_static]; unfold on; rewrite MA, Eu; reflexivity|]. intros _. split; [unfold CapModel.has_term, RampModel.p, DispatchModel.op; cbn; unfold on; rewrite MA; reflexivity|].
    unfold holds. cbn zeta. cbn [DispatchModel.mk lhs sns rhs eval]. change (RampModel.down_static (r_view (relimit a z))) with (z_downs z). change (RampModel.down_static (r_view a)) with (down_static a). rewrite EU, Eu. cbn [RampModel.get].
    change (RampModel.p c (r_view (relimit a z))) with (RampModel.p c (r_view a)). change (RampModel.status c (r_view (relimit a z))) with (RampModel.status c (r_view a)). change (RampModel.rhs_start false (r_view (relimit a z)) t) with 0. change (RampModel.rhs_start false (r_view a) t) with 0.
    change (RampModel.shut_lim (r_view (relimit a z))) with (shut_lim a). change (RampModel.shut_lim (r_view a)) with (shut_lim a). unfold RampModel.first. cbn [andb].
    change (DispatchModel.nom (RampModel.base (r_view (relimit a z)))) with (nom (relimit a z)). change (DispatchModel.nom (RampModel.base (r_view a))) with (nom a). rewrite EN.
    replace (val x (RampModel.status c (r_view a) t)) with (x ((c ++ "-" ++ "status")%string, t, nm a)) by (unfold RampModel.status, DispatchModel.op; cbn [r_view RampModel.base d_view DispatchModel.active]; unfold on; now rewrite MA).
    pose proof (le_times _ _ _ (le_times _ _ _ LE N0) S0). intros. lra.
Qed.

(* commitment *)
Lemma eval_app l r : eval x (l ++ r) == eval x l + eval x r.
Proof. induction l as [|[q v] l IH]; cbn [app eval]; [ring|]. rewrite IH. ring. Qed.
Lemma eval_nonneg (f : nat -> label) l : (forall j, In j l -> 0 <= val x (f j)) -> 0 <= eval x (map (fun j => (1, f j)) l).
Proof. induction l as [|j l IH]; intros G; cbn [map eval]; [lra|]. pose proof (G j (or_introl eq_refl)). specialize (IH (fun i J => G i (or_intror J))). lra. Qed.
Lemma window_le (f : nat -> label) t k k' : (k' <= k)%nat -> (forall j, (j <= t)%nat -> 0 <= val x (f j)) -> eval x (CommitModel.window f t k') <= eval x (CommitModel.window f t k).
Proof.
  intros LE G. unfold CommitModel.window. replace (Nat.min k (S t)) with ((Nat.min k (S t) - Nat.min k' (S t)) + Nat.min k' (S t))%nat by lia. rewrite seq_app, map_app, eval_app.
  replace (S t - k + (Nat.min k (S t) - Nat.min k' (S t)))%nat with (S t - k')%nat by lia.
  assert (P : 0 <= eval x (map (fun j => (1, f j)) (seq (S t - k) (Nat.min k (S t) - Nat.min k' (S t))))); [|lra]. apply eval_nonneg. intros j J. apply in_seq in J. apply G. lia.
Qed.
Lemma commitment_imp c a b : C_ c a b -> com a = true -> imp (CommitModel.commitment c (u_view a) T false) (CommitModel.commitment c (u_view b) T false).
Proof.
  intros C E. destruct C as ((EC & _) & J & (z & ->) & L). destruct (la_times _ _ _ L) as [TU TD].
  assert (NN : forall v t, In v ["status"; "start_up"; "shut_down"] -> (t < T)%nat -> 0 <= val x (CommitModel.uvar c (u_view a) v t)).
  { intros v t V LT. unfold CommitModel.uvar. cbn [u_view CommitModel.u_active CommitModel.u_name]. unfold on. destruct (flag a) eqn:FL; cbn [val]; [|lra]. rewrite <- EC. now apply com_unit. }
  assert (ID : forall g, C_ c a g -> Forall2 (fun u w => u = u_view a /\ w = u_view (relimit a z)) [u_view a] [u_view (relimit a z)]) by (intros; constructor; [split; reflexivity|constructor]). assert (I2 : Forall2 (fun u w => u = u_view a /\ w = u_view (relimit a z)) [u_view a] [u_view (relimit a z)]) by (constructor; [split; reflexivity|constructor]). clear ID.
  unfold CommitModel.commitment. apply imp_app; [apply imp_refl|]. apply imp_app; [|apply imp_app; [|apply imp_app]].
  - unfold CommitModel.up_time. destruct (Nat.eqb (CommitModel.min_up (u_view (relimit a z))) 0) eqn:Z; [apply imp_nil|]. apply Nat.eqb_neq in Z. change (CommitModel.min_up (u_view (relimit a z))) with (min_up (relimit a z)) in *. change (CommitModel.min_up (u_view a)) with (min_up a).
    assert (Z' : Nat.eqb (min_up a) 0 = false) by (apply Nat.eqb_neq; lia). rewrite Z'. eapply imp_add'; [exact I2|]. intros t u w Jt [-> ->] M. split; [exact M|]. apply in_seq in Jt. change (flag a = true) in M. intros _. split.
    + unfold CapModel.has_term. cbn [CommitModel.con1 lhs existsb snd]. unfold CommitModel.status, CommitModel.uvar. cbn [u_view CommitModel.u_active]. unfold on. now rewrite M.
    + unfold holds. cbn [CommitModel.con1 lhs sns rhs eval]. change (CommitModel.status c (u_view (relimit a z)) t) with (CommitModel.status c (u_view a) t). change (CommitModel.start_up c (u_view (relimit a z))) with (CommitModel.start_up c (u_view a)).
      pose proof (window_le (CommitModel.start_up c (u_view a)) t _ _ TU ltac:(intros j LJ; apply NN; [cbn; tauto|lia])). intros. lra.
  - unfold CommitModel.down_time. destruct (Nat.eqb (CommitModel.min_down (u_view (relimit a z))) 0) eqn:Z; [apply imp_nil|]. apply Nat.eqb_neq in Z. change (CommitModel.min_down (u_view (relimit a z))) with (min_down (relimit a z)) in *. change (CommitModel.min_down (u_view a)) with (min_down a).
    assert (Z' : Nat.eqb (min_down a) 0 = false) by (apply Nat.eqb_neq; lia). rewrite Z'. eapply imp_add'; [exact I2|]. intros t u w Jt [-> ->] M. split; [exact M|]. apply in_seq in Jt. change (flag a = true) in M. intros _. split.
    + unfold CapModel.has_term. cbn [CommitModel.con1 lhs existsb snd]. unfold CommitModel.status, CommitModel.uvar. cbn [u_view CommitModel.u_active]. unfold on. now rewrite M.
    + unfold holds. cbn [CommitModel.con1 lhs sns rhs eval]. change (CommitModel.status c (u_view (relimit a z)) t) with (CommitModel.status c (u_view a) t). change (CommitModel.shut_down c (u_view (relimit a z))) with (CommitModel.shut_down c (u_view a)).
      pose proof (window_le (CommitModel.shut_down c (u_view a)) t _ _ TD ltac:(intros j LJ; apply NN; [cbn; tauto|lia])). intros. lra.
  - unfold CommitModel.stay_up. eapply imp_add'; [exact I2|]. intros t u w Jt [-> ->] M. split; [|intros HT; split; [exact HT|intros G; exact G]]. apply andb_true_iff in M. destruct M as [M M2]. apply andb_true_iff in M. destruct M as [M M1]. apply andb_true_iff. split; [|exact M2]. apply andb_true_iff. split; [|exact M1].
    apply Nat.leb_le in M. apply Nat.leb_le. cbn in *. lia.
  - unfold CommitModel.stay_down. eapply imp_add'; [exact I2|]. intros t u w Jt [-> ->] M. split; [|intros HT; split; [exact HT|intros G; exact G]]. apply andb_true_iff in M. destruct M as [M M2]. apply andb_true_iff in M. destruct M as [M M1]. apply andb_true_iff. split; [|exact M2]. apply andb_true_iff. split; [|exact M1].
    apply Nat.leb_le in M. apply Nat.leb_le. cbn in *. lia.
Qed.
Lemma com_class c : Forall2 (fun a b => com a = true /\ C_ c a b) (filter com (of_class n c)) (filter com (of_class n' c)).
Proof.
  assert (F : Forall2 (C_ c) (filter com (of_class n c)) (filter com (of_class n' c))) by (apply F2_filter; [intros a b (_ & _ & (z & ->) & _); reflexivity|apply class2c]).
  apply F2_both in F. eapply F2_impl; [|exact F]. cbn. intros a b (J & R). apply filter_In in J. tauto.
Qed.
Lemma linear' : linear n' = linear n. Proof. destruct (ln_data _ _ _ H) as (_ & _ & _ & _ & _ & _ & _ & E & _). exact E. Qed.
Lemma commitment_of_imp c : imp (commitment_of n c) (commitment_of n' c).
Proof.
  unfold commitment_of. rewrite nsnaps'. apply imp_app; eapply imp_flat2; try apply com_class; cbn.
  - intros a b (E & C). now apply commitment_imp.
  - intros a b (E & C). destruct C as (_ & J & (z & ->) & L). unfold tightened. rewrite linear'. change (start_cost (relimit a z)) with (start_cost a). change (shut_cost (relimit a z)) with (shut_cost a).
    destruct (linear n) eqn:LI; [|apply imp_refl]. cbn [andb]. destruct (Qeq_bool _ _); [|apply imp_refl]. destruct (la_tight _ _ _ L E LI) as (E1 & E2 & E3 & E4). destruct (la_free _ _ _ L (or_intror E)) as (EN & _).
    cbn [relimit min_pu max_pu up_static down_static nom] in E1, E2, E3, E4, EN. unfold u_view. cbn [relimit min_pu max_pu up_static down_static nom]. rewrite E1, E2, E3, E4, EN. apply imp_refl.
Qed.
Lemma operation_imp row : In row operations -> imp (operation_of n row) (operation_of n' row).
Proof.
  intros O. destruct row as [[[c attr] at_] k]. unfold operation_of. cbn zeta. rewrite nsnaps', lossy'. apply imp_app; [|apply imp_app; [|apply imp_app; [|apply imp_app; [|apply imp_app]]]].
  - eapply non_extendables_imp; exact O.
  - now apply extendables_imp.
  - eapply committables_imp; exact O.
  - apply commitment_of_imp.
  - destruct (has_uc c) eqn:U; [|apply imp_nil]. eapply ramps_imp; [exact O|]. unfold has_uc in U. apply orb_true_iff in U. destruct U as [U|U]; apply String.eqb_eq in U; auto.
  - apply fixed_operation_imp.
Qed.
(* parts without limits *)
Lemma view_eq {V} (v : asset -> V) c : (forall a z, v (relimit a z) = v a) -> map v (of_class n c) = map v (of_class n' c).
Proof. intros E. apply (F2_map_eq R_); [|apply class2]. intros a b (_ & (z & ->) & _). now rewrite E. Qed.
Lemma balances_eq : balances n' = balances n.
Proof.
  unfold balances. rewrite nsnaps', lossy'. destruct (ln_data _ _ _ H) as (EL & EB & _). rewrite EB. unfold b_net. rewrite EL, EB. rewrite !(view_eq c_view), !(view_eq br_view), !(view_eq l_view) by reflexivity. reflexivity.
Qed.
Lemma storage_eq : storage_units n' = storage_units n.
Proof.
  unfold storage_units. symmetry. apply (F2_flat_eq R_); [|apply class2]. intros a b (_ & (z & ->) & _). rewrite nsnaps'. unfold unit_data. destruct (ln_data _ _ _ H) as (_ & _ & _ & _ & _ & -> & _). reflexivity.
Qed.
Lemma stores_eq : stores n' = stores n.
Proof.
  unfold stores. symmetry. apply (F2_flat_eq R_); [|apply class2]. intros a b (_ & (z & ->) & _). rewrite nsnaps'. destruct (ln_data _ _ _ H) as (_ & _ & _ & _ & _ & -> & _). reflexivity.
Qed.
Lemma supplies_imp : imp (supplies n) (supplies n').
Proof.
  unfold supplies, CapModel.total_supply. rewrite nsnaps'. destruct (ln_data _ _ _ H) as (_ & _ & _ & _ & -> & _). rewrite !IdleProofs.flat_map_map. apply imp_app; eapply imp_flat2; try apply class2; intros a b (_ & (z & ->) & L); destruct (la_sums _ _ _ L) as [L1 L2]; cbn [sup_view CapModel.u_min CapModel.u_max].
  - destruct (e_min (relimit a z)) as [v|] eqn:E; [|apply imp_nil]. destruct (L1 v eq_refl) as (u & -> & LE). apply imp_one. intros HT. split; [exact HT|]. unfold holds. cbn [lhs sns rhs]. change (CapModel.supply_terms (w_gen n) (seq 0 T) (sup_view (relimit a z))) with (CapModel.supply_terms (w_gen n) (seq 0 T) (sup_view a)). intros. lra.
  - destruct (e_max (relimit a z)) as [v|] eqn:E; [|apply imp_nil]. destruct (L2 v eq_refl) as (u & -> & LE). apply imp_one. intros HT. split; [exact HT|]. unfold holds. cbn [lhs sns rhs]. change (CapModel.supply_terms (w_gen n) (seq 0 T) (sup_view (relimit a z))) with (CapModel.supply_terms (w_gen n) (seq 0 T) (sup_view a)). intros. lra.
Qed.
Lemma losses_eq c : In c ["Line"; "Transformer"] -> losses n' c = losses n c.
Proof.
  intros CC. unfold losses. rewrite lossy', nsnaps'. destruct (ln_data _ _ _ H) as (_ & _ & _ & _ & _ & _ & ET & _). rewrite ET. destruct (lossy n) eqn:LO; [|reflexivity]. f_equal.
  symmetry. apply (F2_map_eq (C_ c)); [|apply class2c]. intros a b ((E & _) & _ & (z & ->) & L). assert (P : passive a = true) by (unfold passive; rewrite E; destruct CC as [<-|[<-|[]]]; reflexivity).
  assert (NT : tangents n <> O) by (unfold lossy in LO; apply negb_true_iff in LO; now apply Nat.eqb_neq in LO). destruct (la_loss _ _ _ L NT P) as (E1 & E2 & E3). cbn [relimit nom max_pu nom_max] in E1, E2, E3. unfold lo_view. cbn [relimit nom max_pu nom_max nm r_eff ext]. rewrite E1, E2, E3. reflexivity.
Qed.
(* global constraints *)
Definition oimp (o o' : option (list con)) : Prop := exists p p', o = Some p /\ o' = Some p' /\ imp p p'.
Lemma lim_eq attr : lim_net n' attr = lim_net n attr.
Proof.
  unfold lim_net. rewrite nsnaps'. destruct (ln_data _ _ _ H) as (_ & _ & _ & _ & -> & _ & _ & _ & -> & _). rewrite !(view_eq g_view), !(view_eq st_view) by reflexivity. reflexivity.
Qed.
Lemma k_eq : k_net n' = k_net n.
Proof. unfold k_net. f_equal. symmetry. apply (F2_map_eq R_); [|apply all2]. intros a b (_ & (z & ->) & _). reflexivity. Qed.
Lemma eased_row l s q q' : eased s q q' -> weaker {| lhs := l; sns := s; rhs := q |} {| lhs := l; sns := s; rhs := q' |}.
Proof. intros E HT. split; [exact HT|]. unfold holds, eased in *. cbn [sns lhs rhs]. destruct s; intros; lra. Qed.
Lemma eased_minus s q q' k j : eased s q q' -> eased s (q - k - j) (q' - k - j).
Proof. unfold eased. destruct s; intros; lra. Qed.
Lemma limit_con_imp m em coef s q q' attr sel : eased s q q' ->
  oimp (rows_of (LimitModel.limit_con m em coef {| LimitModel.constant := q; LimitModel.sense_of := s; LimitModel.inv_period := None; LimitModel.carrier_attr := attr |} sel))
       (rows_of (LimitModel.limit_con m em coef {| LimitModel.constant := q'; LimitModel.sense_of := s; LimitModel.inv_period := None; LimitModel.carrier_attr := attr |} sel)).
Proof.
  intros E. unfold LimitModel.limit_con. destruct (_ || _ || _); cbn [rows_of]; do 2 eexists; (split; [reflexivity|]); (split; [reflexivity|]); [|apply imp_refl]. apply imp_one. cbn [LimitModel.sense_of LimitModel.constant]. now apply eased_row, eased_minus.
Qed.
Lemma limit_imp l l' : looser_limit l l' -> oimp (limit_rows n l) (limit_rows n' l').
Proof.
  assert (NI : oimp (rows_of None) (rows_of None)) by (do 2 eexists; split; [reflexivity|split; [reflexivity|apply imp_refl]]).
  destruct l as [at_ s q|c s q|cs s q|cs s q], l' as [at_' s' q'|c' s' q'|cs' s' q'|cs' s' q']; intros L; try destruct L; cbn [looser_limit] in *; unfold limit_rows; rewrite ?lim_eq, ?k_eq.
  - subst at_'. destruct H1 as [-> E]. unfold LimitModel.primary_energy. change (LimitModel.selected (lim_net n at_) {| LimitModel.constant := q'; LimitModel.sense_of := s; LimitModel.inv_period := None; LimitModel.carrier_attr := at_ |}) with (LimitModel.selected (lim_net n at_) {| LimitModel.constant := q; LimitModel.sense_of := s; LimitModel.inv_period := None; LimitModel.carrier_attr := at_ |}).
    destruct (LimitModel.selected _ _); [|exact NI]. destruct (LimitModel.nonempty _); [|exact NI]. now apply limit_con_imp.
  - subst c'. destruct H1 as [-> E]. unfold LimitModel.operational_limit. change (LimitModel.selected (lim_net n c) {| LimitModel.constant := q'; LimitModel.sense_of := s; LimitModel.inv_period := None; LimitModel.carrier_attr := c |}) with (LimitModel.selected (lim_net n c) {| LimitModel.constant := q; LimitModel.sense_of := s; LimitModel.inv_period := None; LimitModel.carrier_attr := c |}).
    destruct (LimitModel.selected _ _); [|exact NI]. now apply limit_con_imp.
  - subst cs'. destruct H1 as [-> E]. unfold CapModel.volume_limit, CapModel.transmission. cbn [CapModel.t_period CapModel.bad_period]. unfold CapModel.t_named. cbn [CapModel.t_carriers]. destruct (existsb _ _); cbn [rows]; do 2 eexists; (split; [reflexivity|]); (split; [reflexivity|]); [|apply imp_refl]. apply imp_one. cbn [CapModel.t_sense CapModel.t_const]. now apply eased_row.
  - subst cs'. destruct H1 as [-> E]. unfold CapModel.cost_limit. cbn [k_net CapModel.multi]. rewrite !andb_false_r. cbn [andb]. unfold CapModel.transmission. cbn [CapModel.t_period CapModel.bad_period]. destruct (existsb _ _); cbn [rows]; do 2 eexists; (split; [reflexivity|]); (split; [reflexivity|]); [|apply imp_refl]. apply imp_one. cbn [CapModel.t_sense CapModel.t_const]. now apply eased_row.
Qed.
Lemma column_imp c c' : looser_column c c' -> oimp (column_rows n c) (column_rows n' c').
Proof.
  intros [E L]. unfold column_rows. rewrite k_eq. destruct (ln_data _ _ _ H) as (_ & -> & _ & _ & _ & _ & _ & _ & _ & ->). unfold CapModel.bus_column. rewrite E.
  assert (SE : forall s k p, CapModel.parse (k_net n) (carriers n) false (fun _ => None) (CapModel.col_name c) = CapModel.Spec s k p -> s = if String.prefix "nom_min_" (CapModel.col_name c) then Ge else Le).
  { intros s k p. unfold CapModel.parse, CapModel.starts, CapModel.parse_rest. destruct (String.prefix "nom_min_" _); [destruct (CapModel.mem _ _); [intros G; injection G as <- _ _; reflexivity|discriminate]|]. destruct (String.prefix "nom_max_" _); [|discriminate]. destruct (CapModel.mem _ _); [intros G; injection G as <- _ _; reflexivity|discriminate]. }
  destruct (CapModel.parse _ _ _ _ _) as [s k p| |] eqn:PA.
  - specialize (SE s k p eq_refl). do 2 eexists. split; [reflexivity|]. split; [reflexivity|]. destruct (CapModel.bus_any _ _ _); [|apply imp_refl]. apply imp_flat. intros b _. destruct (CapModel.col_val c' b) as [v'|] eqn:V; [|apply imp_nil]. destruct (L b v' V) as (v & -> & L1 & L2). apply imp_one, eased_row. subst s. destruct (String.prefix _ _); cbn [eased]; auto.
  - do 2 eexists. split; [reflexivity|]. split; [reflexivity|apply imp_refl].
  - exfalso. revert PA. unfold CapModel.parse, CapModel.parse_rest. destruct (CapModel.starts _ _); [destruct (CapModel.mem _ _); discriminate|]. destruct (CapModel.starts _ _); [destruct (CapModel.mem _ _); discriminate|discriminate].
Qed.

Lemma o_pairs k k' : Forall2 R_ k k' -> Forall2 S_ (map o_view k) (map o_view k').
Proof.
  intros F. induction F as [|a b l l' (_ & (z & ->) & L) F IH]; cbn [map]; constructor; [|exact IH]. exists (z_nom z). split; [reflexivity|]. intros E. exact (proj1 (la_free _ _ _ L (or_introl E))).
Qed.
Lemma domains' : domains n' x.
Proof.
  destruct D as (M & C & SP & LO & K). split; [|split; [|split; [|split]]].
  - intros b J. destruct (F2_right _ _ _ _ all2 J) as (a & Ja & (_ & (z & ->) & _)). exact (M a Ja).
  - intros b J E. destruct (F2_right _ _ _ _ all2 J) as (a & Ja & (_ & (z & ->) & _)). specialize (C a Ja E). rewrite linear', nsnaps'. destruct (linear n); exact C.
  - intros b J. destruct (F2_right _ _ _ _ all2 J) as (a & Ja & (_ & (z & ->) & _)). rewrite nsnaps'. exact (SP a Ja).
  - intros b t J. destruct (F2_right _ _ _ _ all2 J) as (a & Ja & (_ & (z & ->) & _)). rewrite nsnaps', lossy'. exact (LO a t Ja).
  - unfold ObjectiveModel.const_fixed, o_net in *. rewrite nsnaps'. destruct (ln_data _ _ _ H) as (_ & _ & _ & -> & _). rewrite <- (constant2 (map o_view (assets n)) (map o_view (assets n')) T (w_obj n) (fun _ => 0%Z)); [exact K|]. apply o_pairs, all2.
Qed.
Lemma rows_imp cs : create_model kvl n = Some cs -> exists cs', create_model kvl n' = Some cs' /\ imp cs cs'.
Proof.
  intros E. unfold create_model in *.
  assert (PA : forall o', In o' (parts kvl n') -> exists o, In o (parts kvl n) /\ (o = None \/ oimp o o')).
  { unfold parts. intros o' J. apply in_app_or in J. destruct J as [J|J]; [|apply in_app_or in J; destruct J as [J|J]].
    - assert (SA : forall A, oimp (Some A) (Some A)) by (intros A; exists A, A; split; [reflexivity|split; [reflexivity|apply imp_refl]]).
      assert (SB : forall o, o = None \/ oimp o o) by (intros [A|]; [right; apply SA|left; reflexivity]).
      destruct J as [<-|[<-|[<-|[<-|[<-|[<-|[<-|[<-|[<-|[]]]]]]]]]].
      + exists (Some (capacity n)). split; [cbn; tauto|]. right. do 2 eexists. split; [reflexivity|]. split; [reflexivity|]. apply imp_flat. intros ca _. apply capacity_imp.
      + exists (Some (operation n)). split; [cbn; tauto|]. right. do 2 eexists. split; [reflexivity|]. split; [reflexivity|]. apply imp_flat. apply operation_imp.
      + rewrite balances_eq. exists (balances n). split; [cbn; tauto|apply SB].
      + exists (Some (kvl (filter passive (assets n)))). split; [cbn; tauto|]. right. do 2 eexists. split; [reflexivity|]. split; [reflexivity|]. exact (ln_cycles _ _ _ H x).
      + rewrite storage_eq. exists (Some (storage_units n)). split; [cbn; tauto|apply SB].
      + rewrite stores_eq. exists (Some (stores n)). split; [cbn; tauto|apply SB].
      + exists (Some (supplies n)). split; [cbn; tauto|]. right. do 2 eexists. split; [reflexivity|]. split; [reflexivity|]. apply supplies_imp.
      + rewrite losses_eq by (cbn; tauto). exists (losses n "Line"). split; [cbn; tauto|apply SB].
      + rewrite losses_eq by (cbn; tauto). exists (losses n "Transformer"). split; [cbn; tauto|apply SB].
    - apply in_map_iff in J. destruct J as (l' & <- & J). destruct (ln_limits _ _ _ H l' J) as (l & Jl & L). exists (limit_rows n l). split; [|right; now apply limit_imp]. apply in_or_app. right. apply in_or_app. left. now apply in_map.
    - apply in_map_iff in J. destruct J as (c' & <- & J). destruct (ln_columns _ _ _ H c' J) as (c & Jc & L). exists (column_rows n c). split; [|right; now apply column_imp]. apply in_or_app. right. apply in_or_app. right. now apply in_map. }
  assert (NN : ~ In None (parts kvl n)) by (rewrite <- OrderProofs.collect_none; congruence).
  destruct (collect (parts kvl n')) as [cs'|] eqn:E'.
  - exists cs'. split; [reflexivity|]. unfold imp. rewrite !IdleProofs.sat_problem. intros S c Jc HT. apply (OrderProofs.collect_mem _ _ E') in Jc. destruct Jc as (p' & Jp & Jc). destruct (PA _ Jp) as (o & Jo & [->|(p & p'' & -> & E2 & W)]); [exfalso; now apply NN|]. injection E2 as <-.
    unfold imp in W. rewrite !IdleProofs.sat_problem in W. apply W; auto. intros d Jd. apply S. apply (OrderProofs.collect_mem _ _ E). eauto.
  - exfalso. apply OrderProofs.collect_none in E'. destruct (PA _ E') as (o & Jo & [->|(p & p' & _ & E2 & _)]); [now apply NN|discriminate E2].
Qed.
End L.
Lemma capacities kvl n x cs : create_model kvl n = Some cs -> sat x (CapModel.problem cs) -> forall c at_ a, In (c, at_) nominal_attrs -> In a (assets n) -> cls a = c -> ext a = true -> 0 <= nom_min a -> 0 <= x ((c ++ "-" ++ at_)%string, O, nm a).
Proof.
  intros E S c at_ a N J C X M. apply (cap_nonneg n x c at_ a); auto; [|apply filter_In; split; [exact J|now apply String.eqb_eq]]. rewrite IdleProofs.sat_problem in *. intros r Jr. apply S. apply (OrderProofs.collect_mem _ _ E). exists (capacity n). split; [cbn; tauto|].
  apply in_flat_map. exists (c, at_). split; [exact N|exact Jr].
Qed.
Lemma feasible_looser kvl n n' x : looser kvl n n' -> feasible kvl n x -> feasible kvl n' x.
Proof.
  intros H (cs & E & S & D). destruct (rows_imp kvl n n' x H D (capacities kvl n x cs E S) cs E) as (cs' & E' & W). exists cs'. split; [exact E'|]. split; [now apply W|]. eapply domains'; eauto.
Qed.
Lemma cost_looser kvl n n' x : looser kvl n n' -> cost n' x = cost n x.
Proof.
  intros H. unfold cost, define_objective, o_net. rewrite (nsnaps' kvl n n' H). destruct (ln_data _ _ _ H) as (_ & _ & _ & -> & _). rewrite (objective2 (map o_view (assets n)) (map o_view (assets n'))); [reflexivity|].
  eapply o_pairs, all2, H.
Qed.
Lemma optimum_looser kvl n n' x y q q' : looser kvl n n' -> feasible kvl n x -> cost n x = Some q -> optimal kvl n' y -> cost n' y = Some q' -> q' <= q.
Proof.
  intros H F E (_ & p & Ep & B) E'. rewrite Ep in E'. injection E' as <-. apply (B x q); [now apply (feasible_looser kvl n)|]. now rewrite (cost_looser kvl n n' x H).
Qed.
Lemma still_optimal kvl n n' x : looser kvl n n' -> optimal kvl n' x -> feasible kvl n x -> optimal kvl n x.
Proof.
  intros H (_ & q & E & B) F. split; [exact F|]. exists q. split; [now rewrite <- (cost_looser kvl n n' x H)|]. intros y q' FY EY. apply (B y q'); [now apply (feasible_looser kvl n)|]. now rewrite (cost_looser kvl n n' y H).
Qed.
