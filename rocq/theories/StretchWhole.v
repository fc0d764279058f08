From Coq Require Import List String Bool QArith ZArith Arith Lia Lqa.
From Verif Require Import LinModel WholeModel IdleSpec OrderSpec StretchSpec StretchProofs StretchParts.
From Verif Require DispatchModel RampModel CommitModel BalanceModel StorageModel LimitModel CapModel LossModel ObjectiveModel OrderProofs.
Import ListNotations.
Open Scope string_scope.
Open Scope list_scope.
Open Scope Q_scope.

Section P.
Variables (rep : nat -> nat) (T : nat) (wo wg ws : nat -> Q) (n : net).
Hypothesis G : groups rep T wo wg n.
Hypothesis D : decoupled n.
Notation st := (stretch rep).
Notation fine := (stretched rep T wo wg ws n).
Notation N := (nsnaps n).
Notation inst := (inst rep T n).

(* limits on sums over snapshots *)
Lemma sumrow_app l l' r r' s q q' : sumrow rep T wo {| lhs := l; sns := s; rhs := q |} {| lhs := l'; sns := s; rhs := q |} ->
  sumrow rep T wo {| lhs := r; sns := s; rhs := q' |} {| lhs := r'; sns := s; rhs := q' |} ->
  forall q1, sumrow rep T wo {| lhs := l ++ r; sns := s; rhs := q1 |} {| lhs := l' ++ r'; sns := s; rhs := q1 |}.
Proof.
  intros (H1 & _ & _ & H2 & H3) (K1 & _ & _ & K2 & K3) q1. unfold sumrow, CapModel.has_term in *. cbn [lhs sns rhs] in *. rewrite !existsb_app.
  split; [exact (f_equal2 orb H1 K1)|]. split; [reflexivity|]. split; [reflexivity|]. split; [intros y; rewrite !eval_app, H2, K2; reflexivity|intros x; rewrite !eval_app, H3, K3; reflexivity].
Qed.
Lemma sumrow_nil s q : sumrow rep T wo {| lhs := []; sns := s; rhs := q |} {| lhs := []; sns := s; rhs := q |}.
Proof. apply sumrow_untimed. apply un_nil. Qed.
Lemma sumrow_flat {A} (l : list A) (f g : A -> lin) s q : (forall a, In a l -> sumrow rep T wo {| lhs := f a; sns := s; rhs := q |} {| lhs := g a; sns := s; rhs := q |}) ->
  sumrow rep T wo {| lhs := flat_map f l; sns := s; rhs := q |} {| lhs := flat_map g l; sns := s; rhs := q |}.
Proof.
  induction l as [|a r IH]; intros H; [apply sumrow_nil|]. cbn [flat_map]. apply (sumrow_app _ _ _ _ _ q q); [apply H; now left|apply IH; intros b J; apply H; now right].
Qed.
Lemma limit_row em (coef coef' : LimitModel.gen -> nat -> Q) (k : asset -> nat -> Q) g attr :
  (forall a t, (t < T)%nat -> coef (g_view (st a)) t == k a (rep t) * wg t) -> (forall a s, (s < N)%nat -> coef' (g_view a) s == k a s * w_gen n s) ->
  ogood rep T wo (rows_of (LimitModel.limit_con (lim_net fine attr) em coef g (seq 0 T))) (rows_of (LimitModel.limit_con (lim_net n attr) em coef' g (seq 0 N))).
Proof.
  intros C C'. unfold LimitModel.limit_con, LimitModel.my_units, LimitModel.my_stores, LimitModel.my_gens, LimitModel.gen_terms, LimitModel.my_gens.
  cbn [lim_net LimitModel.units LimitModel.stores LimitModel.gens]. rewrite !(class_fine rep), (no_class n D "StorageUnit"), (no_class n D "Store") by reflexivity.
  cbn [map filter LimitModel.nonempty LimitModel.sto_terms LimitModel.initial_of fold_right]. rewrite !orb_false_r, !app_nil_r.
  rewrite (map_map st g_view), !filter_maps.
  change (fun a => LimitModel.concerned em (LimitModel.g_carrier (g_view (st a)))) with (fun a => LimitModel.concerned em (LimitModel.g_carrier (g_view a))).
  set (L := filter _ _). assert (E : LimitModel.nonempty (map (fun a => g_view (st a)) L) = LimitModel.nonempty (map g_view L)) by now destruct L. rewrite E. clear E.
  destruct (LimitModel.nonempty _); [|apply good_nil]. cbn [rows_of ogood]. apply good_sum. constructor; [|constructor]. rewrite !flat_map_map.
  apply sumrow_flat. intros a _. unfold LimitModel.gen_var. cbn [g_view LimitModel.g_active LimitModel.g_name LimitModel.g_carrier]. unfold on. cbn [stretch flag nm carrier].
  unfold sumrow, CapModel.has_term. cbn [lhs sns rhs]. split; [apply (series_term rep T wo wg n G)|]. split; [reflexivity|]. split; [reflexivity|].
  set (e := LimitModel.em_of em (carrier a)).
  assert (H : forall t, (t < T)%nat -> e * coef (g_view (st a)) t == (e * k a (rep t)) * wg t) by (intros t L'; rewrite C by exact L'; ring).
  assert (H' : forall s, (s < N)%nat -> e * coef' (g_view a) s == (e * k a s) * w_gen n s) by (intros s L'; rewrite C' by exact L'; ring).
  split; [intros y|intros x].
  - apply (series_row rep T wo wg n G y y (fun s => e * k a s) (fun t => e * coef (g_view (st a)) t) (fun s => e * coef' (g_view a) s) "Generator-p" (nm a) (flag a) wg (w_gen n)); [apply adds_gen; exact G|reflexivity|exact H|exact H'].
  - apply (series_row rep T wo wg n G x x (fun s => e * k a s) (fun t => e * coef (g_view (st a)) t) (fun s => e * coef' (g_view a) s) "Generator-p" (nm a) (flag a) wg (w_gen n)); [apply adds_gen; exact G|reflexivity|exact H|exact H'].
Qed.
Lemma k_same : k_net fine = k_net n.
Proof. unfold k_net. cbn [stretched assets]. rewrite map_map. reflexivity. Qed.
Lemma nominal_untimed ca : In ca CapModel.nominal -> timed (CapModel.vname (fst ca) (snd ca)) = false.
Proof. cbn [CapModel.nominal In]. intros H. repeat destruct H as [<-|H]; try reflexivity. destruct H. Qed.
Lemma ogood_static o : (forall cs c, o = Some cs -> In c cs -> untimed (lhs c)) -> ogood rep T wo o o.
Proof.
  intros H. destruct o as [cs|]; [|exact Logic.I]. apply good_sum. specialize (H cs). induction cs as [|c r IH]; [constructor|].
  constructor; [apply sumrow_untimed, (H c); [reflexivity|now left]|]. apply IH. intros d _ J. apply (H d); [reflexivity|now right].
Qed.
Lemma un_map {A} (c : A -> Q) (i : A -> string) v u l : timed v = false -> untimed (map (fun a => (c a, Some (v, u, i a))) l).
Proof. intros H q a t j J. apply in_map_iff in J. destruct J as (b & E & _). injection E as _ <- _ _. exact H. Qed.
Lemma un_flat {A} (f : A -> lin) l : (forall a, In a l -> untimed (f a)) -> untimed (flat_map f l).
Proof. intros H q a t j J. apply in_flat_map in J. destruct J as (b & Jb & J). now apply (H b Jb q a t j). Qed.
Lemma some_inj {A} (a b : A) : Some a = Some b -> a = b.
Proof. now intros [= ->]. Qed.
Lemma transmission_untimed m g pres coef cs c : rows (CapModel.transmission m g pres coef) = Some cs -> In c cs -> untimed (lhs c).
Proof.
  unfold CapModel.transmission. destruct (existsb _ _); [|intros E; injection E as <-; intros []]. destruct (CapModel.bad_period _ _); [discriminate|]. intros E. apply some_inj in E. subst cs.
  intros [<-|[]]. cbn [lhs]. apply un_flat. intros ca J. destruct (pres (fst ca)); [|apply un_nil]. unfold CapModel.t_terms, CapModel.nom_label. apply un_map.
  apply nominal_untimed. cbn [CapModel.branches In] in J. cbn [CapModel.nominal In]. tauto.
Qed.
Lemma limit_good l : ogood rep T wo (limit_rows fine l) (limit_rows n l).
Proof.
  destruct l as [attr s q|c s q|cs s q|cs s q]; cbn [limit_rows].
  - unfold LimitModel.primary_energy. cbn [LimitModel.selected LimitModel.inv_period]. change (LimitModel.nsnaps (lim_net fine attr)) with T. change (LimitModel.nsnaps (lim_net n attr)) with N.
    change (LimitModel.emissions (lim_net fine attr)) with (LimitModel.emissions (lim_net n attr)). destruct (LimitModel.nonempty (LimitModel.emissions _)); [|apply good_nil].
    apply (limit_row _ _ _ (fun a t => / eff a t)).
    + intros a t _. cbn [lim_net LimitModel.weight g_view LimitModel.g_eff stretched w_gen stretch eff]. unfold again, Qdiv. ring.
    + intros a t _. cbn [lim_net LimitModel.weight g_view LimitModel.g_eff]. unfold Qdiv. ring.
  - unfold LimitModel.operational_limit. cbn [LimitModel.selected LimitModel.inv_period]. change (LimitModel.nsnaps (lim_net fine c)) with T. change (LimitModel.nsnaps (lim_net n c)) with N.
    apply (limit_row _ _ _ (fun _ _ => 1)); intros a t _; cbn [lim_net LimitModel.weight stretched w_gen]; ring.
  - rewrite k_same. apply ogood_static. intros cs' c'. unfold CapModel.volume_limit. apply transmission_untimed.
  - rewrite k_same. apply ogood_static. intros cs' c'. unfold CapModel.cost_limit. destruct (_ && _); [discriminate|]. apply transmission_untimed.
Qed.
Lemma column_good col : ogood rep T wo (column_rows fine col) (column_rows n col).
Proof.
  unfold column_rows. rewrite k_same. cbn [stretched carriers buses]. apply ogood_static. intros cs c. unfold CapModel.bus_column. destruct (CapModel.parse _ _ _ _) as [s k p| |]; [|intros E; injection E as <-; intros []|discriminate].
  intros E. apply some_inj in E. subst cs. destruct (CapModel.bus_any _ _ _); [|intros []]. intros J. apply in_flat_map in J. destruct J as (b & _ & J). destruct (CapModel.col_val col b); [|destruct J]. destruct J as [<-|[]]. cbn [lhs].
  unfold CapModel.bus_terms. apply un_flat. intros ca Jc. destruct (_ && _); [|apply un_nil]. unfold CapModel.nom_label. apply un_map. now apply nominal_untimed.
Qed.

Variable cycles : list asset -> list (list (Q * (string * string))).
Hypothesis CY : cycles_ok rep cycles.
Lemma model_good : ogood rep T wo (create_model (kirchhoff cycles T) fine) (create_model (kirchhoff cycles N) n).
Proof.
  unfold create_model. apply ogood_collect. unfold parts. destruct (no_storage rep T wo wg ws n D) as (E1 & E2 & E3 & E4). rewrite E1, E2, E3, E4.
  apply Forall2_app; [|apply Forall2_app].
  - apply Forall2_cons; [apply (good_inst rep T wo wg n G), (capacity_inst rep T wo wg ws n)|].
    apply Forall2_cons; [apply (good_inst rep T wo wg n G), (operation_inst rep T wo wg ws n G D)|].
    apply Forall2_cons; [apply (balances_good rep T wo wg ws n G D)|].
    apply Forall2_cons; [now apply (kvl_good rep T wo wg ws n G)|].
    apply Forall2_cons; [apply good_nil|].
    apply Forall2_cons; [apply good_nil|].
    apply Forall2_cons; [apply (supplies_good rep T wo wg ws n G)|].
    apply Forall2_cons; [apply (losses_good rep T wo wg ws n G); now left|].
    apply Forall2_cons; [apply (losses_good rep T wo wg ws n G); now right|]. constructor.
  - cbn [stretched limits]. induction (limits n) as [|l r IH]; constructor; [apply limit_good|exact IH].
  - cbn [stretched columns]. induction (columns n) as [|l r IH]; constructor; [apply column_good|exact IH].
Qed.

(* objective *)
Notation rp := (repeated rep).
Notation av := (averaged rep T wo).
Definition prel (p q : ObjectiveModel.piece) : Prop :=
  match p, q with
  | ObjectiveModel.Linear l, ObjectiveModel.Linear l' => (forall y, eval (rp y) l == eval y l') /\ forall x, eval (av x) l' == eval x l
  | ObjectiveModel.Square l, ObjectiveModel.Square l' =>
      (forall y, ObjectiveModel.square (rp y) l == ObjectiveModel.square y l') /\ (convex n -> forall x, ObjectiveModel.square (av x) l' <= ObjectiveModel.square x l)
  | ObjectiveModel.Missing, ObjectiveModel.Missing => True
  | _, _ => False
  end.
Notation ov := (fun a => o_view (st a)).
Lemma o_cls c : ObjectiveModel.cls (o_net fine) c = map ov (of_class n c).
Proof. unfold ObjectiveModel.cls. cbn [o_net ObjectiveModel.assets stretched assets]. rewrite map_map, filter_maps. reflexivity. Qed.
Lemma o_cls' c : ObjectiveModel.cls (o_net n) c = map o_view (of_class n c).
Proof. unfold ObjectiveModel.cls. cbn [o_net ObjectiveModel.assets]. rewrite filter_maps. reflexivity. Qed.
Lemma o_ext c : ObjectiveModel.ext (o_net fine) c = map ov (filter ext (of_class n c)).
Proof. unfold ObjectiveModel.ext. rewrite o_cls, filter_maps. reflexivity. Qed.
Lemma o_ext' c : ObjectiveModel.ext (o_net n) c = map o_view (filter ext (of_class n c)).
Proof. unfold ObjectiveModel.ext. rewrite o_cls', filter_maps. reflexivity. Qed.
Lemma com_none c : filter com (of_class n c) = [].
Proof.
  assert (H : forall a, In a (of_class n c) -> com a = false) by (intros a J; apply class_in in J; now apply (com_off n D)).
  induction (of_class n c) as [|a r IH]; [reflexivity|]. cbn [filter]. rewrite H by now left. apply IH. intros b J. apply H. now right.
Qed.
Lemma o_com c : ObjectiveModel.com (o_net fine) c = [].
Proof. unfold ObjectiveModel.com. rewrite o_cls, filter_maps. change (fun a => ObjectiveModel.a_com (o_view (st a))) with com. now rewrite com_none. Qed.
Lemma o_com' c : ObjectiveModel.com (o_net n) c = [].
Proof. unfold ObjectiveModel.com. rewrite o_cls', filter_maps. change (fun a => ObjectiveModel.a_com (o_view a)) with com. now rewrite com_none. Qed.
Lemma standby_none : ObjectiveModel.standby (o_net fine) = [] /\ ObjectiveModel.standby (o_net n) = [].
Proof. unfold ObjectiveModel.standby. cbn [flat_map]. now rewrite !o_com, !o_com'. Qed.
Lemma switching_none attr f : ObjectiveModel.switching (o_net fine) attr f = [] /\ ObjectiveModel.switching (o_net n) attr f = [].
Proof. unfold ObjectiveModel.switching. cbn [flat_map]. now rewrite !o_com, !o_com'. Qed.
Lemma fold_map {A B} (f : B -> Q -> Q) (u : A -> B) q l : fold_right f q (map u l) = fold_right (fun a => f (u a)) q l.
Proof. induction l as [|a r IH]; [reflexivity|]. cbn [map fold_right]. now rewrite IH. Qed.
Lemma constant_same : ObjectiveModel.constant (o_net fine) = ObjectiveModel.constant (o_net n).
Proof.
  unfold ObjectiveModel.constant. induction ObjectiveModel.nominal as [|ca r IH]; [reflexivity|]. cbn [fold_right]. rewrite IH. f_equal. rewrite o_ext, o_ext', !fold_map. reflexivity.
Qed.
Lemma investment_same : Forall2 prel (ObjectiveModel.investment (o_net fine)) (ObjectiveModel.investment (o_net n)).
Proof.
  unfold ObjectiveModel.investment. apply F2_maps. intros ca J. rewrite o_ext, o_ext'. set (L := filter ext _).
  assert (E : ObjectiveModel.nonempty (map ov L) = ObjectiveModel.nonempty (map o_view L)) by now destruct L. rewrite E. clear E. destruct (ObjectiveModel.nonempty _); [|constructor].
  constructor; [|constructor]. rewrite !map_map. change (fun a => (ObjectiveModel.annual (o_net fine) (o_view (st a)), ObjectiveModel.nom_label (fst ca) (snd ca) (o_view (st a))))
    with (fun a => (ObjectiveModel.annual (o_net n) (o_view a), ObjectiveModel.nom_label (fst ca) (snd ca) (o_view a))). cbn [prel].
  assert (U : untimed (map (fun a => (ObjectiveModel.annual (o_net n) (o_view a), ObjectiveModel.nom_label (fst ca) (snd ca) (o_view a))) L)).
  { unfold ObjectiveModel.nom_label. apply un_map. now apply nominal_untimed. }
  split; [intros y; now apply eval_untimed|intros x; now apply avg_untimed].
Qed.
Lemma sum_sq (m : Q) f l : sum (fun t => wo t * ((f t - m) * (f t - m))) l == sum (fun t => wo t * (f t * f t)) l - 2 * m * sum (fun t => wo t * f t) l + m * m * sum wo l.
Proof. induction l as [|t r IH]; cbn [sum fold_right]; [ring|]. unfold sum in *. rewrite IH. ring. Qed.
Lemma sum_nonneg f l : (forall t, In t l -> 0 <= f t) -> 0 <= sum f l.
Proof. intros H. rewrite <- (sum_zero l). now apply sum_le. Qed.
Lemma jensen f s : (s < N)%nat -> let m := sum (fun t => wo t * f t) (group rep T s) / sum wo (group rep T s) in
  sum wo (group rep T s) * (m * m) <= sum (fun t => wo t * (f t * f t)) (group rep T s).
Proof.
  intros L m. pose proof (W_pos rep T wo wg n G s L) as P. pose proof (W_nz rep T wo wg n G s L) as Z.
  assert (Q0 : 0 <= sum (fun t => wo t * ((f t - m) * (f t - m))) (group rep T s)).
  { apply sum_nonneg. intros t J. apply in_group in J. pose proof (gr_pos _ _ _ _ _ G t (proj1 J)). apply Qmult_le_0_compat; [lra|]. generalize (f t - m). intros z. nra. }
  rewrite sum_sq in Q0. assert (E : sum (fun t => wo t * f t) (group rep T s) == m * sum wo (group rep T s)) by (unfold m; field; exact Z). rewrite E in Q0. lra.
Qed.
Lemma square_row y x (k C C' : nat -> Q) arr i (f : bool) : timed arr = true ->
  (forall t, (t < T)%nat -> C t == k (rep t) * wo t) -> (forall s, (s < N)%nat -> C' s == k s * w_obj n s) ->
  ObjectiveModel.square (rp y) (map (fun t => (C t, if f then Some (arr, t, i) else None)) (seq 0 T)) == ObjectiveModel.square y (map (fun s => (C' s, if f then Some (arr, s, i) else None)) (seq 0 N)) /\
  ((forall s, (s < N)%nat -> 0 <= k s) ->
   ObjectiveModel.square (av x) (map (fun s => (C' s, if f then Some (arr, s, i) else None)) (seq 0 N)) <= ObjectiveModel.square x (map (fun t => (C t, if f then Some (arr, t, i) else None)) (seq 0 T))).
Proof.
  intros TM H H'. destruct f.
  - split.
    + rewrite !square_series. cbn [val].
      rewrite (sum_ext _ (fun t => k (rep t) * wo t * (y (arr, rep t, i) * y (arr, rep t, i)))).
      * rewrite (series_rep rep T wo wg n G wo (w_obj n) (adds_obj rep T wo wg n G) k (fun s => y (arr, s, i) * y (arr, s, i))). apply sum_ext. intros s J. apply in_seq in J. rewrite H' by lia. reflexivity.
      * intros t J. apply in_seq in J. rewrite H by lia. cbn [repeated]. now rewrite TM.
    + intros K. rewrite !square_series. cbn [val]. rewrite (sum_groups rep T N) by apply (gr_in _ _ _ _ _ G). apply sum_le. intros s J. apply in_seq in J. assert (L : (s < N)%nat) by lia.
      rewrite H' by exact L. cbn [averaged]. rewrite TM. rewrite (gr_obj _ _ _ _ _ G s L).
      pose proof (jensen (fun t => x (arr, t, i)) s L) as JE. cbn zeta in JE. specialize (K s L).
      assert (E : sum (fun t => C t * (x (arr, t, i) * x (arr, t, i))) (group rep T s) == k s * sum (fun t => wo t * (x (arr, t, i) * x (arr, t, i))) (group rep T s)).
      { rewrite <- sum_scale. apply sum_ext. intros t Jt. apply in_group in Jt. destruct Jt as [Lt <-]. rewrite H by exact Lt. ring. }
      rewrite E, <- Qmult_assoc, (Qmult_comm (k s)), (Qmult_comm (k s)). apply Qmult_le_compat_r; [exact JE|exact K].
  - assert (Z : forall z (F : nat -> Q) l, ObjectiveModel.square z (map (fun t => (F t, @None var)) l) == 0).
    { intros z F l. induction l as [|t r IH]; [reflexivity|]. cbn [map ObjectiveModel.square val]. rewrite IH. ring. }
    split; [now rewrite !Z|]. intros _. rewrite !Z. apply Qle_refl.
Qed.
Section Op.
Variables (f : ObjectiveModel.asset -> nat -> Q) (k : asset -> nat -> Q).
Hypothesis F : forall a t, f (o_view a) t = k a t.
Hypothesis F' : forall a t, f (o_view (st a)) t = k a (rep t).
Lemma charged_same a : ObjectiveModel.charged (o_net fine) f (o_view (st a)) = ObjectiveModel.charged (o_net n) f (o_view a).
Proof.
  unfold ObjectiveModel.charged. cbn [o_net ObjectiveModel.nsnaps stretched nsnaps]. rewrite <- (exists_stretch rep T wo wg n G (fun t => negb (Qeq_bool (f (o_view a) t) 0))).
  apply OrderProofs.existsb_cong. intros t. now rewrite F', F.
Qed.
Lemma terms_rel c attr L : timed (ObjectiveModel.vname c attr) = true ->
  (ObjectiveModel.is_spill (ObjectiveModel.vname c attr) = false) -> (forall a, In a L -> In a (assets n)) ->
  prel (ObjectiveModel.Linear (ObjectiveModel.terms (o_net fine) f (ObjectiveModel.op_label c attr) (map ov L))) (ObjectiveModel.Linear (ObjectiveModel.terms (o_net n) f (ObjectiveModel.op_label c attr) (map o_view L))) /\
  ((convex n -> forall a t, In a L -> 0 <= k a t) ->
   prel (ObjectiveModel.Square (ObjectiveModel.terms (o_net fine) f (ObjectiveModel.op_label c attr) (map ov L))) (ObjectiveModel.Square (ObjectiveModel.terms (o_net n) f (ObjectiveModel.op_label c attr) (map o_view L)))).
Proof.
  intros TM SP _. unfold ObjectiveModel.terms. rewrite !flat_map_map. unfold ObjectiveModel.op_label. rewrite SP. set (arr := ObjectiveModel.vname c attr) in *.
  cbn [o_net ObjectiveModel.nsnaps ObjectiveModel.weighting ObjectiveModel.multi ObjectiveModel.w_snap stretched nsnaps w_obj].
  assert (A : forall a, (fun t => (f (o_view (st a)) t * wo t, if ObjectiveModel.a_on (o_view (st a)) t && true then Some (arr, t, ObjectiveModel.a_name (o_view (st a))) else None)) = (fun t => (f (o_view (st a)) t * wo t, if flag a && true then Some (arr, t, nm a) else None))) by reflexivity.
  assert (A' : forall a, (fun t => (f (o_view a) t * w_obj n t, if ObjectiveModel.a_on (o_view a) t && true then Some (arr, t, ObjectiveModel.a_name (o_view a)) else None)) = (fun t => (f (o_view a) t * w_obj n t, if flag a && true then Some (arr, t, nm a) else None))) by reflexivity.
  assert (C : forall a t, (t < T)%nat -> f (o_view (st a)) t * wo t == k a (rep t) * wo t) by (intros; now rewrite F').
  assert (C' : forall a t, (t < N)%nat -> f (o_view a) t * w_obj n t == k a t * w_obj n t) by (intros; now rewrite F).
  split; [split; [intros y|intros x]|intros K; split; [intros y|intros CV x]].
  - induction L as [|a r IH]; [reflexivity|]. cbn [flat_map]. rewrite !eval_app, IH. apply Qplus_comp; [|reflexivity]. rewrite A, A'.
    apply (series_row rep T wo wg n G y y (k a) _ _ arr (nm a) (flag a && true) wo (w_obj n)); [now apply adds_obj with wg|exact TM|apply C|apply C'].
  - induction L as [|a r IH]; [reflexivity|]. cbn [flat_map]. rewrite !eval_app, IH. apply Qplus_comp; [|reflexivity]. rewrite A, A'.
    apply (series_row rep T wo wg n G x x (k a) _ _ arr (nm a) (flag a && true) wo (w_obj n)); [now apply adds_obj with wg|exact TM|apply C|apply C'].
  - clear K. induction L as [|a r IH]; [reflexivity|]. cbn [flat_map]. rewrite !square_app, IH. apply Qplus_comp; [|reflexivity]. rewrite A, A'.
    apply (square_row y y (k a) _ _ arr (nm a) (flag a && true)); [exact TM|apply C|apply C'].
  - specialize (K CV). induction L as [|a r IH]; [apply Qle_refl|]. cbn [flat_map]. rewrite !square_app. apply Qplus_le_compat; [|apply IH; intros b t J; apply K; now right]. rewrite A, A'.
    apply (square_row x x (k a) _ _ arr (nm a) (flag a && true)); [exact TM|apply C|apply C'|]. intros t _. apply K. now left.
Qed.
Lemma operation_none rows : (forall ca, In ca rows -> of_class n (fst ca) = []) -> forall sq, ObjectiveModel.operation (o_net fine) sq f rows = [] /\ ObjectiveModel.operation (o_net n) sq f rows = [].
Proof.
  intros H sq. unfold ObjectiveModel.operation. induction rows as [|ca r IH]; [split; reflexivity|]. cbn [flat_map]. rewrite o_cls, o_cls', (H ca) by now left. cbn [map filter ObjectiveModel.nonempty app].
  apply IH. intros cb J. apply H. now right.
Qed.
Lemma operation_rel sq : (sq = ObjectiveModel.Linear \/ (sq = ObjectiveModel.Square /\ (convex n -> forall a t, In a (assets n) -> 0 <= k a t))) ->
  Forall2 prel (ObjectiveModel.operation (o_net fine) sq f ObjectiveModel.of_marginal) (ObjectiveModel.operation (o_net n) sq f ObjectiveModel.of_marginal).
Proof.
  intros K. change ObjectiveModel.of_marginal with ([("Generator", "p"); ("Link", "p")] ++ [("Store", "p"); ("StorageUnit", "p_dispatch")]).
  assert (SPL : forall m r r', ObjectiveModel.operation m sq f (r ++ r') = ObjectiveModel.operation m sq f r ++ ObjectiveModel.operation m sq f r').
  { intros m r r'. unfold ObjectiveModel.operation. induction r as [|e r0 IH]; [reflexivity|]. cbn [app flat_map]. now rewrite IH, app_assoc. }
  rewrite !SPL. destruct (operation_none [("Store", "p"); ("StorageUnit", "p_dispatch")]) with (sq := sq) as [-> ->].
  { intros ca [<-|[<-|[]]]; apply (no_class n D); reflexivity. }
  rewrite !app_nil_r. unfold ObjectiveModel.operation. apply F2_maps. intros ca J. rewrite o_cls, o_cls', !filter_maps.
  rewrite (filter_ext _ (fun a => ObjectiveModel.charged (o_net n) f (o_view a)) charged_same). set (L := filter _ _).
  assert (E : ObjectiveModel.nonempty (map ov L) = ObjectiveModel.nonempty (map o_view L)) by now destruct L. rewrite E. clear E. destruct (ObjectiveModel.nonempty _); [|constructor].
  constructor; [|constructor].
  assert (SP : ObjectiveModel.is_spill (ObjectiveModel.vname (fst ca) (snd ca)) = false) by (destruct J as [<-|[<-|[]]]; reflexivity).
  assert (TM : timed (ObjectiveModel.vname (fst ca) (snd ca)) = true) by (destruct J as [<-|[<-|[]]]; reflexivity).
  assert (EA : ObjectiveModel.exists_array (o_net fine) (fst ca) (snd ca) = ObjectiveModel.exists_array (o_net n) (fst ca) (snd ca)).
  { unfold ObjectiveModel.exists_array. rewrite SP, o_cls, o_cls'. now destruct (of_class n (fst ca)). }
  rewrite EA. clear EA. destruct (ObjectiveModel.exists_array _ _ _); [|exact Logic.I].
  assert (LI : forall a, In a L -> In a (assets n)) by (intros a Ja; apply filter_In in Ja; destruct Ja as [Ja _]; now apply class_in in Ja).
  destruct (terms_rel (fst ca) (snd ca) L TM SP LI) as [R1 R2]. destruct K as [-> | [-> K]]; [exact R1|apply R2]. intros CV a t Ja. apply K; auto.
Qed.
End Op.
Lemma pieces_rel : Forall2 prel (ObjectiveModel.pieces (o_net fine)) (ObjectiveModel.pieces (o_net n)).
Proof.
  unfold ObjectiveModel.pieces. rewrite constant_same. destruct standby_none as [-> ->].
  destruct (switching_none "start_up" ObjectiveModel.a_start) as [-> ->]. destruct (switching_none "shut_down" ObjectiveModel.a_shut) as [-> ->].
  destruct (operation_none ObjectiveModel.a_storage ObjectiveModel.of_storage) with (sq := ObjectiveModel.Linear) as [-> ->]; [intros ca [<-|[<-|[]]]; apply (no_class n D); reflexivity|].
  destruct (operation_none ObjectiveModel.a_spill ObjectiveModel.of_spill) with (sq := ObjectiveModel.Linear) as [-> ->]; [intros ca [<-|[]]; apply (no_class n D); reflexivity|].
  apply Forall2_app; [|apply Forall2_app; [|apply Forall2_app; [constructor|apply Forall2_app; [constructor|apply Forall2_app; [|apply Forall2_app; [constructor|apply Forall2_app; [|constructor]]]]]]].
  - destruct (Qeq_bool _ 0); [constructor|]. constructor; [|constructor]. assert (U : untimed [(- (1), ObjectiveModel.const_label)]) by (apply un_cons; [reflexivity|apply un_nil]).
    split; [intros y; now apply eval_untimed|intros x; now apply avg_untimed].
  - apply (operation_rel ObjectiveModel.a_marginal marginal); [reflexivity|reflexivity|now left].
  - apply (operation_rel ObjectiveModel.a_quadratic quadratic); [reflexivity|reflexivity|]. right. split; [reflexivity|]. intros CV a t J. now apply CV.
  - apply investment_same.
Qed.
Lemma rel_missing ps qs : Forall2 prel ps qs -> existsb ObjectiveModel.is_missing ps = existsb ObjectiveModel.is_missing qs /\ ObjectiveModel.nonempty ps = ObjectiveModel.nonempty qs.
Proof.
  induction 1 as [|p q r r' H _ [IH _]]; [split; reflexivity|]. split; [|reflexivity]. cbn [existsb]. rewrite IH. f_equal. destruct p, q; try reflexivity; destruct H.
Qed.
Lemma rel_rep y ps qs : Forall2 prel ps qs -> ObjectiveModel.value_of (rp y) ps == ObjectiveModel.value_of y qs.
Proof.
  induction 1 as [|p q r r' H _ IH]; [reflexivity|]. unfold ObjectiveModel.value_of in *. cbn [fold_right]. rewrite IH. apply Qplus_comp; [|reflexivity].
  destruct p, q; cbn [ObjectiveModel.piece_value]; try (now destruct H); try reflexivity; apply H.
Qed.
Lemma rel_avg x ps qs : convex n -> Forall2 prel ps qs -> ObjectiveModel.value_of (av x) qs <= ObjectiveModel.value_of x ps.
Proof.
  intros CV. induction 1 as [|p q r r' H _ IH]; [apply Qle_refl|]. unfold ObjectiveModel.value_of in *. cbn [fold_right]. apply Qplus_le_compat; [|exact IH].
  destruct p, q; cbn [ObjectiveModel.piece_value]; try (now destruct H); try apply Qle_refl; cbn in H.
  - destruct H as [_ H]. rewrite H. apply Qle_refl.
  - now apply H.
Qed.
Lemma cost_rep y : same_value (cost fine (rp y)) (cost n y).
Proof.
  unfold cost, define_objective, ObjectiveModel.objective. pose proof pieces_rel as R. destruct (rel_missing _ _ R) as [-> ->]. destruct (existsb _ _); [exact Logic.I|]. destruct (ObjectiveModel.nonempty _); [|exact Logic.I].
  cbn [option_map same_value]. now apply rel_rep.
Qed.
Lemma cost_avg x : convex n -> match cost n (av x), cost fine x with Some q, Some q' => q <= q' | None, None => True | _, _ => False end.
Proof.
  intros CV. unfold cost, define_objective, ObjectiveModel.objective. pose proof pieces_rel as R. destruct (rel_missing _ _ R) as [-> ->]. destruct (existsb _ _); [exact Logic.I|]. destruct (ObjectiveModel.nonempty _); [|exact Logic.I].
  cbn [option_map]. now apply rel_avg.
Qed.

(* bounds *)
Lemma mod_untimed a : In a (assets n) -> timed (cls a ++ "-n_mod") = false.
Proof. intros J. pose proof (dc_classes _ D a J) as K. cbn [In] in K. repeat destruct K as [<-|K]; try reflexivity. destruct K. Qed.
Lemma loss_timed a : passive a = true -> timed (cls a ++ "-loss") = true.
Proof. unfold passive. intros H. apply orb_true_iff in H. destruct H as [H|H]; apply String.eqb_eq in H; rewrite H; reflexivity. Qed.
Lemma no_unit a : In a (assets n) -> cls a <> "StorageUnit".
Proof. intros J E. pose proof (dc_classes _ D a J) as K. rewrite E in K. cbn [In] in K. repeat destruct K as [K|K]; try discriminate. destruct K. Qed.
Lemma domains_rep y : domains n y -> domains fine (rp y).
Proof.
  intros (D1 & _ & _ & D4 & D5). split; [|split; [|split; [|split]]].
  - intros b J E M. apply in_map_iff in J. destruct J as (a & <- & J). destruct (D1 a J E M) as [z Z]. exists z. cbn [stretch cls nm repeated]. now rewrite mod_untimed.
  - intros b J E. apply in_map_iff in J. destruct J as (a & <- & J). change (com (st a)) with (com a) in E. rewrite (com_off n D a J) in E. discriminate.
  - intros b J E. apply in_map_iff in J. destruct J as (a & <- & J). destruct (no_unit a J E).
  - intros b t J P L Lt FL. apply in_map_iff in J. destruct J as (a & <- & J). cbn [stretch cls nm repeated]. rewrite (loss_timed a P). apply (D4 a (rep t) J P L); [|exact FL]. apply (gr_in _ _ _ _ _ G t Lt).
  - intros E. rewrite constant_same in *. exact (D5 E).
Qed.
Lemma domains_avg x : domains fine x -> domains n (av x).
Proof.
  intros (D1 & _ & _ & D4 & D5). split; [|split; [|split; [|split]]].
  - intros a J E M. destruct (D1 (st a) (in_map st _ a J) E M) as [z Z]. exists z. cbn [averaged]. now rewrite mod_untimed.
  - intros a J E. rewrite (com_off n D a J) in E. discriminate.
  - intros a J E. destruct (no_unit a J E).
  - intros a s J P L Ls FL. cbn [averaged]. rewrite (loss_timed a P). apply Qle_shift_div_l; [now apply (W_pos rep T wo wg n G)|]. rewrite Qmult_0_l. apply sum_nonneg. intros t Jt. apply in_group in Jt.
    pose proof (gr_pos _ _ _ _ _ G t (proj1 Jt)). pose proof (D4 (st a) t (in_map st _ a J) P L (proj1 Jt) FL). cbn [stretch cls nm] in *. nra.
  - intros E. rewrite <- constant_same in *. exact (D5 E).
Qed.

Lemma feasible_rep y : feasible (kirchhoff cycles N) n y -> feasible (kirchhoff cycles T) fine (rp y).
Proof.
  intros (cs & E & S & DO). pose proof model_good as M. rewrite E in M. destruct (create_model (kirchhoff cycles T) fine) as [cs'|] eqn:E'; [|destruct M].
  exists cs'. split; [exact E'|]. split; [now apply M|now apply domains_rep].
Qed.
Lemma feasible_avg x : feasible (kirchhoff cycles T) fine x -> feasible (kirchhoff cycles N) n (av x).
Proof.
  intros (cs & E & S & DO). pose proof model_good as M. rewrite E in M. destruct (create_model (kirchhoff cycles N) n) as [cs'|] eqn:E'; [|destruct M].
  exists cs'. split; [exact E'|]. split; [now apply M|now apply domains_avg].
Qed.
Lemma defined_same : create_model (kirchhoff cycles T) fine = None <-> create_model (kirchhoff cycles N) n = None.
Proof. pose proof model_good as M. destruct (create_model (kirchhoff cycles T) fine), (create_model (kirchhoff cycles N) n); cbn in M; split; try discriminate; try reflexivity; destruct M. Qed.
Lemma optimal_rep y : convex n -> optimal (kirchhoff cycles N) n y -> optimal (kirchhoff cycles T) fine (rp y).
Proof.
  intros CV (FE & q & C & O1). split; [now apply feasible_rep|]. pose proof (cost_rep y) as S. rewrite C in S. destruct (cost fine (rp y)) as [q1|]; [|destruct S]. cbn in S.
  exists q1. split; [reflexivity|]. intros x q' FX CX. pose proof (cost_avg x CV) as A. rewrite CX in A. destruct (cost n (av x)) as [q2|] eqn:C2; [|destruct A].
  pose proof (O1 (av x) q2 (feasible_avg x FX) C2). rewrite S. lra.
Qed.
Lemma optimal_avg x : convex n -> optimal (kirchhoff cycles T) fine x -> optimal (kirchhoff cycles N) n (av x).
Proof.
  intros CV (FE & q & C & O1). split; [now apply feasible_avg|]. pose proof (cost_avg x CV) as A. rewrite C in A. destruct (cost n (av x)) as [q1|]; [|destruct A].
  exists q1. split; [reflexivity|]. intros y q' FY CY'. pose proof (cost_rep y) as S. rewrite CY' in S. destruct (cost fine (rp y)) as [q2|] eqn:C2; [|destruct S]. cbn in S.
  pose proof (O1 (rp y) q2 (feasible_rep y FY) C2). rewrite <- S. lra.
Qed.
End P.
