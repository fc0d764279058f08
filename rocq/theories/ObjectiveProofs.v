From Coq Require Import List String Bool QArith ZArith Arith Lqa Lia Setoid.
From Verif Require Import LinModel LinProofs BalanceProofs ObjectiveModel ObjectiveSpec.
Import ListNotations.
Open Scope string_scope.
Open Scope list_scope.
Open Scope Q_scope.

Section O.
Variables (n : net) (x : sol).
Notation ts := (seq 0 (nsnaps n)).
Notation W := (weighting n).

Lemma eval_tot l : eval x l == total (fun cv => fst cv * val x (snd cv)) l.
Proof. induction l as [|[c v] l IH]; [reflexivity|]. cbn [eval]. rewrite IH. reflexivity. Qed.
Lemma square_tot l : square x l == total (fun cv => fst cv * (val x (snd cv) * val x (snd cv))) l.
Proof. induction l as [|[c v] l IH]; [reflexivity|]. cbn [square]. rewrite IH. reflexivity. Qed.
Lemma value_app p q : value_of x (p ++ q) == value_of x p + value_of x q.
Proof. exact (total_app (piece_value x) p q). Qed.

Lemma rows_total {A} (F : A -> asset -> Q) (c : A -> string) rows :
  total (fun r => total (F r) (cls n (c r))) rows == total (fun a => total (fun r => if String.eqb (a_class a) (c r) then F r a else 0) rows) (assets n).
Proof.
  rewrite <- (total_swap (fun r a => if String.eqb (a_class a) (c r) then F r a else 0)). apply total_ext. intros r _. unfold cls. apply total_filter.
Qed.
Lemma missing_flat {A} (f : A -> list piece) l : existsb is_missing (flat_map f l) = false -> forall a, In a l -> existsb is_missing (f a) = false.
Proof.
  induction l as [|b l IH]; intros H a I; [destruct I|]. cbn [flat_map] in H. rewrite existsb_app in H. apply orb_false_iff in H. destruct I as [<-|I]; [tauto|]. apply IH; tauto.
Qed.
Lemma uncharged f a : charged n f a = false -> forall t, In t ts -> f a t == 0.
Proof.
  intros H t I. apply Qeq_bool_iff. destruct (Qeq_bool (f a t) 0) eqn:E; auto. exfalso. unfold charged in H. rewrite <- not_true_iff_false in H. apply H. apply existsb_exists. exists t. rewrite E. auto.
Qed.
Lemma terms_value g (f : asset -> nat -> Q) lab l :
  total (fun cv => fst cv * g (val x (snd cv))) (terms n f lab (filter (charged n f) l)) == total (fun a => total (fun t => f a t * W t * g (val x (lab a t))) ts) l.
Proof.
  unfold terms. rewrite total_flat, total_filter. apply total_ext. intros a _. destruct (charged n f a) eqn:C.
  - rewrite total_map. reflexivity.
  - symmetry. apply total_zero. intros t I. rewrite (uncharged _ _ C t I). ring.
Qed.
Lemma op_value sq (g : Q -> Q) f rows : (forall l, piece_value x (sq l) == total (fun cv => fst cv * g (val x (snd cv))) l) ->
  existsb is_missing (operation n sq f rows) = false ->
  value_of x (operation n sq f rows) ==
    total (fun a => total (fun r => if String.eqb (a_class a) (fst r) then total (fun t => f a t * W t * g (val x (op_label (fst r) (snd r) a t))) ts else 0) rows) (assets n).
Proof.
  intros SQ M. change (value_of x (operation n sq f rows)) with (total (piece_value x) (operation n sq f rows)). unfold operation in *. rewrite total_flat.
  rewrite <- (rows_total (fun r a => total (fun t => f a t * W t * g (val x (op_label (fst r) (snd r) a t))) ts) fst). apply total_ext. intros r I.
  pose proof (missing_flat _ _ M r I) as Mr. cbn zeta in *. rewrite <- terms_value.
  destruct (nonempty (filter (charged n f) (cls n (fst r)))) eqn:E.
  - cbv beta in Mr. rewrite E in Mr. destruct (exists_array n (fst r) (snd r)) eqn:EA; [|discriminate Mr]. cbn [BalanceSpec.total fold_right]. rewrite SQ. ring.
  - destruct (filter (charged n f) (cls n (fst r))); [reflexivity|discriminate].
Qed.
Lemma linear_ok : forall l, piece_value x (Linear l) == total (fun cv => fst cv * (fun q => q) (val x (snd cv))) l.
Proof. exact eval_tot. Qed.
Lemma square_ok : forall l, piece_value x (Square l) == total (fun cv => fst cv * (fun q => q * q) (val x (snd cv))) l.
Proof. exact square_tot. Qed.

Ltac classes a := destruct (String.eqb_spec (a_class a) "Generator") as [E|_]; [rewrite ?E|
  destruct (String.eqb_spec (a_class a) "Link") as [E|_]; [rewrite ?E|
  destruct (String.eqb_spec (a_class a) "Store") as [E|_]; [rewrite ?E|
  destruct (String.eqb_spec (a_class a) "StorageUnit") as [E|_]; [rewrite ?E|]]]].
Lemma lab_at c attr a t : is_spill (vname c attr) = false -> val x (op_label c attr a t) = at_ x a (vname c attr) t.
Proof. intros H. unfold op_label, at_. cbn zeta. rewrite H, andb_true_r. destruct (a_on a t); reflexivity. Qed.

Ltac pointwise := intros a _; cbn [BalanceSpec.total fold_right fst snd of_marginal of_storage of_spill];
  unfold dispatch, stored, spilled, is; cbn [existsb]; rewrite ?orb_false_r;
  classes a; cbn [String.eqb Ascii.eqb Bool.eqb andb]; rewrite ?Qplus_0_l, ?Qplus_0_r;
  solve [ apply total_ext; intros t _; rewrite ?lab_at by reflexivity; unfold vname; cbn [String.append]; ring
        | symmetry; apply total_zero; intros t _; ring ].
Lemma marginal_part : existsb is_missing (operation n Linear a_marginal of_marginal) = false ->
  value_of x (operation n Linear a_marginal of_marginal) == total (fun a => total (fun t => W t * (a_marginal a t * dispatch x a t)) ts) (assets n).
Proof. intros M. rewrite (op_value _ (fun q => q) _ _ linear_ok M). apply total_ext. pointwise. Qed.
Lemma quadratic_part : existsb is_missing (operation n Square a_quadratic of_marginal) = false ->
  value_of x (operation n Square a_quadratic of_marginal) == total (fun a => total (fun t => W t * (a_quadratic a t * (dispatch x a t * dispatch x a t))) ts) (assets n).
Proof. intros M. rewrite (op_value _ (fun q => q * q) _ _ square_ok M). apply total_ext. pointwise. Qed.
Lemma storage_part : existsb is_missing (operation n Linear a_storage of_storage) = false ->
  value_of x (operation n Linear a_storage of_storage) == total (fun a => total (fun t => W t * (a_storage a t * stored x a t)) ts) (assets n).
Proof. intros M. rewrite (op_value _ (fun q => q) _ _ linear_ok M). apply total_ext. pointwise. Qed.
Lemma spill_part : existsb is_missing (operation n Linear a_spill of_spill) = false ->
  value_of x (operation n Linear a_spill of_spill) == total (fun a => total (fun t => W t * (a_spill a t * spilled x a t)) ts) (assets n).
Proof.
  intros M. rewrite (op_value _ (fun q => q) _ _ linear_ok M). apply total_ext. intros a _. cbn [BalanceSpec.total fold_right fst snd of_spill]. unfold spilled, is. cbn [existsb]. rewrite orb_false_r.
  destruct (String.eqb (a_class a) "StorageUnit"); rewrite Qplus_0_r.
  - apply total_ext. intros t _. unfold op_label, at_. cbn [andb vname String.append is_spill String.eqb Ascii.eqb Bool.eqb]. destruct (a_on a t), (positive (a_inflow a t)); cbn [andb val]; ring.
  - symmetry. apply total_zero. intros t _. cbn [andb]. ring.
Qed.

(* committable units *)
Lemma com_total {A} (F : A -> asset -> Q) (c : A -> string) rows :
  total (fun r => total (F r) (com n (c r))) rows == total (fun a => total (fun r => if String.eqb (a_class a) (c r) then if a_com a then F r a else 0 else 0) rows) (assets n).
Proof. rewrite <- (rows_total (fun r a => if a_com a then F r a else 0)). apply total_ext. intros r _. unfold com. apply total_filter. Qed.
Ltac units := intros a _; cbn [BalanceSpec.total fold_right]; unfold unit_value, is; cbn [existsb]; rewrite ?orb_false_r;
  classes a; cbn [String.eqb Ascii.eqb Bool.eqb andb]; rewrite ?Qplus_0_l, ?Qplus_0_r; destruct (a_com a);
  solve [ apply total_ext; intros t _; rewrite ?lab_at by reflexivity; unfold vname; cbn [String.append]; ring
        | symmetry; apply total_zero; intros t _; ring ].
Lemma standby_part : value_of x (standby n) == total (fun a => total (fun t => W t * (a_standby a t * unit_value x "status" a t)) ts) (assets n).
Proof.
  change (value_of x (standby n)) with (total (piece_value x) (standby n)). unfold standby. rewrite total_flat.
  rewrite (total_ext _ (fun c => total (fun a => total (fun t => a_standby a t * W t * val x (op_label c "status" a t)) ts) (com n c))).
  - rewrite (com_total (fun c a => total (fun t => a_standby a t * W t * val x (op_label c "status" a t)) ts) (fun c => c)). apply total_ext. units.
  - intros c _. rewrite <- (terms_value (fun q => q)). destruct (nonempty (com n c)) eqn:E; [cbn [BalanceSpec.total fold_right]; rewrite linear_ok; ring|]. destruct (com n c); [reflexivity|discriminate].
Qed.

Lemma sum_zero {A} (f : A -> Q) l : (forall a, In a l -> 0 <= f a) -> total f l == 0 -> forall a, In a l -> f a == 0.
Proof.
  induction l as [|b l IH]; intros N Z a I; [destruct I|]. cbn [BalanceSpec.total fold_right] in Z. fold (total f l) in Z.
  assert (0 <= total f l) by (clear - N; induction l as [|c l IH]; [cbn; lra|]; cbn [BalanceSpec.total fold_right]; fold (total f l); pose proof (N c (or_intror (or_introl eq_refl))); assert (0 <= total f l) by (apply IH; intros d [<-|J]; apply N; simpl; auto); lra).
  pose proof (N b (or_introl eq_refl)). destruct I as [<-|I]; [lra|]. apply IH; auto; [intros; apply N; simpl; auto|lra].
Qed.
Lemma switching_part attr (f : asset -> Q) : is_spill (vname "Generator" attr) = false -> is_spill (vname "Link" attr) = false ->
  (forall c, (forall a, In a (com n c) -> f a == 0) \/ ~ total f (com n c) == 0) ->
  value_of x (switching n attr f) == total (fun a => total (fun t => f a * unit_value x attr a t) ts) (assets n).
Proof.
  intros SG SL P. change (value_of x (switching n attr f)) with (total (piece_value x) (switching n attr f)). unfold switching. rewrite total_flat.
  rewrite (total_ext _ (fun c => total (fun a => total (fun t => f a * val x (op_label c attr a t)) ts) (com n c))).
  - rewrite (com_total (fun c a => total (fun t => f a * val x (op_label c attr a t)) ts) (fun c => c)). apply total_ext.
    intros a _; cbn [BalanceSpec.total fold_right]; unfold unit_value, is; cbn [existsb]; rewrite ?orb_false_r.
    classes a; cbn [String.eqb Ascii.eqb Bool.eqb andb]; rewrite ?Qplus_0_l, ?Qplus_0_r; destruct (a_com a);
    solve [ apply total_ext; intros t _; rewrite lab_at by assumption; unfold vname; cbn [String.append]; ring
        | symmetry; apply total_zero; intros t _; ring ].
  - intros c _. change (fold_right (fun a q => f a + q) 0 (com n c)) with (total f (com n c)). destruct (Qeq_bool (total f (com n c)) 0) eqn:E.
    + apply Qeq_bool_iff in E. destruct (P c) as [Z|Z]; [|contradiction]. cbn. symmetry. apply total_zero. intros a I. apply total_zero. intros t _. rewrite (Z a I). ring.
    + cbn [BalanceSpec.total fold_right piece_value]. rewrite eval_tot, total_flat, Qplus_0_r. apply total_ext. intros a _. rewrite total_map. reflexivity.
Qed.
Lemma proper_sum f : proper n f -> forall c, (forall a, In a (com n c) -> f a == 0) \/ ~ total f (com n c) == 0.
Proof.
  intros P c. destruct (Qeq_bool (total f (com n c)) 0) eqn:E; [left|right].
  - apply Qeq_bool_iff in E. apply sum_zero; auto. intros a I. apply P. unfold com, cls in I. apply filter_In in I. destruct I as [I _]. apply filter_In in I. tauto.
  - intros H. apply Qeq_bool_iff in H. congruence.
Qed.

(* capacities *)
Lemma ext_total {A} (F : A -> asset -> Q) (c : A -> string) rows :
  total (fun r => total (F r) (ext n (c r))) rows == total (fun a => total (fun r => if String.eqb (a_class a) (c r) then if a_ext a then F r a else 0 else 0) rows) (assets n).
Proof. rewrite <- (rows_total (fun r a => if a_ext a then F r a else 0)). apply total_ext. intros r _. unfold ext. apply total_filter. Qed.
Ltac caps K a I := unfold known, is in K; specialize (K a I); cbn [existsb] in K; rewrite ?orb_false_r in K; unfold capacity, is; cbn [existsb]; rewrite ?orb_false_r;
  destruct (String.eqb_spec (a_class a) "Generator") as [E|_]; [rewrite ?E|
  destruct (String.eqb_spec (a_class a) "Line") as [E|_]; [rewrite ?E|
  destruct (String.eqb_spec (a_class a) "Transformer") as [E|_]; [rewrite ?E|
  destruct (String.eqb_spec (a_class a) "Link") as [E|_]; [rewrite ?E|
  destruct (String.eqb_spec (a_class a) "Store") as [E|_]; [rewrite ?E|
  destruct (String.eqb_spec (a_class a) "StorageUnit") as [E|_]; [rewrite ?E|discriminate K]]]]]].
Lemma investment_part : known n -> value_of x (investment n) == total (fun a => if a_ext a then annual n a * capacity x a else 0) (assets n).
Proof.
  intros K. change (value_of x (investment n)) with (total (piece_value x) (investment n)). unfold investment. rewrite total_flat.
  rewrite (total_ext _ (fun r => total (fun a => annual n a * val x (nom_label (fst r) (snd r) a)) (ext n (fst r)))).
  - rewrite (ext_total (fun r a => annual n a * val x (nom_label (fst r) (snd r) a)) fst). apply total_ext. intros a I. cbn [BalanceSpec.total fold_right nominal fst snd].
    caps K a I; cbn [String.eqb Ascii.eqb Bool.eqb andb nom_label val vname String.append]; destruct (a_ext a); ring.
  - intros r _. destruct (nonempty (ext n (fst r))) eqn:E.
    + cbn [BalanceSpec.total fold_right piece_value]. rewrite eval_tot, total_map, Qplus_0_r. reflexivity.
    + destruct (ext n (fst r)); [reflexivity|discriminate].
Qed.
Lemma constant_part : known n -> constant n == total (fun a => if a_ext a then annual n a * a_nom a else 0) (assets n).
Proof.
  intros K. change (constant n) with (total (fun r : string * string => total (fun a => annual n a * a_nom a) (ext n (fst r))) nominal).
  rewrite (ext_total (fun r a => annual n a * a_nom a) fst). apply total_ext. intros a I. cbn [BalanceSpec.total fold_right nominal fst snd].
  caps K a I; cbn [String.eqb Ascii.eqb Bool.eqb andb]; destruct (a_ext a); ring.
Qed.

Lemma objective_pieces ps : objective n = Some ps -> ps = pieces n /\ existsb is_missing (pieces n) = false.
Proof. unfold objective. destruct (existsb is_missing (pieces n)); [discriminate|]. destruct (nonempty (pieces n)); [|discriminate]. intros E. injection E as <-. auto. Qed.

Lemma objective_gen ps : known n -> const_fixed n x ->
  (forall c, (forall a, In a (com n c) -> a_start a == 0) \/ ~ total a_start (com n c) == 0) ->
  (forall c, (forall a, In a (com n c) -> a_shut a == 0) \/ ~ total a_shut (com n c) == 0) ->
  objective n = Some ps ->
  value_of x ps == expansion n x (annual n) + operating n x W + switching_cost n x.
Proof.
  intros K CF PS PD O. destruct (objective_pieces _ O) as [-> M]. unfold pieces in *. rewrite !existsb_app in M. repeat (apply orb_false_iff in M; destruct M as [? M]).
  rewrite !value_app. rewrite marginal_part, storage_part, spill_part, quadratic_part, standby_part, (investment_part K) by assumption.
  rewrite (switching_part "start_up" a_start), (switching_part "shut_down" a_shut) by (auto || reflexivity).
  assert (C : value_of x (if Qeq_bool (constant n) 0 then [] else [Linear [(- (1), const_label)]]) == - constant n).
  { unfold const_fixed in CF. destruct (Qeq_bool (constant n) 0) eqn:E; [apply Qeq_bool_iff in E; rewrite E; reflexivity|]. specialize (CF eq_refl). cbn [value_of fold_right piece_value eval]. rewrite CF. ring. }
  rewrite C, (constant_part K).
  assert (EX : expansion n x (annual n) == total (fun a => if a_ext a then annual n a * capacity x a else 0) (assets n) - total (fun a => if a_ext a then annual n a * a_nom a else 0) (assets n)).
  { unfold expansion. rewrite <- total_minus. apply total_ext. intros a _. unfold capacity. destruct (a_ext a); ring. }
  assert (OP : operating n x W ==
    total (fun a => total (fun t => W t * (a_marginal a t * dispatch x a t)) ts) (assets n) + total (fun a => total (fun t => W t * (a_storage a t * stored x a t)) ts) (assets n) +
    total (fun a => total (fun t => W t * (a_spill a t * spilled x a t)) ts) (assets n) + total (fun a => total (fun t => W t * (a_quadratic a t * (dispatch x a t * dispatch x a t))) ts) (assets n) +
    total (fun a => total (fun t => W t * (a_standby a t * unit_value x "status" a t)) ts) (assets n)).
  { unfold operating, days. rewrite <- !total_plus. rewrite (total_ext (fun t => W t * _) (fun t => total (fun a => W t * running x a t) (assets n))) by (intros t _; now rewrite total_scale).
    rewrite total_swap. apply total_ext. intros a _. rewrite <- !total_plus. apply total_ext. intros t _. unfold running. ring. }
  assert (SW : switching_cost n x == total (fun a => total (fun t => a_start a * unit_value x "start_up" a t) ts) (assets n) + total (fun a => total (fun t => a_shut a * unit_value x "shut_down" a t) ts) (assets n)).
  { unfold switching_cost, days. rewrite total_swap, <- total_plus. apply total_ext. intros a _. rewrite <- total_plus. apply total_ext. intros t _. reflexivity. }
  rewrite EX, OP, SW. ring.
Qed.
Lemma objective_value ps : known n -> const_fixed n x -> proper n a_start -> proper n a_shut -> objective n = Some ps ->
  value_of x ps == expansion n x (annual n) + operating n x W + switching_cost n x.
Proof. intros K CF PS PD O. apply objective_gen; auto; apply proper_sum; auto. Qed.
End O.

Lemma objective_total n x ps : known n -> const_fixed n x -> proper n a_start -> proper n a_shut -> objective n = Some ps ->
  value_of x ps + constant n == total (fun a => if a_ext a then annual n a * capacity x a else 0) (assets n) + operating n x (weighting n) + switching_cost n x.
Proof.
  intros K CF PS PD O. rewrite (objective_value n x ps K CF PS PD O), (constant_part n K).
  assert (EX : expansion n x (annual n) == total (fun a => if a_ext a then annual n a * capacity x a else 0) (assets n) - total (fun a => if a_ext a then annual n a * a_nom a else 0) (assets n)).
  { unfold expansion. rewrite <- total_minus. apply total_ext. intros a _. unfold capacity. destruct (a_ext a); ring. }
  rewrite EX. ring.
Qed.

Lemma pick f k ps : NoDup ps -> In k ps -> total (fun p => if Z.eqb k p then f p else 0) ps == f k.
Proof.
  induction 1 as [|p ps NI ND IH]; intros I; [destruct I|]. cbn [BalanceSpec.total fold_right]. fold (total (fun p => if Z.eqb k p then f p else 0) ps).
  destruct I as [->|I].
  - rewrite Z.eqb_refl, total_zero; [ring|]. intros q J. destruct (Z.eqb_spec k q) as [->|]; [contradiction|reflexivity].
  - destruct (Z.eqb_spec k p) as [->|]; [contradiction|]. rewrite (IH I). ring.
Qed.
Lemma period_sum n x ps ww : multi n = Some (ps, ww) -> NoDup ps -> (forall t, (t < nsnaps n)%nat -> In (per n t) ps) ->
  expansion n x (annual n) + operating n x (weighting n) == total (fun p => ww p * of_period n x (fun a t => w_snap n t * running x a t) p) ps.
Proof.
  intros M ND C. unfold of_period.
  rewrite (total_ext _ (fun p => ww p * total (fun a => if a_in a p then a_capital a * (capacity x a - a_nom a) else 0) (assets n) +
     ww p * total (fun t => if Z.eqb (per n t) p then total (fun a => w_snap n t * running x a t) (assets n) else 0) (days n)) ps) by (intros; ring).
  rewrite total_plus. apply Qplus_comp.
  - unfold expansion. rewrite (total_ext (fun p => ww p * _) (fun p => total (fun a => ww p * (if a_in a p then a_capital a * (capacity x a - a_nom a) else 0)) (assets n))) by (intros; now rewrite total_scale).
    rewrite total_swap. apply total_ext. intros a _. unfold annual. rewrite M. change (fold_right _ 0 ps) with (total (fun p => if a_in a p then ww p else 0) ps).
    rewrite <- Qmult_assoc, Qmult_comm, <- total_scale. apply total_ext. intros p _. destruct (a_in a p); ring.
  - unfold operating. rewrite (total_ext (fun p => ww p * _) (fun p => total (fun t => if Z.eqb (per n t) p then ww p * total (fun a => w_snap n t * running x a t) (assets n) else 0) (days n))).
    2:{ intros p _. rewrite <- total_scale. apply total_ext. intros t _. destruct (Z.eqb (per n t) p); [reflexivity|ring]. }
    rewrite total_swap. apply total_ext. intros t I. apply in_seq in I. rewrite (pick (fun p => ww p * total (fun a => w_snap n t * running x a t) (assets n))) by (auto; apply C; lia).
    unfold weighting. rewrite M, total_scale. ring.
Qed.

Lemma single_horizon n x ps : known n -> const_fixed n x -> proper n a_start -> proper n a_shut -> multi n = None -> objective n = Some ps ->
  value_of x ps == total (fun a => if a_flag a then a_capital a * (capacity x a - a_nom a) else 0) (assets n) +
    total (fun t => w_snap n t * total (fun a => running x a t) (assets n)) (days n) + total (fun t => total (fun a => starts x a t) (assets n)) (days n).
Proof.
  intros K C P1 P2 M O. rewrite (objective_value n x ps K C P1 P2 O). unfold expansion, operating, switching_cost, annual, weighting. rewrite M.
  apply Qplus_comp; [|reflexivity]. apply Qplus_comp; [|reflexivity]. apply total_ext. intros a _. destruct (a_flag a); ring.
Qed.

Lemma nonempty_filter {A} (f : A -> bool) l : nonempty (filter f l) = true <-> exists a, In a l /\ f a = true.
Proof.
  split.
  - destruct (filter f l) as [|a r] eqn:E; [discriminate|]. intros _. exists a. apply filter_In. rewrite E. simpl. auto.
  - intros [a H]. apply filter_In in H. destruct (filter f l); [destruct H|reflexivity].
Qed.
Lemma positive_iff q : positive q = true <-> 0 < q.
Proof. unfold positive. rewrite negb_true_iff, <- not_true_iff_false, Qle_bool_iff. lra. Qed.
Lemma charged_iff n f a : charged n f a = true <-> has_cost n (f a).
Proof.
  unfold charged, has_cost. rewrite existsb_exists. split; intros [t [I H]]; exists t; rewrite in_seq in *.
  - split; [lia|]. apply negb_true_iff in H. intros E. apply Qeq_bool_iff in E. congruence.
  - split; [lia|]. apply negb_true_iff. apply not_true_iff_false. rewrite Qeq_bool_iff. auto.
Qed.
Lemma op_no_missing n sq f rows : (forall l, is_missing (sq l) = false) ->
  (forall r, In r rows -> nonempty (filter (charged n f) (cls n (fst r))) = true -> exists_array n (fst r) (snd r) = true) -> existsb is_missing (operation n sq f rows) = false.
Proof.
  intros S. induction rows as [|r rows IH]; intros H; [reflexivity|]. unfold operation. cbn [flat_map]. cbn zeta. rewrite existsb_app. apply orb_false_iff. split.
  - destruct (nonempty (filter _ _)) eqn:E; [|reflexivity]. rewrite (H r (or_introl eq_refl) E). cbn [existsb]. rewrite S. reflexivity.
  - apply IH. intros q I. apply H. simpl. auto.
Qed.
Lemma linear_no_missing {A} (l : list A) (c : A -> bool) f : existsb is_missing (flat_map (fun a => if c a then [Linear (f a)] else []) l) = false.
Proof. induction l as [|a l IH]; [reflexivity|]. cbn [flat_map]. rewrite existsb_app, IH. destruct (c a); reflexivity. Qed.
Lemma not_missing n : (forall a, In a (assets n) -> a_class a = "StorageUnit" -> has_cost n (a_spill a) -> exists b, In b (assets n) /\ a_class b = "StorageUnit" /\ has_inflow n b) ->
  existsb is_missing (pieces n) = false.
Proof.
  intros H. unfold pieces. rewrite !existsb_app.
  assert (A : forall f c, nonempty (filter f (cls n c)) = true -> nonempty (cls n c) = true) by (intros f c E; destruct (cls n c); [discriminate E|reflexivity]).
  rewrite (op_no_missing n Linear a_marginal of_marginal), (op_no_missing n Linear a_storage of_storage), (op_no_missing n Linear a_spill of_spill), (op_no_missing n Square a_quadratic of_marginal).
  - unfold standby, investment. rewrite (linear_no_missing _ (fun c => nonempty (com n c))), (linear_no_missing _ (fun ca => nonempty (ext n (fst ca)))).
    assert (S : forall attr f, existsb is_missing (switching n attr f) = false).
    { intros attr f. unfold switching. cbn [flat_map]. destruct (Qeq_bool _ 0); destruct (Qeq_bool _ 0); reflexivity. }
    rewrite !S. destruct (Qeq_bool (constant n) 0); reflexivity.
  - reflexivity.
  - intros r I E. apply A in E. unfold exists_array. simpl in I. destruct I as [<-|[<-|[<-|[<-|[]]]]]; exact E.
  - reflexivity.
  - intros r I E. simpl in I. destruct I as [<-|[]]. unfold exists_array. cbn [fst snd vname String.append is_spill String.eqb Ascii.eqb Bool.eqb] in *.
    apply nonempty_filter in E. destruct E as [a [Ia Ca]]. unfold cls in Ia. apply filter_In in Ia. destruct Ia as [Ia Ka]. apply String.eqb_eq in Ka.
    destruct (H a Ia Ka (proj1 (charged_iff _ _ _) Ca)) as [b [Ib [Kb [t [L P]]]]]. apply existsb_exists. exists b. split.
    + unfold cls. apply filter_In. rewrite Kb. auto.
    + apply existsb_exists. exists t. split; [apply in_seq; lia|]. now apply positive_iff.
  - reflexivity.
  - intros r I E. apply A in E. unfold exists_array. simpl in I. destruct I as [<-|[<-|[]]]; exact E.
  - reflexivity.
  - intros r I E. apply A in E. unfold exists_array. simpl in I. destruct I as [<-|[<-|[<-|[<-|[]]]]]; exact E.
Qed.
Lemma nonempty_app {A} (l r : list A) : nonempty (l ++ r) = nonempty l || nonempty r.
Proof. destruct l; reflexivity. Qed.
Lemma nonempty_flat {A B} (f : A -> list B) l a : In a l -> nonempty (f a) = true -> nonempty (flat_map f l) = true.
Proof. induction l as [|b l IH]; intros I H; [destruct I|]. cbn [flat_map]. rewrite nonempty_app. destruct I as [->|I]; [now rewrite H|]. rewrite (IH I H). apply orb_true_r. Qed.
Lemma defined n : (forall a, In a (assets n) -> a_class a = "StorageUnit" -> has_cost n (a_spill a) -> exists b, In b (assets n) /\ a_class b = "StorageUnit" /\ has_inflow n b) ->
  (exists a, In a (assets n) /\ ((is a ["Generator"; "Line"; "Transformer"; "Link"; "Store"; "StorageUnit"] = true /\ a_ext a = true) \/
                                 (is a ["Generator"; "Link"; "Store"; "StorageUnit"] = true /\ has_cost n (a_marginal a)))) ->
  exists ps, objective n = Some ps.
Proof.
  intros H [a [I C]]. unfold objective. rewrite (not_missing n H). assert (N : nonempty (pieces n) = true); [|rewrite N; eauto].
  unfold pieces. rewrite !nonempty_app. destruct C as [[K E]|[K M]]; unfold is in K; apply existsb_exists in K; destruct K as [c [Kc Ke]]; apply String.eqb_eq in Ke.
  - assert (X : nonempty (investment n) = true); [|rewrite X, ?orb_true_r; reflexivity].
    assert (J : exists attr, In (c, attr) nominal) by (simpl in Kc; destruct Kc as [<-|[<-|[<-|[<-|[<-|[<-|[]]]]]]]; eexists; simpl; eauto 10). destruct J as [attr J].
    apply (nonempty_flat _ _ (c, attr)); auto. cbn [fst snd].
    assert (Y : nonempty (ext n c) = true); [|now rewrite Y]. apply nonempty_filter. exists a. split; auto. unfold cls. apply filter_In. rewrite Ke, String.eqb_refl. auto.
  - assert (X : nonempty (operation n Linear a_marginal of_marginal) = true); [|rewrite X, ?orb_true_r; reflexivity].
    assert (J : exists attr, In (c, attr) of_marginal) by (simpl in Kc; destruct Kc as [<-|[<-|[<-|[<-|[]]]]]; eexists; simpl; eauto 10). destruct J as [attr J].
    apply (nonempty_flat _ _ (c, attr)); auto. cbn [fst snd]. cbn zeta.
    assert (Y : nonempty (filter (charged n a_marginal) (cls n c)) = true); [|now rewrite Y]. apply nonempty_filter. exists a. split; [|now apply charged_iff]. unfold cls. apply filter_In. rewrite Ke, String.eqb_refl. auto.
Qed.

(* counterexamples *)
Definition plain (c nm : string) : asset := {| a_class := c; a_name := nm; a_flag := true; a_in := fun _ => true; a_on := fun _ => true; a_ext := false; a_com := false;
  a_nom := 0; a_capital := 0; a_marginal := fun _ => 0; a_storage := fun _ => 0; a_spill := fun _ => 0; a_quadratic := fun _ => 0; a_standby := fun _ => 0;
  a_start := 0; a_shut := 0; a_inflow := fun _ => 0 |}.
Definition with_spill (q : Q) (a : asset) : asset := {| a_class := a_class a; a_name := a_name a; a_flag := a_flag a; a_in := a_in a; a_on := a_on a; a_ext := a_ext a; a_com := a_com a;
  a_nom := a_nom a; a_capital := a_capital a; a_marginal := a_marginal a; a_storage := a_storage a; a_spill := fun _ => q; a_quadratic := a_quadratic a; a_standby := a_standby a;
  a_start := a_start a; a_shut := a_shut a; a_inflow := a_inflow a |}.
Definition with_marginal (q : Q) (a : asset) : asset := {| a_class := a_class a; a_name := a_name a; a_flag := a_flag a; a_in := a_in a; a_on := a_on a; a_ext := a_ext a; a_com := a_com a;
  a_nom := a_nom a; a_capital := a_capital a; a_marginal := fun _ => q; a_storage := a_storage a; a_spill := a_spill a; a_quadratic := a_quadratic a; a_standby := a_standby a;
  a_start := a_start a; a_shut := a_shut a; a_inflow := a_inflow a |}.
Definition with_start (q : Q) (a : asset) : asset := {| a_class := a_class a; a_name := a_name a; a_flag := a_flag a; a_in := a_in a; a_on := a_on a; a_ext := a_ext a; a_com := true;
  a_nom := a_nom a; a_capital := a_capital a; a_marginal := a_marginal a; a_storage := a_storage a; a_spill := a_spill a; a_quadratic := a_quadratic a; a_standby := a_standby a;
  a_start := q; a_shut := a_shut a; a_inflow := a_inflow a |}.
Definition with_cap (q c : Q) (a : asset) : asset := {| a_class := a_class a; a_name := a_name a; a_flag := a_flag a; a_in := a_in a; a_on := a_on a; a_ext := true; a_com := a_com a;
  a_nom := q; a_capital := c; a_marginal := a_marginal a; a_storage := a_storage a; a_spill := a_spill a; a_quadratic := a_quadratic a; a_standby := a_standby a;
  a_start := a_start a; a_shut := a_shut a; a_inflow := a_inflow a |}.
Definition of_assets (l : list asset) (m : option (list Z * (Z -> Q))) : net :=
  {| assets := l; nsnaps := 2; w_snap := fun _ => 1; per := fun t => Z.of_nat t; multi := m |}.

Lemma spill_without_inflow : exists n, known n /\ (exists a t, In a (assets n) /\ a_class a = "Generator" /\ ~ a_marginal a t == 0) /\ objective n = None.
Proof.
  exists (of_assets [with_marginal 5 (plain "Generator" "g"); with_spill 1 (plain "StorageUnit" "s")] None). split; [|split].
  - intros a [<-|[<-|[]]]; reflexivity.
  - exists (with_marginal 5 (plain "Generator" "g")), 0%nat. split; [simpl; auto|]. split; [reflexivity|]. discriminate.
  - reflexivity.
Qed.
Lemma start_up_not_weighted : exists n x ps ww obj, known n /\ multi n = Some (ps, ww) /\ NoDup ps /\ (forall t, (t < nsnaps n)%nat -> In (per n t) ps) /\
  proper n a_start /\ proper n a_shut /\ const_fixed n x /\ objective n = Some obj /\
  ~ value_of x obj == total (fun p => ww p * of_period n x (fun a t => w_snap n t * running x a t + starts x a t) p) ps.
Proof.
  exists (of_assets [with_start 4 (plain "Generator" "g")] (Some ([0; 1]%Z, fun p => if Z.eqb p 0 then 1 else 1 # 2))), (fun v => if String.eqb (fst (fst v)) "Generator-start_up" then if Nat.eqb (snd (fst v)) 1 then 1 else 0 else 0), [0; 1]%Z.
  do 2 eexists. split; [intros a [<-|[]]; reflexivity|]. split; [reflexivity|]. split; [repeat constructor; simpl; intuition discriminate|]. split.
  { intros t L. change (t < 2)%nat in L. destruct t as [|[|t]]; [simpl; auto|simpl; auto|lia]. }
  split; [intros a [<-|[]]; discriminate|]. split; [intros a [<-|[]]; discriminate|]. split; [discriminate|]. split; [reflexivity|].
  intros H. apply Qeq_bool_iff in H. vm_compute in H. discriminate.
Qed.
Lemma costs_cancel : exists n x obj, known n /\ const_fixed n x /\ objective n = Some obj /\ switching_cost n x == 4 /\
  ~ value_of x obj == expansion n x (annual n) + operating n x (weighting n) + switching_cost n x.
Proof.
  exists (of_assets [with_start 4 (plain "Generator" "g"); with_start (-(4)) (plain "Generator" "h")] None), (fun v => if String.eqb (fst (fst v)) "Generator-start_up" then if String.eqb (snd v) "g" then if Nat.eqb (snd (fst v)) 1 then 1 else 0 else 0 else 0).
  eexists. split; [intros a [<-|[<-|[]]]; reflexivity|]. split; [discriminate|]. split; [reflexivity|]. split; [reflexivity|]. intros H. apply Qeq_bool_iff in H. vm_compute in H. discriminate.
Qed.
