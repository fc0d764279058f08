From Coq Require Import List String Bool QArith Arith Lqa Lia.
From Verif Require Import LinModel LinProofs DispatchModel RampModel RampSpec.
Import ListNotations.
Open Scope string_scope.
Open Scope list_scope.
Open Scope Q_scope.

Section R.
Variable cls nattr : string.
Variable T : nat.
Variable rolling : bool.
Variable assets : list rasset.

Lemma times_In t : In t (times T rolling) <-> has_prev rolling T t.
Proof.
  unfold times, has_prev. destruct rolling; rewrite in_seq; split; intros H.
  - split; [lia|now left].
  - lia.
  - split; [lia|right; lia].
  - destruct H as [? [?|?]]; [discriminate|lia].
Qed.

Lemma everywhere_spec f : everywhere T assets f = true <-> forall a t, In a assets -> (t < T)%nat -> f (up a t) = true /\ f (down a t) = true.
Proof.
  unfold everywhere. rewrite forallb_forall. split.
  - intros H a t I L. specialize (H a I). rewrite forallb_forall in H. specialize (H t). rewrite in_seq in H.
    apply andb_true_iff. apply H. lia.
  - intros H a I. rewrite forallb_forall. intros t L. apply in_seq in L. apply andb_true_iff. apply H; auto. lia.
Qed.

Lemma not_early : has_limit T assets -> has_limit_not_one T assets -> early_return T assets = false.
Proof.
  intros [a [t [l [I [L H]]]]] [a' [t' [I' [L' H']]]]. unfold early_return. apply orb_false_iff. split; apply not_true_is_false.
  - intros E. rewrite everywhere_spec in E. destruct (E a t I L) as [E1 E2]. destruct H as [H|H]; rewrite H in *; discriminate.
  - intros E. rewrite everywhere_spec in E. destruct (E a' t' I' L') as [E1 E2].
    destruct H' as [H'|H']; [destruct (up a' t') as [q|]|destruct (down a' t') as [q|]]; try discriminate;
      apply (H' q eq_refl); now apply Qeq_bool_iff.
Qed.

Lemma prev_val x a t : has_prev rolling T t ->
  val x (shift (p cls a) t) + rhs_start rolling a t == p_prev cls x a t.
Proof.
  intros [L [E|E]]; unfold rhs_start; destruct t as [|t]; cbn [shift val p_prev]; rewrite ?E; cbn [andb Nat.eqb]; rewrite ?andb_false_r;
    unfold p_of, reported, p; try lra; try lia.
Qed.
Lemma prev_status x a t v : has_prev rolling T t ->
  v * val x (shift (RampModel.status cls a) t) + first rolling t (v * status_start a) == v * s_prev cls x a t.
Proof.
  intros [L [E|E]]; unfold first; destruct t as [|t]; cbn [shift val s_prev]; rewrite ?E; cbn [andb Nat.eqb]; rewrite ?andb_false_r;
    unfold s_of, reported, RampModel.status; try ring; try lia.
Qed.

Lemma none_get o l : o = Some l -> is_none o = false /\ get o = l.
Proof. now intros ->. Qed.
Lemma some_get o : is_none o = false -> o = Some (get o).
Proof. destruct o; [reflexivity|discriminate]. Qed.

Ltac unf := unfold holds, mk; cbn [lhs sns rhs eval].

Lemma fixed_iff x : sat x (fixed_ramps cls T rolling assets) <->
  forall a t, In a assets -> ext a = false -> com a = false -> active a t = true -> has_prev rolling T t -> ramps_within cls x a t (nom a).
Proof.
  unfold fixed_ramps. rewrite sat_app, !sat_add. split.
  - intros [H1 H2] a t I E C A P.
    assert (F : In a (fix_ assets)) by (apply filter_In; rewrite E, C; auto).
    split; intros l Q; destruct (none_get _ _ Q) as [N G].
    + specialize (H1 t a (proj2 (times_In t) P) F). rewrite A, N in H1. specialize (H1 eq_refl). revert H1. unf. rewrite G.
      pose proof (prev_val x a t P). intros. change (val x (p cls a t)) with (p_of cls x a t) in *. lra.
    + specialize (H2 t a (proj2 (times_In t) P) F). rewrite A, N in H2. specialize (H2 eq_refl). revert H2. unf. rewrite G.
      pose proof (prev_val x a t P). intros. change (val x (p cls a t)) with (p_of cls x a t) in *. lra.
  - intros H. split; intros t a Ti Ia M; apply filter_In in Ia; destruct Ia as [I EC]; apply andb_true_iff in EC; destruct EC as [E C];
      apply negb_true_iff in E; apply negb_true_iff in C; apply andb_true_iff in M; destruct M as [A N]; apply negb_true_iff in N;
      apply times_In in Ti; destruct (H a t I E C A Ti) as [H1 H2]; pose proof (prev_val x a t Ti) as V; apply some_get in N; unf;
      change (val x (p cls a t)) with (p_of cls x a t) in *.
    + specialize (H1 _ N). lra.
    + specialize (H2 _ N). lra.
Qed.

Lemma extendable_iff x : sat x (extendable_ramps cls nattr T rolling assets) <->
  forall a t, In a assets -> ext a = true -> active a t = true -> has_prev rolling T t ->
    ramps_within cls x a t (nom_opt cls nattr x a).
Proof.
  unfold extendable_ramps. rewrite sat_app, !sat_add. unfold nom_opt. split.
  - intros [H1 H2] a t I E A P. rewrite E.
    assert (F : In a (ext_ assets)) by (apply filter_In; rewrite E; auto).
    split; intros l Q; destruct (none_get _ _ Q) as [N G].
    + specialize (H1 t a (proj2 (times_In t) P) F). rewrite A, N in H1. specialize (H1 eq_refl). revert H1. unf. rewrite G.
      pose proof (prev_val x a t P). intros. change (val x (p cls a t)) with (p_of cls x a t) in *. lra.
    + specialize (H2 t a (proj2 (times_In t) P) F). rewrite A, N in H2. specialize (H2 eq_refl). revert H2. unf. rewrite G.
      pose proof (prev_val x a t P). intros. change (val x (p cls a t)) with (p_of cls x a t) in *. lra.
  - intros H. split; intros t a Ti Ia M; apply filter_In in Ia; destruct Ia as [I E];
      apply andb_true_iff in M; destruct M as [A N]; apply negb_true_iff in N;
      apply times_In in Ti; destruct (H a t I E A Ti) as [H1 H2]; rewrite E in *; pose proof (prev_val x a t Ti) as V; apply some_get in N; unf;
      change (val x (p cls a t)) with (p_of cls x a t) in *.
    + specialize (H1 _ N). lra.
    + specialize (H2 _ N). lra.
Qed.

(* 528-570 with arbitrary (also fractional) status *)
Lemma com_iff x : sat x (com_ramps cls T rolling assets) <->
  forall a t, In a assets -> com a = true -> active a t = true -> has_prev rolling T t ->
   (forall l, up_static a = Some l -> p_of cls x a t - p_prev cls x a t <=
      start_lim a * nom a * (s_of cls x a t - s_prev cls x a t) + l * nom a * s_prev cls x a t) /\
   (forall l, down_static a = Some l -> p_prev cls x a t - p_of cls x a t <=
      shut_lim a * nom a * (s_prev cls x a t - s_of cls x a t) + l * nom a * s_of cls x a t).
Proof.
  unfold com_ramps. rewrite sat_app, !sat_add. split.
  - intros [H1 H2] a t I C A P.
    assert (F : In a (com_ assets)) by (apply filter_In; rewrite C; auto).
    split; intros l Q; destruct (none_get _ _ Q) as [N G].
    + specialize (H1 t a (proj2 (times_In t) P) F). rewrite A, N in H1. specialize (H1 eq_refl). revert H1. cbv zeta. unf. rewrite G.
      pose proof (prev_val x a t P). pose proof (prev_status x a t (l * nom a - start_lim a * nom a) P). intros.
      change (val x (p cls a t)) with (p_of cls x a t) in *. change (val x (RampModel.status cls a t)) with (s_of cls x a t) in *. lra.
    + specialize (H2 t a (proj2 (times_In t) P) F). rewrite A, N in H2. specialize (H2 eq_refl). revert H2. cbv zeta. unf. rewrite G.
      pose proof (prev_val x a t P). pose proof (prev_status x a t (- (shut_lim a * nom a)) P). intros.
      change (val x (p cls a t)) with (p_of cls x a t) in *. change (val x (RampModel.status cls a t)) with (s_of cls x a t) in *. lra.
  - intros H. split; intros t a Ti Ia M; apply filter_In in Ia; destruct Ia as [I C];
      apply andb_true_iff in M; destruct M as [A N]; apply negb_true_iff in N;
      apply times_In in Ti; destruct (H a t I C A Ti) as [H1 H2]; pose proof (prev_val x a t Ti) as V; apply some_get in N; cbv zeta; unf;
      change (val x (p cls a t)) with (p_of cls x a t) in *; change (val x (RampModel.status cls a t)) with (s_of cls x a t) in *.
    + specialize (H1 _ N). pose proof (prev_status x a t (get (up_static a) * nom a - start_lim a * nom a) Ti). lra.
    + specialize (H2 _ N). pose proof (prev_status x a t (- (shut_lim a * nom a)) Ti). lra.
Qed.

Lemma com_cases x a t : on_off cls x a t ->
  ((forall l, up_static a = Some l -> p_of cls x a t - p_prev cls x a t <=
      start_lim a * nom a * (s_of cls x a t - s_prev cls x a t) + l * nom a * s_prev cls x a t) /\
   (forall l, down_static a = Some l -> p_prev cls x a t - p_of cls x a t <=
      shut_lim a * nom a * (s_prev cls x a t - s_of cls x a t) + l * nom a * s_of cls x a t)) <-> com_within cls x a t.
Proof.
  intros [S [S' [Z Z']]]. unfold com_within. split; intros [H1 H2]; split; intros l E;
    try specialize (H1 l E); try specialize (H2 l E).
  - repeat split; intros A B; rewrite A, B in *; rewrite ?(Z B) in *; rewrite ?(Z' A) in *; try lra; try nra.
  - repeat split; intros A B; rewrite A, B in *; rewrite ?(Z B) in *; rewrite ?(Z' A) in *; try lra; try nra.
  - destruct H1 as [J1 [J2 J3]]. destruct S as [S|S], S' as [S'|S']; rewrite S, S';
      rewrite ?(Z S) in *; rewrite ?(Z' S') in *; [lra|specialize (J3 S' S)|specialize (J2 S' S)|specialize (J1 S' S)]; rewrite ?(Z S), ?(Z' S') in *; lra.
  - destruct H2 as [J1 [J2 J3]]. destruct S as [S|S], S' as [S'|S']; rewrite S, S';
      rewrite ?(Z S) in *; rewrite ?(Z' S') in *; [lra|specialize (J2 S' S)|specialize (J3 S' S)|specialize (J1 S' S)]; rewrite ?(Z S), ?(Z' S') in *; lra.
Qed.

Lemma sat_ramps x : has_limit T assets -> has_limit_not_one T assets -> sat x (ramps cls nattr T rolling assets) ->
  sat x (fixed_ramps cls T rolling assets) /\ sat x (extendable_ramps cls nattr T rolling assets) /\ sat x (com_ramps cls T rolling assets).
Proof. intros H1 H2 S. unfold ramps in S. rewrite (not_early H1 H2) in S. now rewrite !sat_app in S. Qed.

Lemma non_committable x a t : has_limit T assets -> has_limit_not_one T assets -> sat x (ramps cls nattr T rolling assets) ->
  In a assets -> ext a = true \/ com a = false -> active a t = true -> has_prev rolling T t ->
  ramps_within cls x a t (nom_opt cls nattr x a).
Proof.
  intros H1 H2 S I K A P. destruct (sat_ramps x H1 H2 S) as [S1 [S2 S3]]. destruct (ext a) eqn:E.
  - apply (proj1 (extendable_iff x) S2); auto.
  - destruct K as [K|K]; [discriminate|]. unfold nom_opt. rewrite E. apply (proj1 (fixed_iff x) S1); auto.
Qed.

Lemma committable x a t : has_limit T assets -> has_limit_not_one T assets -> sat x (ramps cls nattr T rolling assets) ->
  In a assets -> com a = true -> active a t = true -> has_prev rolling T t -> on_off cls x a t -> com_within cls x a t.
Proof.
  intros H1 H2 S I K A P O. destruct (sat_ramps x H1 H2 S) as [S1 [S2 S3]].
  apply com_cases; auto. apply (proj1 (com_iff x) S3); auto.
Qed.

Lemma ramps_complete x :
  (forall a t, In a assets -> active a t = true -> has_prev rolling T t ->
     ((ext a = true \/ com a = false) -> ramps_within cls x a t (nom_opt cls nattr x a)) /\
     (com a = true -> on_off cls x a t /\ com_within cls x a t)) ->
  sat x (ramps cls nattr T rolling assets).
Proof.
  intros H. unfold ramps. destruct (early_return T assets); [apply sat_nil|]. rewrite !sat_app. split; [|split].
  - apply fixed_iff. intros a t I E C A P. destruct (H a t I A P) as [H1 _]. unfold nom_opt in H1. rewrite E in H1. apply H1. auto.
  - apply extendable_iff. intros a t I E A P. destruct (H a t I A P) as [H1 _]. apply H1. auto.
  - apply com_iff. intros a t I C A P. destruct (H a t I A P) as [_ H2]. destruct (H2 C) as [O W]. now apply com_cases.
Qed.

(* limits of 1 are implied for dispatch between zero and the capacity *)
Lemma within_capacity x a t : sat x (ramps cls nattr T rolling assets) ->
  In a assets -> ext a = true \/ com a = false -> active a t = true -> has_prev rolling T t ->
  (0 <= p_of cls x a t /\ p_of cls x a t <= nom_opt cls nattr x a) ->
  (0 <= p_prev cls x a t /\ p_prev cls x a t <= nom_opt cls nattr x a) ->
  ramps_within cls x a t (nom_opt cls nattr x a).
Proof.
  intros S I K A P B B'. destruct (early_return T assets) eqn:ER.
  - unfold early_return in ER. apply orb_true_iff in ER. destruct P as [L P].
    destruct ER as [ER|ER]; rewrite everywhere_spec in ER; destruct (ER a t I L) as [E1 E2]; split; intros l Q; rewrite Q in *; try discriminate.
    + apply Qeq_bool_iff in E1. rewrite E1. lra.
    + apply Qeq_bool_iff in E2. rewrite E2. lra.
  - unfold ramps in S. rewrite ER, !sat_app in S. destruct S as [S1 [S2 S3]]. destruct (ext a) eqn:E.
    + apply (proj1 (extendable_iff x) S2); auto.
    + destruct K as [K|K]; [discriminate|]. unfold nom_opt. rewrite E. apply (proj1 (fixed_iff x) S1); auto.
Qed.
End R.

(* concrete classes *)
Definition ex_base (nm : string) (e c : bool) (lo : Q) : asset :=
  {| name := nm; nom := 100; nom_min := 0; nom_max := None; nom_set := None; nom_mod := 0; ext := e; com := c;
     active := fun _ => true; min_pu := fun _ => lo; max_pu := fun _ => 1; max_hours := 1; fix_set := fun _ => None |}.
Definition ex_r (nm : string) (e c : bool) (lo : Q) (u d : option Q) (su sd : Q) : rasset :=
  {| base := ex_base nm e c lo; up := fun _ => u; down := fun _ => d; up_static := u; down_static := d;
     start_lim := su; shut_lim := sd; p_start := 50; status_start := 1 |}.
Definition sol_of (f : string -> nat -> string -> Q) : sol := fun v => let '(w, t, nm) := v in f w t nm.
Definition ps (c : string) (f g : nat -> Q) : sol :=
  sol_of (fun w t _ => if String.eqb w (c ++ "-p") then f t else if String.eqb w (c ++ "-status") then g t else 0).

(* a link that may reverse, with ramp limits of 1 *)
Lemma reversal : exists (a : rasset) (x : sol), up a 1%nat = Some 1 /\ down a 1%nat = Some 1 /\ com a = false /\ ext a = false /\ nom a == 100 /\
  active a 1%nat = true /\ min_pu a 1%nat == -(1) /\ sat x (ramps "Link" "p_nom" 2 false [a]) /\
  p_of "Link" x a 0 == -(100) /\ p_of "Link" x a 1 == 100.
Proof.
  exists (ex_r "l" false false (-(1)) (Some 1) (Some 1) 1 1), (ps "Link" (fun t => if Nat.eqb t 0 then -(100) else 100) (fun _ => 0)).
  repeat split; try reflexivity. apply satb_iff. reflexivity.
Qed.

(* start-up limit set, no ramp limit *)
Lemma start_ignored : exists (a : rasset) (x : sol), com a = true /\ start_lim a == 3 # 10 /\ nom a == 100 /\ (forall t, active a t = true) /\
  sat x (ramps "Generator" "p_nom" 2 false [a]) /\
  s_of "Generator" x a 0 == 0 /\ s_of "Generator" x a 1 == 1 /\ p_of "Generator" x a 0 == 0 /\ p_of "Generator" x a 1 == 100.
Proof.
  exists (ex_r "g" false true 0 None None (3 # 10) 1), (ps "Generator" (fun t => if Nat.eqb t 0 then 0 else 100) (fun t => if Nat.eqb t 0 then 0 else 1)).
  repeat split; try reflexivity. apply satb_iff. reflexivity.
Qed.

(* the same with ramp limits 1 *)
Lemma start_ignored_one : exists (a : rasset) (x : sol), com a = true /\ start_lim a == 3 # 10 /\ up_static a = Some 1 /\ nom a == 100 /\
  (forall t, active a t = true) /\ sat x (ramps "Generator" "p_nom" 2 false [a]) /\
  s_of "Generator" x a 0 == 0 /\ s_of "Generator" x a 1 == 1 /\ p_of "Generator" x a 0 == 0 /\ p_of "Generator" x a 1 == 100.
Proof.
  exists (ex_r "g" false true 0 (Some 1) (Some 1) (3 # 10) 1), (ps "Generator" (fun t => if Nat.eqb t 0 then 0 else 100) (fun t => if Nat.eqb t 0 then 0 else 1)).
  repeat split; try reflexivity. apply satb_iff. reflexivity.
Qed.

(* a series of limits on a committable unit *)
Lemma series_ignored : exists (a : rasset) (x : sol), com a = true /\ (forall t, up a t = Some (1 # 10)) /\ nom a == 100 /\ (forall t, active a t = true) /\
  sat x (ramps "Generator" "p_nom" 2 false [a]) /\
  s_of "Generator" x a 0 == 1 /\ s_of "Generator" x a 1 == 1 /\ p_of "Generator" x a 0 == 0 /\ p_of "Generator" x a 1 == 100.
Proof.
  exists {| base := ex_base "g" false true 0; up := fun _ => Some (1 # 10); down := fun _ => None; up_static := None; down_static := None;
     start_lim := 1; shut_lim := 1; p_start := 50; status_start := 1 |},
   (ps "Generator" (fun t => if Nat.eqb t 0 then 0 else 100) (fun t => 1)).
  repeat split; try reflexivity. apply satb_iff. reflexivity.
Qed.

(* a unit at half load cannot be shut down although its shut-down limit allows it *)
Lemma cannot_stop : exists a : rasset, com a = true /\ up_static a = Some (1 # 10) /\ shut_lim a == 1 /\ nom a == 100 /\ (forall t, active a t = true) /\
  forall x, sat x (ramps "Generator" "p_nom" 2 false [a]) -> on_off "Generator" x a 1 ->
    s_of "Generator" x a 0 == 1 -> p_of "Generator" x a 0 == 50 -> s_of "Generator" x a 1 == 1.
Proof.
  exists (ex_r "g" false true (2 # 10) (Some (1 # 10)) (Some (1 # 10)) 1 1). repeat split; try reflexivity.
  intros x S O S0 P0. pose proof O as [[Z|Z] _]; [|exact Z].
  assert (W : com_within "Generator" x (ex_r "g" false true (2 # 10) (Some (1 # 10)) (Some (1 # 10)) 1 1) 1).
  { apply (committable "Generator" "p_nom" 2 false [ex_r "g" false true (2 # 10) (Some (1 # 10)) (Some (1 # 10)) 1 1]); auto.
    - exists (ex_r "g" false true (2 # 10) (Some (1 # 10)) (Some (1 # 10)) 1 1), 0%nat, (1 # 10). repeat split; simpl; auto.
    - exists (ex_r "g" false true (2 # 10) (Some (1 # 10)) (Some (1 # 10)) 1 1), 0%nat. repeat split; simpl; auto.
      left. intros l E. injection E as <-. lra.
    - simpl. auto.
    - split; auto. }
  destruct W as [W _]. destruct (W _ eq_refl) as [_ [_ W3]]. specialize (W3 S0 Z).
  change (p_prev "Generator" x (ex_r "g" false true (2 # 10) (Some (1 # 10)) (Some (1 # 10)) 1 1) 1)
    with (p_of "Generator" x (ex_r "g" false true (2 # 10) (Some (1 # 10)) (Some (1 # 10)) 1 1) 0) in W3.
  rewrite P0 in W3. vm_compute in W3. exfalso. apply W3. reflexivity.
Qed.

(* and one with start-up limit 1/2 can never be started *)
Lemma cannot_start : exists a : rasset, com a = true /\ start_lim a == 1 # 2 /\ min_pu a 1%nat == 2 # 10 /\ nom a == 100 /\ (forall t, active a t = true) /\
  forall x, sat x (ramps "Generator" "p_nom" 2 false [a]) -> on_off "Generator" x a 1 ->
    s_of "Generator" x a 0 == 0 -> s_of "Generator" x a 1 == 0.
Proof.
  exists (ex_r "g" false true (2 # 10) (Some (1 # 10)) (Some (1 # 10)) (1 # 2) 1). repeat split; try reflexivity.
  intros x S O S0. pose proof O as [[Z|Z] _]; [exact Z|].
  assert (W : com_within "Generator" x (ex_r "g" false true (2 # 10) (Some (1 # 10)) (Some (1 # 10)) (1 # 2) 1) 1).
  { apply (committable "Generator" "p_nom" 2 false [ex_r "g" false true (2 # 10) (Some (1 # 10)) (Some (1 # 10)) (1 # 2) 1]); auto.
    - exists (ex_r "g" false true (2 # 10) (Some (1 # 10)) (Some (1 # 10)) (1 # 2) 1), 0%nat, (1 # 10). repeat split; simpl; auto.
    - exists (ex_r "g" false true (2 # 10) (Some (1 # 10)) (Some (1 # 10)) (1 # 2) 1), 0%nat. repeat split; simpl; auto.
      left. intros l E. injection E as <-. lra.
    - simpl. auto.
    - split; auto. }
  destruct W as [W V]. destruct (W _ eq_refl) as [_ [W2 _]]. destruct (V _ eq_refl) as [_ [_ V3]]. specialize (W2 S0 Z). specialize (V3 S0 Z).
  cbn [start_lim shut_lim ex_r] in W2, V3. change (nom (ex_r "g" false true (2 # 10) (Some (1 # 10)) (Some (1 # 10)) (1 # 2) 1)) with 100 in W2, V3. lra.
Qed.
