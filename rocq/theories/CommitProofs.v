From Coq Require Import List String Bool QArith ZArith Arith Lqa Lia.
From Verif Require Import LinModel LinProofs CommitModel CommitSpec.
Import ListNotations.
Open Scope Q_scope.

Definition sumq (l : list Q) : Q := fold_right Qplus 0 l.

Lemma eval_ones x (f : nat -> label) (l : list nat) : eval x (map (fun j => (1, f j)) l) == sumq (map (fun j => val x (f j)) l).
Proof. induction l; simpl; [reflexivity|]. rewrite IHl. ring. Qed.

Lemma sumq_ge (g : nat -> Q) l j : (forall i, In i l -> 0 <= g i) -> In j l -> g j <= sumq (map g l).
Proof.
  induction l as [|a l IH]; simpl; intros P I; [destruct I|].
  assert (N : 0 <= sumq (map g l)).
  { clear - P. induction l as [|b l IHl]; [simpl; lra|].
    simpl. assert (0 <= g b) by (apply P; simpl; auto).
    assert (0 <= sumq (map g l)) by (apply IHl; intros i [->|I]; apply P; simpl; auto). lra. }
  assert (0 <= g a) by (apply P; auto).
  destruct I as [<-|I]; [lra|]. specialize (IH (fun i Hi => P i (or_intror Hi)) I). lra.
Qed.

Lemma window_In f t k (c : Q) (l : label) : In (c, l) (window f t k) <-> c = 1 /\ exists j, l = f j /\ (j <= t /\ t < j + k)%nat.
Proof.
  unfold window. rewrite in_map_iff. split.
  - intros [j [E I]]. injection E as <- <-. split; auto. exists j. split; auto. apply in_seq in I. lia.
  - intros [-> [j [-> L]]]. exists j. split; auto. apply in_seq. lia.
Qed.

Section U.
Variable cls : string.
Variable u : unit_.
Variable T : nat.
Variable rolling : bool.

Ltac unf := unfold holds, con1; cbn [lhs sns rhs eval].

Lemma sat1 x ts mask f : sat x (add_constraints ts [u] mask f) <-> forall t, In t ts -> mask t u = true -> holds x (f t u).
Proof. rewrite sat_add. split; [intros H t I M; apply H; simpl; auto|]. intros H t a I [<-|[]] M. auto. Qed.

Definition prev_q (x : sol) (t : nat) : Q :=
  match t with O => b2q (initially_up u rolling) | S k => val x (status cls u k) end.

Lemma transition_iff x : sat x (transition cls u T rolling) <->
  forall t, (t < T)%nat -> u_active u t = true ->
    val x (status cls u t) - prev_q x t <= val x (start_up cls u t) /\
    prev_q x t - val x (status cls u t) <= val x (shut_down cls u t).
Proof.
  unfold transition. rewrite sat_app, !sat1. unfold at_first, prev_q, b2q.
  split.
  - intros [A B] t L M. assert (I : In t (seq 0 T)) by (apply in_seq; lia).
    specialize (A t I M). specialize (B t I M). revert A B. unf. destruct t as [|t]; cbn [Nat.eqb andb shift val];
      destruct (initially_up u rolling); intros; split; lra.
  - intros H. split; intros t I M; apply in_seq in I; destruct (H t) as [A B]; [lia|auto| |lia|auto|]; revert A B; unf;
      (destruct t as [|t]; cbn [Nat.eqb andb shift val]; destruct (initially_up u rolling); intros; lra).
Qed.

Lemma up_time_iff x : sat x (up_time cls u T) <->
  (min_up u <> 0%nat -> forall t, (1 <= t < T)%nat -> u_active u t = true ->
     eval x (window (start_up cls u) t (min_up u)) <= val x (status cls u t)).
Proof.
  unfold up_time. destruct (Nat.eqb (min_up u) 0) eqn:E.
  - apply Nat.eqb_eq in E. split; [congruence|]. intros _. apply sat_nil.
  - apply Nat.eqb_neq in E. rewrite sat1. split.
    + intros H _ t L M. specialize (H t). revert H. unf. intros H.
      assert (I : In t (seq 1 (T - 1))) by (apply in_seq; lia). specialize (H I M). lra.
    + intros H t I M. specialize (H E t). apply in_seq in I. unf. specialize (H ltac:(lia) M). lra.
Qed.

Lemma down_time_iff x : sat x (down_time cls u T) <->
  (min_down u <> 0%nat -> forall t, (1 <= t < T)%nat -> u_active u t = true ->
     val x (status cls u t) + eval x (window (shut_down cls u) t (min_down u)) <= 1).
Proof.
  unfold down_time. destruct (Nat.eqb (min_down u) 0) eqn:E.
  - apply Nat.eqb_eq in E. split; [congruence|]. intros _. apply sat_nil.
  - apply Nat.eqb_neq in E. rewrite sat1. split.
    + intros H _ t L M. specialize (H t). revert H. unf. intros H.
      assert (I : In t (seq 1 (T - 1))) by (apply in_seq; lia). specialize (H I M). lra.
    + intros H t I M. specialize (H E t). apply in_seq in I. unf. specialize (H ltac:(lia) M). lra.
Qed.

Lemma stay_up_iff x : sat x (stay_up cls u T rolling) <->
  (initially_up u rolling = true -> forall t, (t < T)%nat -> (t < min_up u - up_before_set u rolling)%nat -> u_active u t = true ->
     val x (status cls u t) == 1).
Proof.
  unfold stay_up. rewrite sat1. split.
  - intros H Q t L M A. specialize (H t). revert H. unf. intros H.
    assert (I : In t (seq 0 T)) by (apply in_seq; lia). specialize (H I).
    rewrite Q, A, (proj2 (Nat.leb_le _ _) M) in H. specialize (H eq_refl). lra.
  - intros H t I M. apply in_seq in I. apply andb_true_iff in M. destruct M as [M A]. apply andb_true_iff in M. destruct M as [M Q].
    apply Nat.leb_le in M. unf. rewrite (H Q t ltac:(lia) M A). ring.
Qed.

Lemma stay_down_iff x : sat x (stay_down cls u T rolling) <->
  (initially_down u rolling = true -> forall t, (t < T)%nat -> (t < min_down u - down_before_set u rolling)%nat -> u_active u t = true ->
     val x (status cls u t) == 0).
Proof.
  unfold stay_down. rewrite sat1. split.
  - intros H Q t L M A. specialize (H t). revert H. unf. intros H.
    assert (I : In t (seq 0 T)) by (apply in_seq; lia). specialize (H I).
    rewrite Q, A, (proj2 (Nat.leb_le _ _) M) in H. specialize (H eq_refl). lra.
  - intros H t I M. apply in_seq in I. apply andb_true_iff in M. destruct M as [M A]. apply andb_true_iff in M. destruct M as [M Q].
    apply Nat.leb_le in M. unf. rewrite (H Q t ltac:(lia) M A). ring.
Qed.

Lemma nonneg x f : is_binary u T x f -> (forall t, u_active u t = false -> f t = None) ->
  forall t, (t < T)%nat -> 0 <= val x (f t).
Proof.
  intros B N t L. destruct (u_active u t) eqn:A.
  - destruct (B t L A) as [->| ->]; lra.
  - rewrite (N t A). simpl. lra.
Qed.

Lemma uvar_none v t : u_active u t = false -> uvar cls u v t = None.
Proof. unfold uvar. now intros ->. Qed.

Lemma was_q x on t : runs cls u T x on -> (t <= T)%nat -> prev_q x t == b2q (was (initially_up u rolling) on t).
Proof. intros R L. destruct t; simpl; [reflexivity|]. apply R. lia. Qed.

Section Sound.
Variable x : sol.
Variable on : nat -> bool.
Hypothesis S : sat x (commitment cls u T rolling).
Hypothesis B : binary cls u T x.
Hypothesis R : runs cls u T x on.
Let before := initially_up u rolling.

Lemma sound_transitions t : (t < T)%nat -> u_active u t = true ->
  (starts before on t = true -> val x (start_up cls u t) == 1) /\
  (stops before on t = true -> val x (shut_down cls u t) == 1).
Proof.
  intros L A. unfold commitment in S. rewrite !sat_app in S. destruct S as [S1 _].
  destruct (proj1 (transition_iff x) S1 t L A) as [P Q].
  rewrite (was_q x on t R ltac:(lia)), (R t L) in P. rewrite (was_q x on t R ltac:(lia)), (R t L) in Q.
  fold before in P, Q. destruct B as [_ [B2 B3]]. specialize (B2 t L A). specialize (B3 t L A).
  unfold starts, stops. destruct (was before on t), (on t); cbn [b2q negb andb] in *; split; intros H; try discriminate H;
    (destruct B2 as [E2|E2], B3 as [E3|E3]; lra).
Qed.

Lemma sound_up : respects_up u T before on (min_up u).
Proof.
  intros t s L [L1 L2] At As St. destruct (Nat.eq_dec s t) as [->|N].
  { unfold starts in St. apply andb_true_iff in St. tauto. }
  destruct (sound_transitions t ltac:(lia) At) as [P _]. specialize (P St).
  unfold commitment in S. rewrite !sat_app in S. destruct S as [_ [S2 _]].
  pose proof (proj1 (up_time_iff x) S2 ltac:(lia) s ltac:(lia) As) as W.
  unfold window in W. rewrite eval_ones in W.
  assert (G : val x (start_up cls u t) <= sumq (map (fun j => val x (start_up cls u j)) (seq (Datatypes.S s - min_up u) (Nat.min (min_up u) (Datatypes.S s))))).
  { apply (sumq_ge (fun j => val x (start_up cls u j))).
    - intros i I. apply in_seq in I. apply nonneg; [apply B| |lia]. apply uvar_none.
    - apply in_seq. lia. }
  rewrite (R s L) in W. destruct (on s); auto. cbn [b2q] in W. lra.
Qed.

Lemma sound_down : respects_down u T before on (min_down u).
Proof.
  intros t s L [L1 L2] At As St. destruct (Nat.eq_dec s t) as [->|N].
  { unfold stops in St. apply andb_true_iff in St. destruct St as [_ St]. now apply negb_true_iff in St. }
  destruct (sound_transitions t ltac:(lia) At) as [_ P]. specialize (P St).
  unfold commitment in S. rewrite !sat_app in S. destruct S as [_ [_ [S3 _]]].
  pose proof (proj1 (down_time_iff x) S3 ltac:(lia) s ltac:(lia) As) as W.
  unfold window in W. rewrite eval_ones in W.
  assert (G : val x (shut_down cls u t) <= sumq (map (fun j => val x (shut_down cls u j)) (seq (Datatypes.S s - min_down u) (Nat.min (min_down u) (Datatypes.S s))))).
  { apply (sumq_ge (fun j => val x (shut_down cls u j))).
    - intros i I. apply in_seq in I. apply nonneg; [apply B| |lia]. apply uvar_none.
    - apply in_seq. lia. }
  rewrite (R s L) in W. destruct (on s); auto. cbn [b2q] in W. lra.
Qed.

Lemma sound_initial t : (t < T)%nat -> u_active u t = true ->
  (initially_up u rolling = true -> (t < min_up u - up_before_set u rolling)%nat -> on t = true) /\
  (initially_down u rolling = true -> (t < min_down u - down_before_set u rolling)%nat -> on t = false).
Proof.
  intros L A. unfold commitment in S. rewrite !sat_app in S. destruct S as [_ [_ [_ [S4 S5]]]]. split; intros I M.
  - pose proof (proj1 (stay_up_iff x) S4 I t L M A) as E. rewrite (R t L) in E. destruct (on t); auto. simpl in E. lra.
  - pose proof (proj1 (stay_down_iff x) S5 I t L M A) as E. rewrite (R t L) in E. destruct (on t); auto. simpl in E. lra.
Qed.
End Sound.

(* nothing else is excluded *)
Lemma sum_one (g : nat -> bool) a n :
  (forall i j, (a <= i < a + n)%nat -> (a <= j < a + n)%nat -> (i < j)%nat -> g i = true -> g j = true -> False) ->
  sumq (map (fun j => b2q (g j)) (seq a n)) <= 1 /\
  ((forall i, (a <= i < a + n)%nat -> g i = false) -> sumq (map (fun j => b2q (g j)) (seq a n)) == 0).
Proof.
  revert a. induction n as [|n IH]; intros a H; simpl; [split; intros; lra|].
  destruct (IH (Datatypes.S a)) as [I1 I2].
  { intros i j Hi Hj. apply H; lia. }
  split.
  - destruct (g a) eqn:E; simpl; [|lra]. rewrite I2; [lra|]. intros i Hi. destruct (g i) eqn:G; auto.
    exfalso. apply (H a i); auto; lia.
  - intros F. rewrite (F a) by lia. simpl. rewrite I2; [lra|]. intros i Hi. apply F. lia.
Qed.

Lemma append_eqb (c a b : string) : String.eqb (c ++ a) (c ++ b) = String.eqb a b.
Proof. induction c as [|ch c IH]; simpl; auto. now rewrite Ascii.eqb_refl. Qed.

Definition schedule_sol (on : nat -> bool) : sol := fun v =>
  let '(w, t, _) := v in
  if String.eqb w (cls ++ "-status") then b2q (on t)
  else if String.eqb w (cls ++ "-start_up") then b2q (starts (initially_up u rolling) on t)
  else if String.eqb w (cls ++ "-shut_down") then b2q (stops (initially_up u rolling) on t)
  else 0.

Section Complete.
Variable on : nat -> bool.
Hypothesis A : forall t, (t < T)%nat -> u_active u t = true.
Let before := initially_up u rolling.
Let x := schedule_sol on.
Hypothesis RU : respects_up u T before on (min_up u).
Hypothesis RD : respects_down u T before on (min_down u).
Hypothesis IU : initially_up u rolling = true -> forall t, (t < T)%nat -> (t < min_up u - up_before_set u rolling)%nat -> on t = true.
Hypothesis ID : initially_down u rolling = true -> forall t, (t < T)%nat -> (t < min_down u - down_before_set u rolling)%nat -> on t = false.

Lemma x_status t : (t < T)%nat -> val x (status cls u t) = b2q (on t).
Proof. intros L. unfold status, uvar. rewrite (A t L). cbn [val]. unfold x, schedule_sol. now rewrite String.eqb_refl. Qed.
Lemma x_start t : (t < T)%nat -> val x (start_up cls u t) = b2q (starts before on t).
Proof.
  intros L. unfold start_up, uvar. rewrite (A t L). cbn [val]. unfold x, schedule_sol.
  rewrite !append_eqb. reflexivity.
Qed.
Lemma x_shut t : (t < T)%nat -> val x (shut_down cls u t) = b2q (stops before on t).
Proof.
  intros L. unfold shut_down, uvar. rewrite (A t L). cbn [val]. unfold x, schedule_sol.
  rewrite !append_eqb. reflexivity.
Qed.

Lemma complete : runs cls u T x on /\ binary cls u T x /\ sat x (commitment cls u T rolling).
Proof.
  split; [|split].
  - intros t L. rewrite (x_status t L). reflexivity.
  - split; [|split]; intros t L _; rewrite ?(x_status t L), ?(x_start t L), ?(x_shut t L).
    + destruct (on t); [right|left]; reflexivity.
    + destruct (starts before on t); [right|left]; reflexivity.
    + destruct (stops before on t); [right|left]; reflexivity.
  - assert (R : runs cls u T x on) by (intros t L; rewrite (x_status t L); reflexivity).
    unfold commitment. rewrite !sat_app, transition_iff, up_time_iff, down_time_iff, stay_up_iff, stay_down_iff.
    repeat split.
    + rewrite (was_q x on t R ltac:(lia)), (x_status t H), (x_start t H). fold before. unfold starts.
      destruct (was before on t), (on t); cbn [andb negb b2q]; lra.
    + rewrite (was_q x on t R ltac:(lia)), (x_status t H), (x_shut t H). fold before. unfold stops.
      destruct (was before on t), (on t); cbn [andb negb b2q]; lra.
    + intros NZ t L _. unfold window. rewrite eval_ones. rewrite (x_status t) by lia.
      assert (E : map (fun j => val x (start_up cls u j)) (seq (S t - min_up u) (Nat.min (min_up u) (S t)))
                = map (fun j => b2q (starts before on j)) (seq (S t - min_up u) (Nat.min (min_up u) (S t)))).
      { apply map_ext_in. intros j J. apply in_seq in J. apply x_start. lia. }
      rewrite E. destruct (sum_one (starts before on) (S t - min_up u) (Nat.min (min_up u) (S t))) as [I1 I2].
      { intros i j Hi Hj L' Gi Gj. destruct j as [|j]; [lia|].
        assert (on j = true) by (apply (RU i j); auto; try lia; apply A; lia).
        unfold starts in Gj. simpl in Gj. rewrite H in Gj. discriminate. }
      destruct (on t) eqn:O; cbn [b2q]; auto. rewrite I2; [lra|]. intros i Hi. destruct (starts before on i) eqn:G; auto.
      exfalso. assert (on t = true) by (apply (RU i t); auto; try lia; apply A; lia). congruence.
    + intros NZ t L _. unfold window. rewrite eval_ones. rewrite (x_status t) by lia.
      assert (E : map (fun j => val x (shut_down cls u j)) (seq (S t - min_down u) (Nat.min (min_down u) (S t)))
                = map (fun j => b2q (stops before on j)) (seq (S t - min_down u) (Nat.min (min_down u) (S t)))).
      { apply map_ext_in. intros j J. apply in_seq in J. apply x_shut. lia. }
      rewrite E. destruct (sum_one (stops before on) (S t - min_down u) (Nat.min (min_down u) (S t))) as [I1 I2].
      { intros i j Hi Hj L' Gi Gj. destruct j as [|j]; [lia|].
        assert (on j = false) by (apply (RD i j); auto; try lia; apply A; lia).
        unfold stops in Gj. simpl in Gj. rewrite H in Gj. discriminate. }
      destruct (on t) eqn:O; cbn [b2q]; [|lra]. rewrite I2; [lra|]. intros i Hi. destruct (stops before on i) eqn:G; auto.
      exfalso. assert (on t = false) by (apply (RD i t); auto; try lia; apply A; lia). congruence.
    + intros Q t L M _. rewrite (x_status t L), (IU Q t L M). reflexivity.
    + intros Q t L M _. rewrite (x_status t L), (ID Q t L M). reflexivity.
Qed.
End Complete.
End U.

(* reading the state before the window from the solved statuses *)
Lemma leading_zero h ref acc : is_01 h -> (acc < ref - 1)%Z -> leading h ref acc = 0%Z.
Proof.
  revert ref acc. induction h as [|x h IH]; intros ref acc H L; [reflexivity|].
  cbn [leading]. assert (X : x = 0%Z \/ x = 1%Z) by (apply H; simpl; auto).
  destruct (Z.eqb_spec (acc + x) ref); [lia|]. rewrite IH; [reflexivity| |lia]. intros y I. apply H. simpl. auto.
Qed.

Lemma leading_lead h ref : is_01 h -> leading h ref (ref - 1) = Z.of_nat (lead true h).
Proof.
  revert ref. induction h as [|x h IH]; intros ref H; [reflexivity|].
  cbn [leading lead]. assert (X : x = 0%Z \/ x = 1%Z) by (apply H; simpl; auto).
  assert (H' : is_01 h) by (intros y I; apply H; simpl; auto).
  destruct X as [->| ->].
  - destruct (Z.eqb_spec (ref - 1 + 0) ref); [lia|]. rewrite leading_zero; [reflexivity|auto|lia].
  - destruct (Z.eqb_spec (ref - 1 + 1) ref); [|lia]. replace (ref - 1 + 1)%Z with (ref + 1 - 1)%Z by lia.
    rewrite IH by auto. change (Bool.eqb (1 =? 1)%Z true) with true. cbv iota. lia.
Qed.

Lemma flip_lead h : is_01 h -> lead true (map flip h) = lead false h /\ is_01 (map flip h).
Proof.
  induction h as [|x h IH]; intros H; [split; [reflexivity|intros y []]|].
  assert (X : x = 0%Z \/ x = 1%Z) by (apply H; simpl; auto).
  destruct IH as [I1 I2]; [intros y I; apply H; simpl; auto|].
  split.
  - destruct X as [->| ->]; simpl; auto.
  - intros y [<-|I]; auto. destruct X as [->| ->]; simpl; auto.
Qed.

Lemma rolling_state u : is_01 (hist u) ->
  up_before_set u true = Nat.min (lead true (hist u)) (min_up u) /\
  down_before_set u true = Nat.min (lead false (hist u)) (min_down u).
Proof.
  intros H. destruct (flip_lead _ H) as [F G]. unfold up_before_set, down_before_set.
  pose proof (leading_lead (hist u) 1 H) as A. pose proof (leading_lead (map flip (hist u)) 1 G) as B.
  change (1 - 1)%Z with 0%Z in A, B. rewrite A, B, F, !Nat2Z.id. auto.
Qed.

(* states before a later window *)
Lemma rolling_run cls u T x on : is_01 (hist u) -> sat x (commitment cls u T true) -> runs cls u T x on ->
  forall t, (t < T)%nat -> u_active u t = true ->
    ((0 < lead true (hist u))%nat -> (0 < min_up u)%nat -> (t + lead true (hist u) < min_up u)%nat -> on t = true) /\
    ((0 < lead false (hist u))%nat -> (0 < min_down u)%nat -> (t + lead false (hist u) < min_down u)%nat -> on t = false).
Proof.
  intros H S R t L A. destruct (rolling_state u H) as [E1 E2].
  destruct (sound_initial cls u T true x on S R t L A) as [P Q]. unfold initially_up, initially_down in *. rewrite E1 in P. rewrite E2 in Q.
  split; intros G1 G2 G3.
  - apply P; [|lia]. destruct (Nat.eqb_spec (Nat.min (lead true (hist u)) (min_up u)) 0); auto. lia.
  - apply Q; [|lia]. destruct (Nat.eqb_spec (Nat.min (lead false (hist u)) (min_down u)) 0); auto. lia.
Qed.

Lemma rolling_before u : is_01 (hist u) -> (0 < min_up u)%nat -> initially_up u true = Nat.ltb 0 (lead true (hist u)).
Proof.
  intros H L. unfold initially_up. destruct (rolling_state u H) as [-> _].
  destruct (Nat.eqb_spec (Nat.min (lead true (hist u)) (min_up u)) 0), (Nat.ltb_spec 0 (lead true (hist u))); auto; lia.
Qed.

(* the extra constraints of the relaxation *)
Lemma tighten_keeps cls u T rolling x on p :
  (forall t, (t < T)%nat -> u_active u t = true) ->
  (forall t, (t < T)%nat -> lower_p u t == lower_p u 0%nat /\ upper_p u t == upper_p u 0%nat) ->
  r_shut u <= r_down u + lower_p u 0%nat ->
  operates u T (initially_up u rolling) on p -> follows u T (initially_up u rolling) on p cls x ->
  sat x (tighten cls u T).
Proof.
  intros A C HR [O1 O2] F. unfold tighten. cbv zeta. rewrite !sat_app, !sat1.
  assert (K : forall t, In t (seq 1 (T - 1)) -> exists k, t = S k /\ (S k < T)%nat).
  { intros t I. apply in_seq in I. destruct t; [lia|]. exists t. split; auto. lia. }
  repeat split; intros t I _; destruct (K t I) as [k [-> L]]; clear I;
    unfold holds, con1; cbn [lhs sns rhs eval shift];
    destruct (F k ltac:(lia)) as [F1 [F2 [F3 F4]]]; destruct (F (S k) L) as [G1 [G2 [G3 G4]]];
    destruct (C k ltac:(lia)) as [C1 C2]; destruct (C (S k) L) as [D1 D2];
    pose proof (O1 k ltac:(lia)) as P0; pose proof (O1 (S k) L) as P1;
    destruct (O2 k L) as [Q1 [Q2 Q3]];
    rewrite ?F1, ?F4, ?G1, ?G2, ?G4;
    unfold starts, stops, was in *; destruct (on k), (on (S k)); cbn [b2q andb negb] in *;
    try specialize (Q1 eq_refl eq_refl); try specialize (Q2 eq_refl); try specialize (Q3 eq_refl); nra.
Qed.

Lemma complete_ex cls u T rolling on :
  (forall t, (t < T)%nat -> u_active u t = true) ->
  respects_up u T (initially_up u rolling) on (min_up u) ->
  respects_down u T (initially_up u rolling) on (min_down u) ->
  (initially_up u rolling = true -> forall t, (t < T)%nat -> (t < min_up u - up_before_set u rolling)%nat -> on t = true) ->
  (initially_down u rolling = true -> forall t, (t < T)%nat -> (t < min_down u - down_before_set u rolling)%nat -> on t = false) ->
  exists x, runs cls u T x on /\ binary cls u T x /\ sat x (commitment cls u T rolling) /\
    forall t, (t < T)%nat -> val x (start_up cls u t) = b2q (starts (initially_up u rolling) on t) /\
                             val x (shut_down cls u t) = b2q (stops (initially_up u rolling) on t).
Proof.
  intros A RU RD IU ID. exists (schedule_sol cls u rolling on).
  destruct (complete cls u T rolling on A RU RD IU ID) as [P [Q R]].
  split; [exact P|]. split; [exact Q|]. split; [exact R|]. intros t L. split.
  - now apply (x_start cls u T rolling on A).
  - now apply (x_shut cls u T rolling on A).
Qed.

(* concrete units *)
Open Scope string_scope.
Open Scope list_scope.
Definition ex_u (mu md : nat) (h : list Z) : unit_ :=
  {| u_name := "g"; u_active := fun _ => true; min_up := mu; min_down := md; up_before := 1; down_before := 0; hist := h;
     lower_p := fun _ => 2; upper_p := fun _ => 10; r_up := 3; r_down := 4; r_start := 5; r_shut := 6 |}.

Lemma spurious_start :
  exists u, hist u = [1; 1; 1]%Z /\ (forall t, u_active u t = true) /\
    forall x, sat x (commitment "Generator" u 2 true) -> val x (status "Generator" u 0) == 1 ->
      1 <= val x (start_up "Generator" u 0).
Proof.
  exists (ex_u 0 3 [1; 1; 1]%Z). split; [reflexivity|]. split; [reflexivity|]. intros x S E.
  unfold commitment in S. rewrite sat_app in S. destruct S as [S _].
  destruct (proj1 (transition_iff _ _ _ _ x) S 0%nat ltac:(lia) eq_refl) as [P _].
  change (prev_q "Generator" (ex_u 0 3 [1; 1; 1]%Z) true x 0) with 0 in P. lra.
Qed.

Lemma rolling_min_down :
  exists u x on, hist u = [1; 1; 1]%Z /\ (forall t, u_active u t = true) /\ min_down u = 3%nat /\
    binary "Generator" u 2 x /\ sat x (commitment "Generator" u 2 true) /\ runs "Generator" u 2 x on /\
    on 0%nat = false /\ on 1%nat = true.
Proof.
  exists (ex_u 0 3 [1; 1; 1]%Z), (schedule_sol "Generator" (ex_u 0 3 [1; 1; 1]%Z) true (fun t => Nat.eqb t 1)), (fun t => Nat.eqb t 1).
  split; [reflexivity|]. split; [reflexivity|]. split; [reflexivity|].
  assert (K : forall t, (t < 2)%nat -> t = 0%nat \/ t = 1%nat) by lia.
  repeat split.
  - intros t L _. destruct (K t L) as [->| ->]; [left|right]; reflexivity.
  - intros t L _. destruct (K t L) as [->| ->]; [left|right]; reflexivity.
  - intros t L _. destruct (K t L) as [->| ->]; left; reflexivity.
  - apply satb_iff. reflexivity.
Qed.

Lemma never_start :
  exists u on p, operates u 2 (initially_up u false) on p /\ starts (initially_up u false) on 1 = true /\
    (forall t, u_active u t = true) /\
    forall x, relaxed "Generator" u 2 x ->
      sat x (commitment "Generator" u 2 false ++ limits "Generator" u 2 ++ tighten "Generator" u 2) ->
      val x (status "Generator" u 0) == 0 -> val x (status "Generator" u 1) == 0.
Proof.
  set (u := {| u_name := "g"; u_active := fun _ => true; min_up := 0; min_down := 0; up_before := 1; down_before := 0; hist := [];
     lower_p := fun _ => 2; upper_p := fun _ => 10; r_up := 1; r_down := 1; r_start := 10; r_shut := 10 |}).
  exists u, (fun t => Nat.eqb t 1), (fun t => if Nat.eqb t 1 then 5 else 0).
  assert (K : forall t, (t < 2)%nat -> t = 0%nat \/ t = 1%nat) by lia.
  split; [|split; [reflexivity|split; [reflexivity|]]].
  - split.
    + intros t L. destruct (K t L) as [->| ->]; cbn; lra.
    + intros t L. assert (t = 0%nat) by lia. subst t. cbn. repeat split; intros; try discriminate; lra.
  - intros x [B1 [B2 _]] S E. rewrite !sat_app in S. destruct S as [SC [SL ST]].
    unfold commitment in SC. rewrite sat_app in SC. destruct SC as [SC _].
    destruct (proj1 (transition_iff _ _ _ _ x) SC 1%nat ltac:(lia) eq_refl) as [P _].
    unfold limits in SL. rewrite sat_app, !sat1 in SL. destruct SL as [SL1 SL2].
    unfold tighten in ST. cbv zeta in ST. rewrite !sat_app, !sat1 in ST. destruct ST as [_ [_ [_ ST]]].
    specialize (ST 1%nat (or_introl eq_refl) eq_refl). 
    pose proof (SL1 0%nat (or_introl eq_refl) eq_refl) as L1.
    pose proof (SL2 1%nat (or_intror (or_introl eq_refl)) eq_refl) as L3.
    destruct (B1 1%nat ltac:(lia) eq_refl) as [N _].
    unfold holds, con1 in *. cbn [lhs sns rhs eval shift prev_q] in *.
    change (lower_p u 1%nat) with 2 in *. change (lower_p u 0%nat) with 2 in *. change (upper_p u 1%nat) with 10 in *.
    change (r_shut u) with 10 in *. change (r_down u) with 1 in *.
    assert (E0 : val x (shift (power "Generator" u) 1) == val x (power "Generator" u 0)) by reflexivity.
    assert (E1 : 0 <= val x (power "Generator" u 0)) by lra. cbn [shift] in *. lra.
Qed.

Lemma falling :
  exists u on p, operates u 2 (initially_up u false) on p /\ (forall t, u_active u t = true) /\
    r_shut u <= r_down u + lower_p u 0 /\
    forall x, follows u 2 (initially_up u false) on p "Generator" x -> ~ sat x (tighten "Generator" u 2).
Proof.
  set (u := {| u_name := "g"; u_active := fun _ => true; min_up := 0; min_down := 0; up_before := 1; down_before := 0; hist := [];
     lower_p := fun _ => 0; upper_p := fun t => if Nat.eqb t 0 then 10 else 5; r_up := 10; r_down := 10; r_start := 10; r_shut := 10 |}).
  exists u, (fun _ => true), (fun t => if Nat.eqb t 0 then 8 else 5).
  assert (K : forall t, (t < 2)%nat -> t = 0%nat \/ t = 1%nat) by lia.
  split; [|split; [reflexivity|split; [cbn; lra|]]].
  - split.
    + intros t L. destruct (K t L) as [->| ->]; cbn; lra.
    + intros t L. assert (t = 0%nat) by lia. subst t. cbn. repeat split; intros; try discriminate; lra.
  - intros x F S. unfold tighten in S. cbv zeta in S. rewrite !sat_app, !sat1 in S. destruct S as [S _].
    specialize (S 1%nat (or_introl eq_refl) eq_refl). unfold holds, con1 in S. cbn [lhs sns rhs eval shift] in S.
    destruct (F 0%nat ltac:(lia)) as [F1 [_ [_ F4]]]. destruct (F 1%nat ltac:(lia)) as [G1 [G2 _]].
    rewrite F1, F4, G1, G2 in S. vm_compute in S. apply S. reflexivity.
Qed.

Definition ex_on (t : nat) : bool := match t with 0 | 4 | 5 => true | _ => false end%nat.
Definition ex_p (t : nat) : Q := match t with 0%nat => 5 | 4%nat => 4 | 5%nat => 6 | _ => 0 end.
Lemma six (P : nat -> Prop) : P 0%nat -> P 1%nat -> P 2%nat -> P 3%nat -> P 4%nat -> P 5%nat -> forall t, (t < 6)%nat -> P t.
Proof. intros. do 6 (destruct t as [|t]; [assumption|]). lia. Qed.

Lemma ex_feasible :
  let u := ex_u 2 3 [] in
  exists x, binary "Generator" u 6 x /\ runs "Generator" u 6 x ex_on /\ sat x (commitment "Generator" u 6 false) /\
    val x (start_up "Generator" u 4) == 1 /\ val x (shut_down "Generator" u 1) == 1.
Proof.
  exists (schedule_sol "Generator" (ex_u 2 3 []) false ex_on). repeat split.
  - intros t L _. revert t L. apply six; (left; reflexivity) || (right; reflexivity).
  - intros t L _. revert t L. apply six; (left; reflexivity) || (right; reflexivity).
  - intros t L _. revert t L. apply six; (left; reflexivity) || (right; reflexivity).
  - apply satb_iff. reflexivity.
Qed.

Lemma ex_rolling : let u := ex_u 3 2 [1; 1; 0; 1]%Z in is_01 (hist u) /\ lead true (hist u) = 2%nat /\
  exists x, sat x (commitment "Generator" u 3 true) /\ runs "Generator" u 3 x (fun t => Nat.eqb t 0).
Proof.
  split; [intros y I; cbn in I; intuition congruence|]. split; [reflexivity|].
  exists (schedule_sol "Generator" (ex_u 3 2 [1; 1; 0; 1]%Z) true (fun t => Nat.eqb t 0)). split.
  - apply satb_iff. reflexivity.
  - intros t L. reflexivity.
Qed.

Lemma ex_tighten :
  let u := ex_u 2 3 [] in
  exists x, operates u 6 (initially_up u false) ex_on ex_p /\ follows u 6 (initially_up u false) ex_on ex_p "Generator" x /\
    r_shut u <= r_down u + lower_p u 0.
Proof.
  exists (fun v => let '(w, t, _) := v in if String.eqb w "Generator-p" then ex_p t else schedule_sol "Generator" (ex_u 2 3 []) false ex_on v).
  split; [|split; [|cbn; lra]].
  - split.
    + apply six; cbn; lra.
    + intros t L. do 5 (destruct t as [|t]; [cbn; repeat split; intros; try discriminate; lra|]); lia.
  - red. apply six; repeat split; reflexivity.
Qed.
