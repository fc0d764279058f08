From Coq Require Import List String Bool QArith Qround ZArith Arith Lqa Lia.
From Verif Require Import LinModel LinProofs DispatchModel DispatchProofs RampModel RampSpec RampProofs CommitModel CommitSpec CommitProofs
  RollingModel RollingProofs RolluModel RolluSpec.
Import ListNotations.
Open Scope string_scope.
Open Scope list_scope.
Open Scope Q_scope.

Lemma put_in w x n v c j : (fst w + j < snd w)%nat -> res (assign w x n) (v, (fst w + j)%nat, c) = x (v, j, c).
Proof.
  intros B. unfold assign. cbn [res]. destruct (Nat.leb_spec (fst w) (fst w + j)); [|lia]. destruct (Nat.ltb_spec (fst w + j) (snd w)); [|lia]. cbn [andb].
  now replace (fst w + j - fst w)%nat with j by lia.
Qed.
Lemma put_below w x n v c t : (t < fst w)%nat -> res (assign w x n) (v, t, c) = res n (v, t, c).
Proof. intros B. unfold assign. cbn [res]. destruct (Nat.leb_spec (fst w) t); [lia|]. reflexivity. Qed.
Lemma put_at w x n v c t : (fst w <= t < snd w)%nat -> res (assign w x n) (v, t, c) = x (v, (t - fst w)%nat, c).
Proof. intros B. pose proof (put_in w x n v c (t - fst w) ltac:(lia)) as E. now replace (fst w + (t - fst w))%nat with t in E by lia. Qed.

(* an invariant of the run *)
Lemma run_inv (optimize : nat -> nat * nat -> net -> option sol) (ok : nat * nat -> net -> sol -> Prop) (P : nat -> net -> Prop) :
  (forall s E n, P E n -> P E (hand_over s n)) ->
  (forall w x n E, (fst w <= E)%nat -> (fst w < snd w)%nat -> (E <= snd w)%nat -> ok w n x -> P E n -> P (snd w) (assign w x n)) ->
  forall ws i n E lo, chain lo E ws -> run_ok optimize ok i ws n -> P E n -> P (reach E ws) (loop optimize i ws n).
Proof.
  intros H1 H2. induction ws as [|w r IH]; intros i n E lo C R V; [exact V|].
  destruct C as [[C0 C1] [C2 [C3 C4]]]. cbn [run_ok] in R. destruct R as [x [O [K R]]]. cbn [loop]. rewrite O.
  change (reach E (w :: r)) with (reach (snd w) r). apply (IH _ _ _ (S (fst w))); auto. apply (H2 w x _ E); auto. destruct i; auto.
Qed.

Lemma run_result len horizon overlap optimize (ok : nat * nat -> net -> sol -> Prop) (P : nat -> net -> Prop) ws n :
  (0 <= overlap < horizon)%Z -> windows len horizon overlap = Windows ws -> (0 < len)%nat ->
  (forall s E n, P E n -> P E (hand_over s n)) ->
  (forall w x n E, (fst w <= E)%nat -> (fst w < snd w)%nat -> (E <= snd w)%nat -> ok w n x -> P E n -> P (snd w) (assign w x n)) ->
  run_ok optimize ok 0 ws n -> P 0%nat n -> P len (loop optimize 0 ws n).
Proof.
  intros O W L H1 H2 R P0. rewrite (windows_eq len horizon overlap O) in W. injection W as W.
  destruct (ws_chain len horizon overlap O) as [CH RE]. rewrite W in CH, RE. rewrite <- (RE L). now apply (run_inv optimize ok P H1 H2 ws 0 n 0%nat 0%nat).
Qed.

(* the state before a window *)
Section Unit.
Variable cls : string.
Variable u : unit_.
Hypothesis A : forall t, u_active u t = true.
Hypothesis MU : (0 < min_up u)%nat.
Let before := Nat.ltb 0 (up_before u).

Definition st (r : sol) (t : nat) : Q := r ((cls ++ "-status")%string, t, u_name u).
Definition on_of (r : sol) (t : nat) : bool := Qeq_bool (st r t) 1.
Definition bz (b : bool) : Z := if b then 1%Z else 0%Z.

Lemma on_of_q q : q == 0 \/ q == 1 -> q == b2q (Qeq_bool q 1).
Proof.
  intros D. destruct (Qeq_bool q 1) eqn:E; cbn [b2q].
  - now apply Qeq_bool_iff in E.
  - apply Qeq_bool_neq in E. destruct D as [D|D]; [exact D|contradiction].
Qed.
Lemma floor_bz q b : q == b2q b -> Qfloor q = bz b.
Proof. intros E. rewrite (Qfloor_comp _ _ E). destruct b; reflexivity. Qed.

Lemma past_on (n : net) s on : (forall t, (t < s)%nat -> st (res n) t == b2q (on t)) ->
  past cls (u_name u) n s = map (fun k => bz (on (s - 1 - k)%nat)) (seq 0 s).
Proof. intros B. unfold past. apply map_ext_in. intros k I. apply in_seq in I. apply floor_bz. apply B. lia. Qed.

Lemma bz_01 (f : nat -> bool) l : is_01 (map (fun k => bz (f k)) l).
Proof. intros y I. apply in_map_iff in I. destruct I as [k [<- _]]. destruct (f k); auto. Qed.

Lemma lead_seq b (f : nat -> bool) a k m : (m <= k)%nat -> (forall i, (i < m)%nat -> f (a + i)%nat = b) -> (m = k \/ f (a + m)%nat = negb b) ->
  lead b (map (fun i => bz (f i)) (seq a k)) = m.
Proof.
  revert a k. induction m as [|m IH]; intros a k L Fb Fm.
  - destruct k as [|k]; [reflexivity|]. destruct Fm as [Fm|Fm]; [lia|]. rewrite Nat.add_0_r in Fm. cbn [seq map lead]. rewrite Fm. destruct b; reflexivity.
  - destruct k as [|k]; [lia|]. cbn [seq map lead]. pose proof (Fb 0%nat ltac:(lia)) as F0. rewrite Nat.add_0_r in F0. rewrite F0.
    assert (E : Bool.eqb (bz b =? 1)%Z b = true) by (destruct b; reflexivity). rewrite E. f_equal. apply IH; [lia| |].
    + intros i I. specialize (Fb (S i) ltac:(lia)). now replace (S a + i)%nat with (a + S i)%nat by lia.
    + destruct Fm as [Fm|Fm]; [left; lia|right]. now replace (S a + m)%nat with (a + S m)%nat by lia.
Qed.

Section Window.
Variable w : nat * nat.
Variable n : net.
Variable x : sol.
Variable on : nat -> bool.
Let s := fst w.
Let v := unit_at cls u s n.
Hypothesis W : (fst w < snd w)%nat.
Hypothesis OK : commits cls u w n x.
Hypothesis Old : forall t, (t < s)%nat -> st (res n) t == b2q (on t).

Let onw (j : nat) : bool := on_of x j.
Lemma v_active t : u_active v t = true. Proof. apply A. Qed.
Lemma v_status j : val x (status cls v j) = st x j.
Proof. unfold status, uvar. rewrite v_active. reflexivity. Qed.
Lemma v_runs : runs cls v (snd w - fst w) x onw.
Proof.
  destruct OK as [_ [B _]]. intros j L. specialize (B j L (v_active j)). fold v in B. rewrite v_status in *. now apply on_of_q.
Qed.
Lemma hist_on : hist v = map (fun k => bz (on (s - 1 - k)%nat)) (seq 0 s).
Proof. apply past_on. exact Old. Qed.
Lemma hist_01 : is_01 (hist v). Proof. rewrite hist_on. apply bz_01. Qed.

Lemma lead_hist b m : (m <= s)%nat -> (forall t, (s - m <= t < s)%nat -> on t = b) -> (m = s \/ on (s - 1 - m)%nat = negb b) -> lead b (hist v) = m.
Proof.
  intros L F1 F2. rewrite hist_on. apply (lead_seq b (fun k => on (s - 1 - k)%nat) 0 s m L).
  - intros i I. apply F1. lia.
  - exact F2.
Qed.

Lemma later_pos : (0 < s)%nat -> later w = true.
Proof. intros L. unfold later. destruct (Nat.eqb_spec (fst w) 0); [unfold s in L; lia|reflexivity]. Qed.
Lemma later_zero : s = 0%nat -> later w = false.
Proof. intros L. unfold later. unfold s in L. now rewrite L. Qed.

Lemma window_before : initially_up v (later w) = was before on s.
Proof.
  assert (D : s = 0%nat \/ exists k, s = S k) by (destruct (Nat.eq_dec s 0) as [Z|Z]; [auto|right; exists (s - 1)%nat; lia]).
  destruct D as [E|[k E]].
  - rewrite E, (later_zero E). unfold initially_up, up_before_set, before, was. cbn [up_before v unit_at].
    destruct (up_before u); reflexivity.
  - rewrite later_pos by lia. rewrite (rolling_before v hist_01 MU), hist_on, E. cbn [was seq map lead].
    replace (S k - 1 - 0)%nat with k by lia. destruct (on k); reflexivity.
Qed.

(* what was started, or stopped, before the window goes on *)
Lemma window_keeps b m j : (0 < m <= s)%nat -> (forall t, (s - m <= t < s)%nat -> on t = b) -> (m = s \/ on (s - 1 - m)%nat = negb b) ->
  (fst w + j < snd w)%nat -> (j + m < if b then min_up u else min_down u)%nat -> onw j = b.
Proof.
  intros M F1 F2 L J. destruct OK as [S1 B1]. unfold window_commitment in S1. rewrite later_pos in S1 by lia.
  pose proof (rolling_run cls v (snd w - fst w) x onw hist_01 S1 v_runs j ltac:(lia) (v_active j)) as [U D].
  pose proof (lead_hist b m ltac:(lia) F1 F2) as LH. destruct b.
  - apply U; rewrite ?LH; cbn [min_up v unit_at]; lia.
  - apply D; rewrite ?LH; cbn [min_down v unit_at]; lia.
Qed.

Let on' (t : nat) : bool := if (t <? s)%nat then on t else onw (t - s).
Lemma on'_below t : (t < s)%nat -> on' t = on t.
Proof. intros L. unfold on'. destruct (Nat.ltb_spec t s); [reflexivity|lia]. Qed.
Lemma on'_in j : on' (s + j)%nat = onw j.
Proof. unfold on'. destruct (Nat.ltb_spec (s + j) s); [lia|]. f_equal. lia. Qed.
Lemma was_below t : (t <= s)%nat -> was before on' t = was before on t.
Proof. intros L. destruct t as [|t]; [reflexivity|]. cbn [was]. apply on'_below. lia. Qed.
Lemma was_in j : was before on' (s + j)%nat = was (initially_up v (later w)) onw j.
Proof.
  destruct j as [|j]; cbn [was].
  - rewrite Nat.add_0_r, window_before. apply was_below. lia.
  - rewrite Nat.add_succ_r. cbn [was]. apply on'_in.
Qed.
Lemma starts_in j : starts before on' (s + j)%nat = starts (initially_up v (later w)) onw j.
Proof. unfold starts. now rewrite was_in, on'_in. Qed.
Lemma stops_in j : stops before on' (s + j)%nat = stops (initially_up v (later w)) onw j.
Proof. unfold stops. now rewrite was_in, on'_in. Qed.
Lemma starts_below t : (t < s)%nat -> starts before on' t = starts before on t.
Proof. intros L. unfold starts. now rewrite was_below, on'_below by lia. Qed.
Lemma stops_below t : (t < s)%nat -> stops before on' t = stops before on t.
Proof. intros L. unfold stops. now rewrite was_below, on'_below by lia. Qed.

Lemma respects_up_next : respects_up u s before on (min_up u) -> respects_up u (snd w) before on' (min_up u).
Proof.
  intros P t t' L K A1 A2 B. destruct OK as [S1 B1]. destruct (Nat.lt_ge_cases t' s) as [D|D].
  - rewrite on'_below by auto. apply (P t t'); auto. now rewrite <- starts_below by lia.
  - assert (X : exists j, t' = (s + j)%nat) by (exists (t' - s)%nat; lia). destruct X as [j ->]. rewrite on'_in. destruct (Nat.lt_ge_cases t s) as [G|G].
    + rewrite starts_below in B by auto. apply (window_keeps true (s - t)); [lia| | |unfold s in *; lia|lia].
      * intros k I. apply (P t k); auto; lia.
      * unfold starts in B. apply andb_true_iff in B. destruct B as [B _]. apply negb_true_iff in B. destruct t as [|t]; [left; lia|right].
        cbn [was] in B. now replace (s - 1 - (s - S t))%nat with t by lia.
    + assert (X : exists i, t = (s + i)%nat) by (exists (t - s)%nat; lia). destruct X as [i ->]. rewrite starts_in in B.
      apply (sound_up cls v (snd w - fst w) (later w) x onw S1 B1 v_runs i j); cbn [min_up v unit_at]; try (unfold s in *; lia); auto using v_active.
Qed.

Lemma respects_down_next : respects_down u s before on (min_down u) -> respects_down u (snd w) before on' (min_down u).
Proof.
  intros P t t' L K A1 A2 B. destruct OK as [S1 B1]. destruct (Nat.lt_ge_cases t' s) as [D|D].
  - rewrite on'_below by auto. apply (P t t'); auto. now rewrite <- stops_below by lia.
  - assert (X : exists j, t' = (s + j)%nat) by (exists (t' - s)%nat; lia). destruct X as [j ->]. rewrite on'_in. destruct (Nat.lt_ge_cases t s) as [G|G].
    + rewrite stops_below in B by auto. apply (window_keeps false (s - t)); [lia| | |unfold s in *; lia|lia].
      * intros k I. apply (P t k); auto; lia.
      * unfold stops in B. apply andb_true_iff in B. destruct B as [B _]. destruct t as [|t]; [left; lia|right].
        cbn [was] in B. now replace (s - 1 - (s - S t))%nat with t by lia.
    + assert (X : exists i, t = (s + i)%nat) by (exists (t - s)%nat; lia). destruct X as [i ->]. rewrite stops_in in B.
      apply (sound_down cls v (snd w - fst w) (later w) x onw S1 B1 v_runs i j); cbn [min_down v unit_at]; try (unfold s in *; lia); auto using v_active.
Qed.

Lemma keeps_next : keeps_initial u s on -> keeps_initial u (snd w) on'.
Proof.
  intros P t L. destruct OK as [S1 B1]. destruct (Nat.lt_ge_cases t s) as [D|D].
  { rewrite on'_below by auto. now apply P. }
  assert (X : exists j, t = (s + j)%nat) by (exists (t - s)%nat; lia). destruct X as [j ->]. rewrite on'_in.
  destruct (Nat.eq_dec s 0) as [Z|Z].
  - unfold window_commitment in S1. rewrite (later_zero Z) in S1.
    destruct (sound_initial cls v (snd w - fst w) false x onw S1 v_runs j ltac:(unfold s in *; lia) (v_active j)) as [I1 I2].
    unfold initially_up, initially_down, up_before_set, down_before_set in I1, I2. cbn [up_before down_before min_up min_down v unit_at] in I1, I2.
    rewrite Z. cbn [Nat.add]. split; intros G1 G2.
    + apply I1; [|lia]. destruct (Nat.eqb_spec (up_before u) 0); [lia|reflexivity].
    + apply I2; [|lia]. destruct (Nat.eqb_spec (down_before u) 0); [lia|reflexivity].
  - split; intros G1 G2.
    + apply (window_keeps true s); [lia| |auto|unfold s in *; lia|lia]. intros k I. apply (P k); lia.
    + apply (window_keeps false s); [lia| |auto|unfold s in *; lia|lia]. intros k I. apply (P k); lia.
Qed.

Lemma shows_next : shows (res (assign w x n)) cls u (snd w) on'.
Proof.
  intros t L. destruct (Nat.lt_ge_cases t s) as [D|D].
  - rewrite on'_below by auto. rewrite put_below by exact D. apply Old. exact D.
  - rewrite put_at by (unfold s in *; lia). unfold on'. destruct (Nat.ltb_spec t s); [lia|].
    pose proof (v_runs (t - s)%nat ltac:(unfold s in *; lia)) as R. rewrite v_status in R. exact R.
Qed.

Lemma pays_next : pays (res n) cls u s before on -> pays (res (assign w x n)) cls u (snd w) before on'.
Proof.
  intros P t L. destruct (Nat.lt_ge_cases t s) as [D|D].
  - rewrite starts_below, stops_below by auto. rewrite !put_below by exact D. now apply P.
  - rewrite !put_at by (unfold s in *; lia). assert (X : exists j, t = (s + j)%nat) by (exists (t - s)%nat; lia). destruct X as [j ->].
    rewrite starts_in, stops_in. destruct OK as [S1 B1].
    pose proof (sound_transitions cls v (snd w - fst w) (later w) x onw S1 B1 v_runs j ltac:(unfold s in *; lia) (v_active j)) as [T1 T2].
    destruct B1 as [_ [B2 B3]]. specialize (B2 j ltac:(unfold s in *; lia) (v_active j)). specialize (B3 j ltac:(unfold s in *; lia) (v_active j)).
    fold s v in B2, B3. replace (s + j - fst w)%nat with j by (unfold s; lia).
    assert (E1 : val x (start_up cls v j) = x ((cls ++ "-start_up")%string, j, u_name u)) by (unfold start_up, uvar; now rewrite v_active).
    assert (E2 : val x (shut_down cls v j) = x ((cls ++ "-shut_down")%string, j, u_name u)) by (unfold shut_down, uvar; now rewrite v_active).
    rewrite E1 in T1, B2. rewrite E2 in T2, B3. split.
    + destruct (starts _ onw j); cbn [b2q]; [rewrite T1 by reflexivity; lra|destruct B2; lra].
    + destruct (stops _ onw j); cbn [b2q]; [rewrite T2 by reflexivity; lra|destruct B3; lra].
Qed.
End Window.

Definition good (E : nat) (n : net) : Prop := exists on, shows (res n) cls u E on /\
  respects_up u E before on (min_up u) /\ respects_down u E before on (min_down u) /\ keeps_initial u E on /\ pays (res n) cls u E before on.

Lemma good_next w x n E : (fst w <= E)%nat -> (fst w < snd w)%nat -> commits cls u w n x -> good E n -> good (snd w) (assign w x n).
Proof.
  intros C1 C2 K [on [S1 [U [D [I P]]]]].
  assert (Old : forall t, (t < fst w)%nat -> st (res n) t == b2q (on t)) by (intros t L; apply S1; lia).
  eexists. split; [apply (shows_next w n x on C2 K Old)|]. split; [|split; [|split]].
  - apply (respects_up_next w n x on C2 K Old). intros t t' L. apply U. lia.
  - apply (respects_down_next w n x on C2 K Old). intros t t' L. apply D. lia.
  - apply (keeps_next w n x on C2 K Old). intros t L. apply I. lia.
  - apply (pays_next w n x on C2 K Old). intros t L. apply P. lia.
Qed.
End Unit.

Lemma schedule len horizon overlap cls u optimize n ws :
  (0 <= overlap < horizon)%Z -> windows len horizon overlap = Windows ws -> (forall t, u_active u t = true) -> (0 < min_up u)%nat ->
  run_ok optimize (commits cls u) 0 ws n ->
  let r := res (loop optimize 0 ws n) in let before := Nat.ltb 0 (up_before u) in
  exists on, shows r cls u len on /\ respects_up u len before on (min_up u) /\ respects_down u len before on (min_down u) /\
    keeps_initial u len on /\ pays r cls u len before on.
Proof.
  intros O W A MU R r before. destruct len as [|len].
  - exists (fun _ => true). split; [|split; [|split; [|split]]]; intros t; intros; lia.
  - apply (run_result (S len) horizon overlap optimize (commits cls u) (good cls u) ws n O W); [lia| | |exact R|].
    + intros s E m [on G]. exists on. exact G.
    + intros w x m E C1 C2 C3 K G. now apply (good_next cls u A MU w x m E).
    + exists (fun _ => true). split; [|split; [|split; [|split]]]; intros t; intros; lia.
Qed.

Lemma whole len horizon overlap cls u optimize n ws :
  (0 <= overlap < horizon)%Z -> windows len horizon overlap = Windows ws -> (forall t, u_active u t = true) -> (0 < min_up u)%nat ->
  run_ok optimize (commits cls u) 0 ws n ->
  let r := res (loop optimize 0 ws n) in
  exists x, sat x (commitment cls u len false) /\ binary cls u len x /\
    forall t, (t < len)%nat -> val x (status cls u t) == r (cls ++ "-status", t, u_name u)%string /\
      val x (start_up cls u t) <= r (cls ++ "-start_up", t, u_name u)%string /\
      val x (shut_down cls u t) <= r (cls ++ "-shut_down", t, u_name u)%string.
Proof.
  intros O W A MU R r. destruct (schedule len horizon overlap cls u optimize n ws O W A MU R) as [on [H1 [H2 [H3 [H4 H5]]]]]. fold r in H1, H5.
  assert (B : initially_up u false = Nat.ltb 0 (up_before u)).
  { unfold initially_up, up_before_set. destruct (up_before u); reflexivity. }
  destruct (complete_ex cls u len false on) as [x [X1 [X2 [X3 X4]]]].
  - intros t L. apply A.
  - now rewrite B.
  - now rewrite B.
  - intros I t L M. apply (H4 t L); unfold initially_up, up_before_set in *; destruct (Nat.eqb_spec (up_before u) 0); try discriminate; lia.
  - intros I t L M. apply (H4 t L); unfold initially_down, down_before_set in *; destruct (Nat.eqb_spec (down_before u) 0); try discriminate; lia.
  - exists x. split; [exact X3|]. split; [exact X2|]. intros t L. destruct (X4 t L) as [E1 E2]. rewrite E1, E2, B. rewrite (X1 t L), (H1 t L).
    destruct (H5 t L) as [P1 P2]. repeat split; auto; reflexivity.
Qed.

(* ramp limits *)
Section Ramps.
Variables cls nattr : string.
Variable assets : list rasset.
Hypothesis NE : forall a : rasset, In a assets -> ext a = false.
Hypothesis AC : forall (a : rasset) t, In a assets -> active a t = true.
Hypothesis LIM : limited assets.

Lemma of_active (a : rasset) (r : sol) t : active a t = true ->
  p_of cls r a t = r ((cls ++ "-p")%string, t, name a) /\ s_of cls r a t = r ((cls ++ "-status")%string, t, name a).
Proof. intros E. unfold p_of, s_of, reported, op, vname. rewrite E. split; reflexivity. Qed.

Definition zero_one (r : sol) (a : rasset) (t : nat) : Prop :=
  (r (cls ++ "-status", t, name a)%string == 0 /\ r (cls ++ "-p", t, name a)%string == 0) \/ r (cls ++ "-status", t, name a)%string == 1.
Definition step_ok (r : sol) (a : rasset) (t : nat) : Prop :=
  (com a = false -> ramps_within cls r a t (nom a)) /\ (com a = true -> on_off cls r a t /\ com_within cls r a t).
Definition ramped (E : nat) (n : net) : Prop := forall a : rasset, In a assets ->
  (forall k, (S k < E)%nat -> step_ok (res n) a (S k)) /\ (com a = true -> forall t, (t < E)%nat -> zero_one (res n) a t).

Lemma step_transfer (a a' : rasset) (r r' : sol) t t' :
  com a = com a' -> nom a = nom a' -> up a t = up a' t' -> down a t = down a' t' -> up_static a = up_static a' -> down_static a = down_static a' ->
  start_lim a = start_lim a' -> shut_lim a = shut_lim a' ->
  p_of cls r a t = p_of cls r' a' t' -> s_of cls r a t = s_of cls r' a' t' -> p_prev cls r a t = p_prev cls r' a' t' -> s_prev cls r a t = s_prev cls r' a' t' ->
  step_ok r' a' t' -> step_ok r a t.
Proof.
  intros E1 E2 E3 E4 E5 E6 E7 E8 E9 E10 E11 E12. unfold step_ok, ramps_within, on_off, com_within. rewrite E1, E2, E3, E4, E5, E6, E7, E8, E9, E10, E11, E12. auto.
Qed.

Lemma zero_one_01 r (a : rasset) t : active a t = true -> zero_one r a t -> (s_of cls r a t == 0 \/ s_of cls r a t == 1) /\ (s_of cls r a t == 0 -> p_of cls r a t == 0).
Proof.
  intros E Z. destruct (of_active a r t E) as [-> ->]. destruct Z as [[Z1 Z2]|Z]; split; auto. intros F. rewrite F in Z. discriminate Z.
Qed.

Lemma limited_window w n : (fst w < snd w)%nat ->
  has_limit (snd w - fst w) (map (ramp_at cls (fst w) n) assets) /\ has_limit_not_one (snd w - fst w) (map (ramp_at cls (fst w) n) assets).
Proof.
  intros L. destruct LIM as [a [I F]]. destruct (F (fst w + 0)%nat) as [l [E N]]. split.
  - exists (ramp_at cls (fst w) n a), 0%nat, l. split; [now apply in_map|]. split; [lia|]. left. exact E.
  - exists (ramp_at cls (fst w) n a), 0%nat. split; [now apply in_map|]. split; [lia|]. left. intros l' E'.
    change (up (ramp_at cls (fst w) n a) 0) with (up a (fst w + 0)) in E'. rewrite E in E'. injection E' as <-. exact N.
Qed.

Lemma ramped_next w x n E : (fst w <= E)%nat -> (fst w < snd w)%nat -> ramp_ok cls nattr assets w n x -> ramped E n -> ramped (snd w) (assign w x n).
Proof.
  intros C1 C2 [K1 K2] V a I. destruct (V a I) as [V1 V2].
  assert (Z : com a = true -> forall t, (t < snd w)%nat -> zero_one (res (assign w x n)) a t).
  { intros CM t L. unfold zero_one. destruct (Nat.lt_ge_cases t (fst w)) as [D|D].
    - rewrite !put_below by auto. apply V2; auto. lia.
    - rewrite !put_at by lia. apply K2; auto. lia. }
  split; [|exact Z]. intros k L. destruct (Nat.lt_ge_cases (S k) (fst w)) as [D|D].
  - apply (step_transfer a a (res (assign w x n)) (res n) (S k) (S k)); auto; [| | | |apply V1; lia]; cbn [p_prev s_prev];
      unfold p_of, s_of, reported, op; rewrite !(AC a) by auto; cbn [val]; rewrite put_below; auto; lia.
  - assert (X : exists j, S k = (fst w + j)%nat) by (exists (S k - fst w)%nat; lia). destruct X as [j J]. set (a' := ramp_at cls (fst w) n a).
    assert (A' : forall t, active a' t = true) by (intros t; exact (AC a (fst w + t)%nat I)).
    assert (I' : In a' (map (ramp_at cls (fst w) n) assets)) by (now apply in_map).
    assert (HP : has_prev (later w) (snd w - fst w) j).
    { split; [lia|]. unfold later. destruct (Nat.eqb_spec (fst w) 0) as [Z0|Z0]; [right; lia|left; reflexivity]. }
    destruct (limited_window w n C2) as [H1 H2].
    assert (P1 : p_of cls (res (assign w x n)) a (S k) = p_of cls x a' j).
    { unfold p_of, reported, op. rewrite A', (AC a) by auto. cbn [val]. rewrite J, put_in by lia. reflexivity. }
    assert (P2 : s_of cls (res (assign w x n)) a (S k) = s_of cls x a' j).
    { unfold s_of, reported, op. rewrite A', (AC a) by auto. cbn [val]. rewrite J, put_in by lia. reflexivity. }
    assert (P3 : p_prev cls (res (assign w x n)) a (S k) = p_prev cls x a' j).
    { cbn [p_prev]. unfold p_of at 1, reported at 1, op. rewrite (AC a) by auto. cbn [val]. destruct j as [|j]; cbn [p_prev].
      - unfold a'. cbn [p_start ramp_at]. rewrite put_below by lia. now replace (fst w - 1)%nat with k by lia.
      - unfold p_of, reported, op. rewrite A'. cbn [val]. replace k with (fst w + j)%nat by lia. rewrite put_in by lia. reflexivity. }
    assert (P4 : s_prev cls (res (assign w x n)) a (S k) = s_prev cls x a' j).
    { cbn [s_prev]. unfold s_of at 1, reported at 1, op. rewrite (AC a) by auto. cbn [val]. destruct j as [|j]; cbn [s_prev].
      - unfold a'. cbn [status_start ramp_at]. rewrite put_below by lia. now replace (fst w - 1)%nat with k by lia.
      - unfold s_of, reported, op. rewrite A'. cbn [val]. replace k with (fst w + j)%nat by lia. rewrite put_in by lia. reflexivity. }
    apply (step_transfer a a' (res (assign w x n)) x (S k) j); auto; try (rewrite J; reflexivity).
    split; intros CM.
    + pose proof (non_committable cls nattr (snd w - fst w) (later w) _ x a' j H1 H2 K1 I' (or_intror CM) (A' j) HP) as R.
      unfold nom_opt in R. change (ext a') with (ext a) in R. rewrite (NE a I) in R. exact R.
    + assert (OO : on_off cls x a' j).
      { unfold on_off. rewrite <- P1, <- P2, <- P3, <- P4. change (com a' = true) with (com a = true) in CM. cbn [p_prev s_prev].
        destruct (zero_one_01 (res (assign w x n)) a (S k) (AC a _ I) (Z CM (S k) L)) as [Q1 Q2].
        destruct (zero_one_01 (res (assign w x n)) a k (AC a _ I) (Z CM k ltac:(lia))) as [Q3 Q4]. auto. }
      split; [exact OO|]. apply (committable cls nattr (snd w - fst w) (later w) _ x a' j H1 H2 K1 I' CM (A' j) HP OO).
Qed.

Lemma ramps_run len horizon overlap optimize n ws :
  (0 <= overlap < horizon)%Z -> windows len horizon overlap = Windows ws -> run_ok optimize (ramp_ok cls nattr assets) 0 ws n ->
  let r := res (loop optimize 0 ws n) in
  (forall (a : rasset) k, In a assets -> (S k < len)%nat ->
    (com a = false -> ramps_within cls r a (S k) (nom a)) /\ (com a = true -> com_within cls r a (S k))) /\
  sat r (ramps cls nattr len false assets).
Proof.
  intros O W R r. assert (G : ramped len (loop optimize 0 ws n)).
  { destruct len as [|len]; [intros a I; split; intros; lia|].
    apply (run_result (S len) horizon overlap optimize (ramp_ok cls nattr assets) ramped ws n O W); [lia| | |exact R|].
    - intros s E m V. exact V.
    - intros w x m E C1 C2 C3 K G. now apply (ramped_next w x m E).
    - intros a I. split; intros; lia. }
  split.
  - intros a k I L. destruct (G a I) as [G1 _]. destruct (G1 k L) as [S1 S2]. split; [exact S1|]. intros C. apply (S2 C).
  - apply ramps_complete. intros a t I A1 [L [F|P]]; [discriminate F|]. destruct t as [|k]; [lia|]. destruct (G a I) as [G1 _]. destruct (G1 k L) as [S1 S2].
    split; [|exact S2]. intros [X|X]; [rewrite (NE a I) in X; discriminate X|]. unfold nom_opt. rewrite (NE a I). exact (S1 X).
Qed.
End Ramps.

(* examples: the windows take their part of a plan for the whole horizon *)
Definition planned (plan : sol) : nat -> nat * nat -> net -> option sol :=
  fun _ w _ => Some (fun v => let '(nm, t, c) := v in plan (nm, (fst w + t)%nat, c)).
Definition plan_of (sts ups downs : list Q) : sol := fun v => let '(nm, t, _) := v in
  if String.eqb nm "Generator-status" then nth t sts 0 else if String.eqb nm "Generator-start_up" then nth t ups 0
  else if String.eqb nm "Generator-shut_down" then nth t downs 0 else 0.
Definition net0 : net := {| res := fun _ => 0; e_initial := fun _ => 0; soc_initial := fun _ => 0 |}.
Definition is01b (q : Q) : bool := Qeq_bool q 0 || Qeq_bool q 1.
Lemma is01b_ok q : is01b q = true -> q == 0 \/ q == 1.
Proof. unfold is01b. intros H. apply orb_true_iff in H. destruct H as [H|H]; apply Qeq_bool_iff in H; auto. Qed.
Definition binb (u : unit_) (T : nat) (x : sol) : bool :=
  forallb (fun t => is01b (val x (status "Generator" u t)) && is01b (val x (start_up "Generator" u t)) && is01b (val x (shut_down "Generator" u t))) (seq 0 T).
Lemma binb_ok u T x : binb u T x = true -> binary "Generator" u T x.
Proof.
  intros H. unfold binb in H. rewrite forallb_forall in H. split; [|split]; intros t L _; assert (I : In t (seq 0 T)) by (apply in_seq; lia);
    specialize (H t I); apply andb_true_iff in H; destruct H as [H H3]; apply andb_true_iff in H; destruct H as [H1 H2]; apply is01b_ok; auto.
Qed.

Definition plan1 : sol := plan_of [1; 0; 0; 0; 1; 1] [0; 0; 0; 0; 1; 0] [0; 1; 0; 0; 0; 0].
Lemma ex_run : windows 6 3 1 = Windows [(0, 3); (2, 5); (4, 6)]%nat /\
  run_ok (planned plan1) (commits "Generator" (ex_u 2 3 [])) 0 [(0, 3); (2, 5); (4, 6)]%nat net0.
Proof.
  split; [reflexivity|]. cbn [run_ok]. do 3 (eexists; split; [reflexivity|]; split; [split; [apply satb_iff; vm_compute; reflexivity|apply binb_ok; vm_compute; reflexivity]|]).
  exact I.
Qed.

Definition plan2 : sol := plan_of [1; 1; 0; 1] [0; 0; 0; 1] [0; 0; 0; 0].
Lemma min_up_zero : exists u optimize, min_down u = 3%nat /\ min_up u = 0%nat /\ up_before u = 1%nat /\ (forall t, u_active u t = true) /\
  windows 4 2 0 = Windows [(0, 2); (2, 4)]%nat /\ run_ok optimize (commits "Generator" u) 0 [(0, 2); (2, 4)]%nat net0 /\
  let r := res (loop optimize 0 [(0, 2); (2, 4)]%nat net0) in
  map (fun t => r ("Generator-status", t, u_name u)%nat) [0; 1; 2; 3]%nat = [1; 1; 0; 1] /\
  map (fun t => r ("Generator-shut_down", t, u_name u)%nat) [0; 1; 2; 3]%nat = [0; 0; 0; 0].
Proof.
  exists (ex_u 0 3 []), (planned plan2). do 5 (split; [reflexivity|]). split.
  - cbn [run_ok]. do 2 (eexists; split; [reflexivity|]; split; [split; [apply satb_iff; vm_compute; reflexivity|apply binb_ok; vm_compute; reflexivity]|]).
    exact I.
  - split; reflexivity.
Qed.

(* what has been running for long before the horizon *)
Definition veteran : unit_ :=
  {| u_name := "g"; u_active := fun _ => true; min_up := 3; min_down := 1; up_before := 5; down_before := 0; hist := [];
     lower_p := fun _ => 0; upper_p := fun _ => 10; r_up := 10; r_down := 10; r_start := 10; r_shut := 10 |}.
Lemma forgets_before : windows 2 1 0 = Windows [(0, 1); (1, 2)]%nat /\
  (exists x, sat x (commitment "Generator" veteran 2 false) /\ binary "Generator" veteran 2 x /\
     val x (status "Generator" veteran 0) == 1 /\ val x (status "Generator" veteran 1) == 0) /\
  forall optimize n, run_ok optimize (commits "Generator" veteran) 0 [(0, 1); (1, 2)]%nat n ->
    let r := res (loop optimize 0 [(0, 1); (1, 2)]%nat n) in
    r ("Generator-status", 0%nat, "g") == 1 -> r ("Generator-status", 1%nat, "g") == 1.
Proof.
  split; [reflexivity|]. split.
  - exists (plan_of [1; 0] [0; 0] [0; 1]). split; [apply satb_iff; vm_compute; reflexivity|]. split; [apply binb_ok; vm_compute; reflexivity|]. split; reflexivity.
  - intros optimize n [x0 [O0 [K0 [x1 [O1 [K1 _]]]]]] r E. cbn [fst] in *. unfold r in *. cbn [loop fst] in *. rewrite O0 in *. cbn [fst] in *. rewrite O1 in *.
    set (n1 := hand_over 1 (assign (0, 1)%nat x0 n)) in *.
    rewrite put_below in E by (cbn; lia). rewrite (put_at (1, 2)%nat) by (cbn; lia). cbn [fst]. replace (1 - 1)%nat with 0%nat by lia.
    assert (Old : forall t, (t < fst (1, 2)%nat)%nat -> st "Generator" veteran (res n1) t == b2q ((fun _ => true) t)).
    { intros t L. cbn [fst] in L. assert (t = 0%nat) by lia. subst t. exact E. }
    pose proof (window_keeps "Generator" veteran (fun _ => eq_refl) ltac:(cbn; lia) (1, 2)%nat n1 x1 (fun _ => true)) as G.
    assert (W : (fst (1, 2)%nat < snd (1, 2)%nat)%nat) by (cbn; lia).
    assert (H : on_of "Generator" veteran x1 0 = true).
    { apply (G W K1 Old true 1%nat 0%nat); cbn; auto; lia. }
    apply Qeq_bool_iff in H. exact H.
Qed.

(* ramps *)
Definition r_assets : list rasset :=
  [ ex_r "f" false false 0 (Some (1 # 5)) (Some (1 # 4)) 1 1; ex_r "c" false true (1 # 10) (Some (1 # 5)) None (1 # 2) 1 ].
Definition r_plan : sol := sol_of (fun w t nm =>
  if String.eqb w "Generator-p" then if String.eqb nm "f" then nth t [50; 60; 80; 70] 0 else nth t [60; 0; 40; 50] 0
  else if String.eqb w "Generator-status" then nth t [1; 0; 1; 1] 0 else 0).
Lemma ex_ramps : limited r_assets /\ (forall a : rasset, In a r_assets -> ext a = false /\ forall t, active a t = true) /\
  windows 4 2 0 = Windows [(0, 2); (2, 4)]%nat /\ run_ok (planned r_plan) (ramp_ok "Generator" "p_nom" r_assets) 0 [(0, 2); (2, 4)]%nat net0.
Proof.
  split.
  { exists (ex_r "f" false false 0 (Some (1 # 5)) (Some (1 # 4)) 1 1). split; [left; reflexivity|]. intros t. exists (1 # 5). split; [reflexivity|intros E; discriminate E]. }
  split; [intros a [<-|[<-|[]]]; split; reflexivity|]. split; [reflexivity|]. cbn [run_ok].
  eexists; split; [reflexivity|]. split; [split; [apply satb_iff; vm_compute; reflexivity|]|].
  { intros a j [<-|[<-|[]]] C L; [discriminate C|]. cbn [fst snd] in L. destruct j as [|[|j]]; [right; reflexivity|left; split; reflexivity|lia]. }
  eexists; split; [reflexivity|]. split; [split; [apply satb_iff; vm_compute; reflexivity|]|exact I].
  intros a j [<-|[<-|[]]] C L; [discriminate C|]. cbn [fst snd] in L. destruct j as [|[|j]]; [right; reflexivity|right; reflexivity|lia].
Qed.
