From Coq Require Import List String Bool QArith ZArith Arith Lqa Lia.
From Verif Require Import LinModel LinProofs StorageModel StorageSpec.
Import ListNotations.
Open Scope string_scope.
Open Scope list_scope.
Open Scope Q_scope.

(* the latest position up to t satisfying f *)
Fixpoint latest (f : nat -> bool) (t : nat) : option nat :=
  if f t then Some t else match t with O => None | S k => latest f k end.
Lemma latest_some f t s : latest f t = Some s <-> (s <= t)%nat /\ f s = true /\ forall r, (s < r <= t)%nat -> f r = false.
Proof.
  induction t as [|t IH]; cbn [latest].
  - destruct (f 0%nat) eqn:E; split; intros H.
    + injection H as <-. repeat split; auto. lia.
    + destruct H as [L _]. f_equal. lia.
    + discriminate.
    + destruct H as [L [F _]]. assert (s = 0%nat) by lia. congruence.
  - destruct (f (S t)) eqn:E; split; intros H.
    + injection H as <-. repeat split; auto. lia.
    + destruct H as [L [F N]]. destruct (Nat.eq_dec s (S t)) as [->|D]; [reflexivity|]. rewrite N in E by lia. discriminate.
    + apply IH in H. destruct H as [L [F N]]. repeat split; auto. intros r R. destruct (Nat.eq_dec r (S t)) as [->|D]; auto. apply N. lia.
    + destruct H as [L [F N]]. apply IH. destruct (Nat.eq_dec s (S t)) as [->|D]; [congruence|]. repeat split; auto; [lia|]. intros r R. apply N. lia.
Qed.
Lemma latest_none f t : latest f t = None <-> forall r, (r <= t)%nat -> f r = false.
Proof.
  induction t as [|t IH]; cbn [latest].
  - destruct (f 0%nat) eqn:E; split; intros H; auto; [discriminate| |].
    + rewrite H in E by lia. discriminate.
    + intros r R. assert (r = 0%nat) by lia. now subst.
  - destruct (f (S t)) eqn:E; split; intros H.
    + discriminate.
    + rewrite H in E by lia. discriminate.
    + intros r R. destruct (Nat.eq_dec r (S t)) as [->|D]; auto. apply (proj1 IH H). lia.
    + apply IH. intros r R. apply H. lia.
Qed.

Lemma pred_none f b k d t : (b <= t < b + k)%nat -> f t = true -> (forall r, (b <= r < t)%nat -> f r = false) ->
  pred_in d (filter f (seq b k)) t = d.
Proof.
  revert b. induction k as [|k IH]; intros b L F N; [lia|]. cbn [seq filter].
  destruct (Nat.eq_dec b t) as [->|D]; [rewrite F; cbn [pred_in]; now rewrite Nat.eqb_refl|].
  rewrite (N b) by lia. apply IH; auto; [lia|]. intros r R. apply N. lia.
Qed.
Lemma pred_some f b k d t s : (b <= s < t)%nat -> (t < b + k)%nat -> f s = true -> f t = true ->
  (forall r, (s < r < t)%nat -> f r = false) -> pred_in d (filter f (seq b k)) t = s.
Proof.
  revert b d. induction k as [|k IH]; intros b d L Lt Fs Ft N; [lia|]. cbn [seq filter].
  destruct (Nat.eq_dec b s) as [->|D].
  - rewrite Fs. cbn [pred_in]. destruct (Nat.eqb_spec s t); [lia|]. apply pred_none; auto; lia.
  - destruct (f b) eqn:E.
    + cbn [pred_in]. destruct (Nat.eqb_spec b t); [lia|]. apply IH; auto; lia.
    + apply IH; auto; lia.
Qed.
Lemma last_filter f b k d s : (b <= s < b + k)%nat -> f s = true -> (forall r, (s < r < b + k)%nat -> f r = false) ->
  last (filter f (seq b k)) d = s.
Proof.
  revert b d. induction k as [|k IH]; intros b d L F N; [lia|]. cbn [seq filter].
  destruct (Nat.eq_dec b s) as [->|D].
  - rewrite F. replace (filter f (seq (S s) k)) with (@nil nat); [reflexivity|]. symmetry.
    destruct (filter f (seq (S s) k)) as [|c l] eqn:E; auto. assert (I : In c (filter f (seq (S s) k))) by (rewrite E; simpl; auto).
    apply filter_In in I. destruct I as [I G]. apply in_seq in I. rewrite N in G by lia. discriminate.
  - destruct (f b) eqn:E.
    + rewrite <- (IH (S b) d) by (auto; intros; try apply N; lia).
      destruct (filter f (seq (S b) k)) as [|c l] eqn:X; [|reflexivity].
      exfalso. assert (I : In s (filter f (seq (S b) k))) by (apply filter_In; split; auto; apply in_seq; lia). rewrite X in I. destruct I.
    + apply IH; auto; try lia. intros; apply N; lia.
Qed.

Section P.
Variable T : nat.
Variable periods : option (nat -> Z).
Variable lev : string.
Variable a : storage.
Let act := s_active a.
Let lv := level lev a.

Lemma lv_some t : act t = true -> exists v, lv t = Some v.
Proof. intros A. unfold lv, level, var_of. unfold act in A. rewrite A. eauto. Qed.

Lemma ffill_where t : ffill (where_ lv act) t = match latest act t with Some s => lv s | None => None end.
Proof.
  induction t as [|t IH]; cbn [ffill latest]; unfold where_ at 1.
  - destruct (act 0%nat) eqn:A; [|reflexivity]. destruct (lv_some _ A) as [v ->]. reflexivity.
  - destruct (act (S t)) eqn:A; [|exact IH]. destruct (lv_some _ A) as [v ->]. reflexivity.
Qed.

Let F := ffill (roll T (ffill (where_ lv act))).
Lemma F_prec s t : precedes a s t -> F t = lv s.
Proof.
  intros [L [A N]]. destruct t as [|k]; [lia|]. unfold F. cbn [ffill roll]. rewrite ffill_where.
  assert (E : latest act k = Some s) by (apply latest_some; repeat split; auto; [lia|]; intros r R; apply N; lia).
  rewrite E. destruct (lv_some s A) as [v ->]. reflexivity.
Qed.
Lemma F_first s t : is_first a t -> is_last T a s -> F t = lv s.
Proof.
  intros I [L [A N]].
  assert (E : ffill (where_ lv act) (T - 1) = lv s).
  { rewrite ffill_where. assert (E : latest act (T - 1) = Some s) by (apply latest_some; repeat split; auto; [lia|]; intros r R; apply N; lia). now rewrite E. }
  induction t as [|t IH].
  - unfold F. cbn [ffill roll]. rewrite E. destruct (lv_some s A) as [v ->]. reflexivity.
  - unfold F. cbn [ffill roll]. rewrite ffill_where.
    assert (Z : latest act t = None) by (apply latest_none; intros r R; apply I; lia). rewrite Z. apply IH. intros r R. apply I. lia.
Qed.

Lemma cumsum_first t : is_first a t -> act t = true -> cumsum act t = 1%nat.
Proof.
  intros I A. destruct t as [|t]; cbn [cumsum]; rewrite A; [reflexivity|].
  assert (Z : cumsum act t = 0%nat); [|lia]. clear A. induction t as [|t IH]; cbn [cumsum].
  - unfold act. rewrite (I 0%nat) by lia. reflexivity.
  - unfold act at 1. rewrite (I (S t)) by lia. rewrite IH; [reflexivity|]. intros r R. apply I. lia.
Qed.
Lemma cumsum_mono s t : (s <= t)%nat -> (cumsum act s <= cumsum act t)%nat.
Proof. induction 1; auto. cbn [cumsum]. destruct (act (S m)); lia. Qed.
Lemma cumsum_prec s t : precedes a s t -> act t = true -> (2 <= cumsum act t)%nat.
Proof.
  intros [L [A _]] At. destruct t as [|k]; [lia|]. cbn [cumsum]. rewrite At.
  assert (1 <= cumsum act s)%nat by (destruct s; cbn [cumsum]; unfold act in *; rewrite A; lia).
  pose proof (cumsum_mono s k ltac:(lia)). lia.
Qed.

Lemma source_label t src : (t < T)%nat -> act t = true -> comes_from T periods a t src ->
  included periods a t = match src with Initial => false | From _ => true end /\
  prev_label T periods lev a t = match src with Initial => None | From s => lv s end.
Proof.
  intros L A C.
  assert (PL : match src with Initial => s_cyclic a = false /\ is_first a t
              | From s => precedes a s t \/ (s_cyclic a = true /\ is_first a t /\ is_last T a s) end ->
     include_previous a t = match src with Initial => false | From _ => true end /\
     previous T lev a t = match src with Initial => None | From s => lv s end).
  { clear C. intros C. unfold previous, where_ at 1. fold act lv. fold F. destruct src as [|s].
    - destruct C as [C I]. unfold include_previous. rewrite C. fold act. rewrite (cumsum_first t I A). split; reflexivity.
    - destruct C as [C|[C [I J]]].
      + assert (E : include_previous a t = true).
        { unfold include_previous. destruct (s_cyclic a); auto. fold act. pose proof (cumsum_prec s t C A). destruct (Nat.eqb_spec (cumsum act t) 1); auto. lia. }
        rewrite E. split; [reflexivity|]. now apply F_prec.
      + assert (E : include_previous a t = true) by (unfold include_previous; now rewrite C). rewrite E. split; auto. now apply F_first. }
  unfold comes_from, separate_periods in C. unfold included, prev_label, per_period. destruct periods as [per|]; [|auto].
  destruct (s_cyclic_pp a || s_init_pp a); [|auto]. clear PL.
  unfold previous_pp. destruct src as [|s].
  - destruct C as [C B]. assert (E : include_pp a per t = false).
    { unfold include_pp. rewrite C. destruct t as [|k]; [now rewrite andb_false_r|].
      destruct (Z.eqb_spec (per (S k)) (per k)) as [Q|Q]; [|now rewrite andb_false_r]. exfalso. apply (B k); auto. }
    rewrite E. auto.
  - destruct C as [[Q P]|[C [B E]]].
    + assert (I : include_pp a per t = true).
      { unfold include_pp. destruct (s_cyclic a); auto. unfold act in A. rewrite A. subst t. apply Z.eqb_eq. auto. }
      rewrite I. split; auto. fold lv. f_equal. unfold block. apply pred_some; try lia.
      * unfold same_period. now apply Z.eqb_eq.
      * unfold same_period. now apply Z.eqb_eq.
    + assert (I : include_pp a per t = true) by (unfold include_pp; now rewrite C). rewrite I. split; auto. fold lv. f_equal.
      unfold block. rewrite pred_none; [|lia| |].
      * destruct E as [E1 [E2 E3]]. apply last_filter; [lia| |]; unfold same_period; [now apply Z.eqb_eq|].
        intros r R. apply Z.eqb_neq. apply E3. lia.
      * unfold same_period. apply Z.eqb_refl.
      * intros r R. unfold same_period. apply Z.eqb_neq. apply B. lia.
Qed.

Lemma source_exists t : regular periods -> (t < T)%nat -> act t = true -> exists src, comes_from T periods a t src.
Proof.
  intros R L A. unfold comes_from, separate_periods.
  assert (PL : exists src, match src with Initial => s_cyclic a = false /\ is_first a t
              | From s => precedes a s t \/ (s_cyclic a = true /\ is_first a t /\ is_last T a s) end).
  { assert (LT : exists s, is_last T a s).
    { destruct (latest act (T - 1)) as [s|] eqn:E.
      - apply latest_some in E. exists s. destruct E as [E1 [E2 E3]]. repeat split; auto; [lia|]. intros r Rr. apply E3. lia.
      - rewrite latest_none in E. rewrite (E t) in A by lia. discriminate. }
    assert (FI : (exists s, precedes a s t) \/ is_first a t).
    { destruct t as [|k]; [right; intros r Rr; lia|]. destruct (latest act k) as [s|] eqn:E.
      - left. exists s. apply latest_some in E. destruct E as [E1 [E2 E3]]. repeat split; auto; [lia|]. intros r Rr. apply E3. lia.
      - right. rewrite latest_none in E. intros r Rr. apply E. lia. }
    destruct FI as [[s P]|I]; [exists (From s); auto|]. destruct (s_cyclic a) eqn:C; [destruct LT as [s LS]; exists (From s); auto|exists Initial; auto]. }
  destruct periods as [per|]; [|exact PL]. destruct (s_cyclic_pp a || s_init_pp a); [|exact PL]. clear PL. cbn [regular] in R.
  assert (B : (exists s, S s = t /\ per s = per t) \/ begins_period per t).
  { destruct t as [|k]; [right; intros r Rr; lia|]. destruct (Z.eq_dec (per k) (per (S k))) as [E|E]; [left; exists k; auto|].
    right. intros r Rr Q. destruct (Nat.eq_dec r k) as [->|D]; [contradiction|]. apply E. apply (R r k (S k)); auto. lia. }
  destruct B as [[s [E1 E2]]|B]; [exists (From s); auto|]. destruct (s_cyclic a) eqn:C; [|exists Initial; auto].
  destruct (latest (same_period per t) (T - 1)) as [s|] eqn:E.
  - exists (From s). right. split; auto. split; auto. apply latest_some in E. destruct E as [E1 [E2 E3]].
    unfold same_period in *. apply Z.eqb_eq in E2. repeat split; auto; [lia|]. intros r Rr. apply Z.eqb_neq. apply E3. lia.
  - rewrite latest_none in E. specialize (E t ltac:(lia)). unfold same_period in E. now rewrite Z.eqb_refl in E.
Qed.

Lemma eval_app x l r : eval x (l ++ r) == eval x l + eval x r.
Proof. induction l as [|[c v] l IH]; cbn [app eval]; [ring|]. rewrite IH. ring. Qed.

Lemma val_value x t : val x (lv t) = value x a lev t.
Proof. unfold lv, level, var_of, value. now destruct (s_active a t). Qed.

Lemma energy_iff x flows infl : regular periods ->
  (sat x (energy_balance T periods lev a flows infl) <->
   follows T periods a (value x a lev) (fun t => eval x (flows t) + infl t)).
Proof.
  intros R. unfold energy_balance. rewrite sat_add. split.
  - intros H t src L A C. specialize (H t a). assert (It : In t (seq 0 T)) by (apply in_seq; lia).
    specialize (H It (or_introl eq_refl) A). unfold holds in H. cbn [lhs sns rhs eval] in H.
    destruct (source_label t src L A C) as [E1 E2]. rewrite E1, E2 in H. rewrite eval_app in H. cbn [eval] in H.
    fold lv in H. rewrite val_value in H. destruct src as [|s]; cbn [val] in H; [lra|]. rewrite val_value in H. lra.
  - intros H t b It Ib A. destruct Ib as [<-|[]]. apply in_seq in It. destruct (source_exists t R ltac:(lia) A) as [src C].
    specialize (H t src ltac:(lia) A C). destruct (source_label t src ltac:(lia) A C) as [E1 E2].
    unfold holds. cbn [lhs sns rhs eval]. rewrite E1, E2, eval_app. cbn [eval]. fold lv. rewrite val_value.
    destruct src as [|s]; cbn [val]; [lra|]. rewrite val_value. lra.
Qed.
End P.

Lemma follows_ext T periods a l g g' : (forall t, g t == g' t) -> follows T periods a l g <-> follows T periods a l g'.
Proof. intros E. unfold follows. split; intros H t src L A C; rewrite (H t src L A C); [rewrite (E t)|rewrite <- (E t)]; reflexivity. Qed.

Lemma unit_iff T periods a d x : regular periods ->
  (sat x (unit_balance T periods a d) <-> follows T periods a (value x a "StorageUnit-state_of_charge") (unit_gain x a d)).
Proof.
  intros R. unfold unit_balance. rewrite energy_iff by auto. apply follows_ext. intros t. unfold unit_flows, unit_gain. cbn [eval].
  assert (V : forall v, val x (var_of a v t) = value x a v t) by (intros v; unfold var_of, value; now destruct (s_active a t)).
  rewrite !V. unfold Qdiv. ring.
Qed.
Lemma store_iff T periods a hours x : regular periods ->
  (sat x (store_balance T periods a hours) <-> follows T periods a (value x a "Store-e") (store_gain x a hours)).
Proof.
  intros R. unfold store_balance. rewrite energy_iff by auto. apply follows_ext. intros t. unfold store_gain. cbn [eval].
  assert (V : forall v, val x (var_of a v t) = value x a v t) by (intros v; unfold var_of, value; now destruct (s_active a t)).
  rewrite !V. ring.
Qed.

(* sums *)
Lemma sumto_cons f t l : sumto f (t :: l) = f t + sumto f l.
Proof. reflexivity. Qed.
Lemma sumto_ext f g l : (forall t, In t l -> f t == g t) -> sumto f l == sumto g l.
Proof. induction l as [|t l IH]; intros H; [reflexivity|]. rewrite !sumto_cons, (H t), IH; [reflexivity| |simpl; auto]. intros s I. apply H. simpl. auto. Qed.
Lemma sumto_le f g l : (forall t, In t l -> f t <= g t) -> sumto f l <= sumto g l.
Proof.
  induction l as [|t l IH]; intros H; [unfold sumto; simpl; lra|]. rewrite !sumto_cons.
  assert (f t <= g t) by (apply H; simpl; auto). assert (sumto f l <= sumto g l) by (apply IH; intros s I; apply H; simpl; auto). lra.
Qed.
Lemma sumto_plus f g l : sumto (fun t => f t + g t) l == sumto f l + sumto g l.
Proof. induction l as [|t l IH]; [unfold sumto; simpl; lra|]. rewrite !sumto_cons, IH. ring. Qed.
Lemma sumto_scale c f l : sumto (fun t => c * f t) l == c * sumto f l.
Proof. induction l as [|t l IH]; [unfold sumto; simpl; lra|]. rewrite !sumto_cons, IH. ring. Qed.
Lemma sumto_app f l r : sumto f (l ++ r) == sumto f l + sumto f r.
Proof. induction l as [|t l IH]; [unfold sumto; simpl; lra|]. cbn [app]. rewrite !sumto_cons, IH. ring. Qed.

Lemma last_cons {A} (b : A) r d : last (b :: r) d = last r b.
Proof. revert b d. induction r as [|c r IH]; intros b d; [reflexivity|]. change (last (b :: c :: r) d) with (last (c :: r) d). now rewrite !IH. Qed.
Lemma rotate g l d : NoDup l -> sumto (fun t => g (pred_in d l t)) l + g (last l d) == g d + sumto g l.
Proof.
  revert d. induction l as [|b l IH]; intros d ND; [unfold sumto; simpl; lra|]. inversion ND as [|? ? NI ND']; subst.
  rewrite !sumto_cons. cbn [pred_in]. rewrite Nat.eqb_refl.
  assert (E : sumto (fun t => g (if Nat.eqb b t then d else pred_in b l t)) l == sumto (fun t => g (pred_in b l t)) l).
  { apply sumto_ext. intros t I. destruct (Nat.eqb_spec b t) as [->|]; [contradiction|reflexivity]. }
  rewrite E, last_cons. specialize (IH b ND'). lra.
Qed.
Lemma rotate0 g l : NoDup l -> sumto (fun t => g (pred_in (last l O) l t)) l == sumto g l.
Proof.
  intros ND. pose proof (rotate g l (last l O) ND) as R. destruct l as [|b l]; [reflexivity|].
  rewrite (last_cons b l (last (b :: l) O)), (last_cons b l O) in R. rewrite last_cons. lra.
Qed.

Section Cycle.
Variables (T : nat) (periods : option (nat -> Z)) (a : storage) (lvl gain : nat -> Q).
Hypothesis H : follows T periods a lvl gain.
Hypothesis C : s_cyclic a = true.

Lemma cycle_pred l : regular periods -> cycle T periods a l -> NoDup l /\ forall t, In t l -> (t < T)%nat /\ s_active a t = true /\ comes_from T periods a t (From (pred_in (last l O) l t)).
Proof.
  intros R Y.
  assert (PL : l = filter (s_active a) (seq 0 T) -> NoDup l /\ forall t, In t l -> (t < T)%nat /\ s_active a t = true /\
      (precedes a (pred_in (last l O) l t) t \/ (s_cyclic a = true /\ is_first a t /\ is_last T a (pred_in (last l O) l t)))).
  { intros ->. split; [apply NoDup_filter, seq_NoDup|]. intros t I. apply filter_In in I. destruct I as [I A]. apply in_seq in I.
    split; [lia|]. split; auto. destruct t as [|k].
    - right. split; auto. split; [intros r Rr; lia|]. rewrite pred_none by (auto; lia).
      destruct (latest (s_active a) (T - 1)) as [s|] eqn:E; [|rewrite latest_none in E; rewrite (E O) in A by lia; discriminate].
      apply latest_some in E. destruct E as [E1 [E2 E3]]. rewrite (last_filter _ 0 T O s); auto; [|lia|intros; apply E3; lia].
      repeat split; auto; [lia|]. intros r Rr. apply E3. lia.
    - destruct (latest (s_active a) k) as [s|] eqn:E.
      + left. apply latest_some in E. destruct E as [E1 [E2 E3]]. rewrite (pred_some (s_active a) 0 T _ (S k) s); auto; try lia; [|intros; apply E3; lia].
        repeat split; auto; [lia|]. intros r Rr. apply E3. lia.
      + right. split; auto. rewrite latest_none in E. split; [intros r Rr; apply E; lia|].
        rewrite pred_none by (auto; try lia; intros; apply E; lia).
        destruct (latest (s_active a) (T - 1)) as [s|] eqn:E'; [|rewrite latest_none in E'; rewrite (E' (S k)) in A by lia; discriminate].
        apply latest_some in E'. destruct E' as [E1 [E2 E3]]. rewrite (last_filter _ 0 T O s); auto; [|lia|intros; apply E3; lia].
        repeat split; auto; [lia|]. intros r Rr. apply E3. lia. }
  unfold cycle, comes_from in *. destruct periods as [per|] eqn:EP; [|exact (PL Y)].
  destruct (separate_periods (Some per) a) eqn:ES; [|exact (PL Y)]. clear PL. destruct Y as [t0 [L0 [-> AA]]].
  split; [apply NoDup_filter, seq_NoDup|]. intros t I. pose proof (AA t I) as A. apply filter_In in I. destruct I as [I P]. apply in_seq in I. apply Z.eqb_eq in P.
  split; [lia|]. split; auto. set (f := fun s => Z.eqb (per s) (per t0)).
  assert (Ft : f t = true) by (apply Z.eqb_eq; auto).
  assert (K : (exists k, t = S k /\ per k = per t) \/ begins_period per t).
  { destruct t as [|k]; [right; intros r Rr; lia|]. destruct (Z.eq_dec (per k) (per (S k))); [left; eauto|]. right. intros r Rr Q.
    destruct (Nat.eq_dec r k) as [->|D]; [contradiction|]. apply n. apply (R r k (S k)); auto. lia. }
  destruct K as [[k [-> Q]]|B].
  - left. rewrite (pred_some f 0 T _ (S k) k); auto; try lia. apply Z.eqb_eq. congruence.
  - right. split; auto. split; auto. rewrite (pred_none f 0 T _ t); [|lia|exact Ft|intros r Rr; apply Z.eqb_neq; rewrite <- P; apply B; lia].
    destruct (latest f (T - 1)) as [s|] eqn:E; [|rewrite latest_none in E; rewrite (E t) in Ft by lia; discriminate].
    apply latest_some in E. destruct E as [E1 [E2 E3]]. rewrite (last_filter f 0 T O s); auto; [|lia|intros; apply E3; lia].
    apply Z.eqb_eq in E2. repeat split; auto; [lia|congruence|]. intros r Rr. specialize (E3 r ltac:(lia)). apply Z.eqb_neq in E3. congruence.
Qed.

Lemma cycle_sum l : regular periods -> cycle T periods a l -> sumto lvl l == sumto (fun t => s_stand a t * lvl (pred_in (last l O) l t)) l + sumto gain l.
Proof.
  intros R Y. destruct (cycle_pred l R Y) as [ND CP]. rewrite <- sumto_plus. apply sumto_ext. intros t I.
  destruct (CP t I) as [L [A S]]. now rewrite (H t _ L A S).
Qed.
Lemma cycle_lossless l : regular periods -> cycle T periods a l -> (forall t, In t l -> s_stand a t == 1) -> sumto gain l == 0.
Proof.
  intros R Y E. pose proof (cycle_sum l R Y) as S. destruct (cycle_pred l R Y) as [ND _].
  rewrite (sumto_ext (fun t => s_stand a t * lvl (pred_in (last l O) l t)) (fun t => lvl (pred_in (last l O) l t))) in S
    by (intros t I; rewrite (E t I); ring). rewrite rotate0 in S by auto. lra.
Qed.
Lemma cycle_no_source l : regular periods -> cycle T periods a l -> (forall t, In t l -> s_stand a t <= 1 /\ 0 <= lvl t) -> 0 <= sumto gain l.
Proof.
  intros R Y E. pose proof (cycle_sum l R Y) as S. destruct (cycle_pred l R Y) as [ND CP].
  assert (P : forall t, In t l -> In (pred_in (last l O) l t) l).
  { clear. intros t I. assert (G : forall d, In (pred_in d l t) (d :: l)).
    { clear I. induction l as [|b l IH]; intros d; [simpl; auto|]. cbn [pred_in]. destruct (Nat.eqb b t); [simpl; auto|].
      specialize (IH b). simpl in *. tauto. }
    destruct (G (last l O)) as [Q|Q]; auto. rewrite <- Q. destruct l as [|b l]; [destruct I|]. clear.
    rewrite last_cons. revert b. induction l as [|c l IH]; intros b; [simpl; auto|]. rewrite last_cons. right. apply IH. }
  assert (LE : sumto (fun t => s_stand a t * lvl (pred_in (last l O) l t)) l <= sumto (fun t => lvl (pred_in (last l O) l t)) l).
  { apply sumto_le. intros t I. destruct (E t I) as [E1 _]. destruct (E _ (P t I)) as [_ E2]. nra. }
  rewrite rotate0 in LE by auto. lra.
Qed.
End Cycle.

(* closed form without cycling *)
Lemma decay_step st s k : decay st s (S k) = decay st s k * st (s + S k)%nat.
Proof. reflexivity. Qed.
Lemma closed_form T a lvl gain : follows T None a lvl gain -> s_cyclic a = false -> (forall t, (t < T)%nat -> s_active a t = true) ->
  forall t, (t < T)%nat -> lvl t == decay (s_stand a) 0 t * s_init a + sumto (fun s => decay (s_stand a) s (t - s) * gain s) (seq 0 (S t)).
Proof.
  intros H C A t. induction t as [|t IH]; intros L.
  - rewrite (H 0%nat Initial L (A _ L)); [cbn [seq]; rewrite sumto_cons; unfold sumto; cbn [fold_right decay Nat.sub]; ring|].
    split; auto. intros r Rr. lia.
  - rewrite (H (S t) (From t) L (A _ L)).
    + rewrite IH by lia. rewrite (seq_S (S t)). rewrite sumto_app.
      rewrite (sumto_ext (fun s => decay (s_stand a) s (S t - s) * gain s) (fun s => s_stand a (S t) * (decay (s_stand a) s (t - s) * gain s)) (seq 0 (S t))).
      * rewrite sumto_scale. cbn [Nat.add]. rewrite sumto_cons. unfold sumto at 3. cbn [fold_right]. rewrite Nat.sub_diag. rewrite decay_step. cbn [decay Nat.add]. ring.
      * intros s I. apply in_seq in I. replace (S t - s)%nat with (S (t - s)) by lia. rewrite decay_step.
        replace (s + S (t - s))%nat with (S t) by lia. ring.
    + left. repeat split; [lia|apply A; lia|]. intros r Rr. lia.
Qed.

Lemma source_unique T periods a t s1 s2 : comes_from T periods a t s1 -> comes_from T periods a t s2 -> s1 = s2.
Proof.
  assert (PP : forall r s, precedes a r t -> precedes a s t -> r = s).
  { intros r s [L [A N]] [L' [A' N']]. destruct (Nat.lt_trichotomy r s) as [D|[D|D]]; auto.
    - rewrite N in A' by lia. discriminate.
    - rewrite N' in A by lia. discriminate. }
  assert (PF : forall r, precedes a r t -> is_first a t -> False).
  { intros r [L [A N]] I. rewrite (I r L) in A. discriminate. }
  assert (LL : forall r s, is_last T a r -> is_last T a s -> r = s).
  { intros r s [L [A N]] [L' [A' N']]. destruct (Nat.lt_trichotomy r s) as [D|[D|D]]; auto.
    - rewrite N in A' by lia. discriminate.
    - rewrite N' in A by lia. discriminate. }
  assert (PL : forall s1 s2,
     match s1 with Initial => s_cyclic a = false /\ is_first a t | From s => precedes a s t \/ (s_cyclic a = true /\ is_first a t /\ is_last T a s) end ->
     match s2 with Initial => s_cyclic a = false /\ is_first a t | From s => precedes a s t \/ (s_cyclic a = true /\ is_first a t /\ is_last T a s) end -> s1 = s2).
  { clear s1 s2. intros [|r] [|s]; auto.
    - intros [C I] [P|[C' _]]; [exfalso; eauto|congruence].
    - intros [P|[C' _]] [C I]; [exfalso; eauto|congruence].
    - intros [P|[C [I L]]] [P'|[C' [I' L']]]; [f_equal; auto|exfalso; eauto|exfalso; eauto|f_equal; auto]. }
  unfold comes_from. destruct periods as [per|]; [|apply PL]. destruct (separate_periods (Some per) a); [|apply PL]. clear PL.
  assert (BS : forall r, S r = t -> per r = per t -> begins_period per t -> False) by (intros r E Q B; apply (B r); auto; lia).
  destruct s1 as [|r], s2 as [|s]; auto.
  - intros [C I] [[P1 P2]|[C' _]]; [exfalso; eauto|congruence].
  - intros [[P1 P2]|[C' _]] [C I]; [exfalso; eauto|congruence].
  - intros [[P1 P2]|[C [B E]]] [[P1' P2']|[C' [B' E']]]; [f_equal; lia|exfalso; eauto|exfalso; eauto|f_equal].
    destruct E as [L [A N]], E' as [L' [A' N']]. destruct (Nat.lt_trichotomy r s) as [D|[D|D]]; auto.
    + exfalso. apply (N s); auto.
    + exfalso. apply (N' r); auto.
Qed.
Lemma one_source T periods a t : regular periods -> (t < T)%nat -> s_active a t = true -> exists! src, comes_from T periods a t src.
Proof.
  intros R L A. destruct (source_exists T periods a t R L A) as [src C]. exists src. split; auto. intros s2 C2. eapply source_unique; eauto.
Qed.

Lemma unit_no_source T periods a d x l : regular periods -> s_cyclic a = true -> sat x (unit_balance T periods a d) -> cycle T periods a l ->
  (forall t, In t l -> s_stand a t <= 1 /\ 0 <= value x a "StorageUnit-state_of_charge" t /\ 0 <= eh d t /\
     0 < eff_dispatch d t /\ eff_dispatch d t <= 1 /\ 0 <= eff_store d t /\ eff_store d t <= 1 /\
     0 <= value x a "StorageUnit-p_dispatch" t /\ 0 <= value x a "StorageUnit-p_store" t /\ 0 <= val x (spill_label a d t)) ->
  sumto (fun t => eh d t * value x a "StorageUnit-p_dispatch" t) l
    <= sumto (fun t => eh d t * value x a "StorageUnit-p_store" t) l + sumto (fun t => eh d t * inflow d t) l.
Proof.
  intros R C S Y B. apply unit_iff in S; auto.
  assert (G : 0 <= sumto (unit_gain x a d) l).
  { eapply cycle_no_source; eauto. intros t I. specialize (B t I). tauto. }
  assert (LE : sumto (unit_gain x a d) l <= sumto (fun t => eh d t * value x a "StorageUnit-p_store" t
            + (eh d t * inflow d t + -(1) * (eh d t * value x a "StorageUnit-p_dispatch" t))) l).
  { apply sumto_le. intros t I. destruct (B t I) as [_ [_ [Bh [Be [Be1 [Bs [Bs1 [Bd [Bp Bl]]]]]]]]]. unfold unit_gain.
    set (dd := value x a "StorageUnit-p_dispatch" t) in *. set (pp := value x a "StorageUnit-p_store" t) in *. set (sp := val x (spill_label a d t)) in *.
    assert (D : dd <= dd / eff_dispatch d t) by (apply Qle_shift_div_l; auto; nra).
    assert (P : eff_store d t * pp <= pp) by nra. set (q := dd / eff_dispatch d t) in *. nra. }
  rewrite !sumto_plus, sumto_scale in LE. lra.
Qed.
Lemma store_no_source T periods a hours x l : regular periods -> s_cyclic a = true -> sat x (store_balance T periods a hours) -> cycle T periods a l ->
  (forall t, In t l -> s_stand a t <= 1 /\ 0 <= value x a "Store-e" t) ->
  sumto (fun t => hours t * value x a "Store-p" t) l <= 0.
Proof.
  intros R C S Y B. apply store_iff in S; auto.
  assert (G : 0 <= sumto (store_gain x a hours) l) by (eapply cycle_no_source; eauto).
  assert (E : sumto (store_gain x a hours) l == sumto (fun t => -(1) * (hours t * value x a "Store-p" t)) l)
    by (apply sumto_ext; intros t _; unfold store_gain; ring).
  rewrite sumto_scale in E. lra.
Qed.

Lemma spill_value T a d x t : spill_bounds T a d x -> (t < T)%nat ->
  0 <= val x (spill_label a d t) /\ (val x (spill_label a d t) <= inflow d t \/ val x (spill_label a d t) == 0) /\ (inflow d t <= 0 -> val x (spill_label a d t) == 0).
Proof.
  intros B L. specialize (B t). unfold spill_label in *. destruct (Qle_bool (inflow d t) 0) eqn:E; cbn [negb] in *.
  - cbn [val]. split; [lra|]. split; [right|]; lra.
  - assert (P : 0 < inflow d t) by (apply Qnot_le_lt; intros Q; apply Qle_bool_iff in Q; congruence).
    unfold var_of in *. destruct (s_active a t); cbn [val].
    + destruct (B _ L eq_refl). split; auto. split; [left; auto|lra].
    + split; [lra|]. split; [right|]; lra.
Qed.

Definition sol3 (f : string -> nat -> Q) : sol := fun v => let '(w, t, _) := v in f w t.
Definition ex_s (st : nat -> Q) (i : Q) (c cp ip : bool) : storage :=
  {| s_name := "s"; s_active := fun _ => true; s_stand := st; s_init := i; s_cyclic := c; s_cyclic_pp := cp; s_init_pp := ip |}.
Definition ex_u : unit_data := {| eh := fun _ => 1; eff_dispatch := fun _ => 1; eff_store := fun _ => 1; inflow := fun _ => 0 |}.

Lemma initial_not_decayed_store : exists a x, s_cyclic a = false /\ s_active a 0%nat = true /\ s_stand a 0%nat == 1 # 2 /\
  sat x (store_balance 1 None a (fun _ => 1)) /\
  ~ value x a "Store-e" 0 == s_stand a 0%nat * s_init a + store_gain x a (fun _ => 1) 0.
Proof.
  exists (ex_s (fun _ => 1 # 2) 10 false true false), (sol3 (fun w _ => if String.eqb w "Store-e" then 10 else 0)).
  split; [reflexivity|]. split; [reflexivity|]. split; [reflexivity|]. split; [apply satb_iff; reflexivity|].
  intros H. apply Qeq_bool_iff in H. discriminate.
Qed.
Lemma initial_not_decayed_unit : exists a x, s_cyclic a = false /\ s_active a 0%nat = true /\ s_stand a 0%nat == 1 # 2 /\
  sat x (unit_balance 1 None a ex_u) /\
  ~ value x a "StorageUnit-state_of_charge" 0 == s_stand a 0%nat * s_init a + unit_gain x a ex_u 0.
Proof.
  exists (ex_s (fun _ => 1 # 2) 10 false true false), (sol3 (fun w _ => if String.eqb w "StorageUnit-state_of_charge" then 10 else 0)).
  split; [reflexivity|]. split; [reflexivity|]. split; [reflexivity|]. split; [apply satb_iff; reflexivity|].
  intros H. apply Qeq_bool_iff in H. discriminate.
Qed.
Definition two_periods (t : nat) : Z := if (t <? 2)%nat then 2030%Z else 2040%Z.
Lemma refilled_store : exists a x, s_cyclic a = false /\ s_cyclic_pp a = true /\ s_init_pp a = false /\ (forall t, s_active a t = true /\ s_stand a t == 1) /\
  sat x (store_balance 4 (Some two_periods) a (fun _ => 1)) /\ s_init a == 10 /\
  value x a "Store-e" 1 == 0 /\ value x a "Store-p" 2 == 10 /\ value x a "Store-e" 2 == 0.
Proof.
  exists (ex_s (fun _ => 1) 10 false true false),
    (sol3 (fun w t => if String.eqb w "Store-p" then nth t [10; 0; 10; 0] 0 else 0)).
  split; [reflexivity|]. split; [reflexivity|]. split; [reflexivity|]. split; [intros t; split; reflexivity|].
  split; [apply satb_iff; reflexivity|]. split; [reflexivity|]. split; [reflexivity|]. split; reflexivity.
Qed.
Lemma refilled_unit : exists a x, s_cyclic a = false /\ s_cyclic_pp a = true /\ s_init_pp a = false /\ (forall t, s_active a t = true /\ s_stand a t == 1) /\
  sat x (unit_balance 4 (Some two_periods) a ex_u) /\ s_init a == 10 /\
  value x a "StorageUnit-state_of_charge" 1 == 0 /\ value x a "StorageUnit-p_dispatch" 2 == 10 /\ value x a "StorageUnit-state_of_charge" 2 == 0.
Proof.
  exists (ex_s (fun _ => 1) 10 false true false),
    (sol3 (fun w t => if String.eqb w "StorageUnit-p_dispatch" then nth t [10; 0; 10; 0] 0 else 0)).
  split; [reflexivity|]. split; [reflexivity|]. split; [reflexivity|]. split; [intros t; split; reflexivity|].
  split; [apply satb_iff; reflexivity|]. split; [reflexivity|]. split; [reflexivity|]. split; reflexivity.
Qed.
Lemma cycles_per_period : exists a, s_cyclic a = true /\ s_cyclic_pp a = false /\ s_init_pp a = true /\ (forall t, s_active a t = true /\ s_stand a t == 1) /\ s_init a == 10 /\
  forall x, sat x (store_balance 4 (Some two_periods) a (fun _ => 1)) ->
    value x a "Store-p" 0 + value x a "Store-p" 1 == 0 /\ value x a "Store-p" 2 + value x a "Store-p" 3 == 0.
Proof.
  exists (ex_s (fun _ => 1) 10 true false true).
  split; [reflexivity|]. split; [reflexivity|]. split; [reflexivity|]. split; [intros t; split; reflexivity|]. split; [reflexivity|].
  intros x S. unfold sat, store_balance, energy_balance, add_constraints in S. cbn in S.
  pose proof (S _ (or_introl eq_refl)) as S0. pose proof (S _ (or_intror (or_introl eq_refl))) as S1.
  pose proof (S _ (or_intror (or_intror (or_introl eq_refl)))) as S2. pose proof (S _ (or_intror (or_intror (or_intror (or_introl eq_refl))))) as S3.
  unfold holds in *. cbn in *. lra.
Qed.
