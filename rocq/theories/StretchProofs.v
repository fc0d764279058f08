From Coq Require Import List String Bool QArith ZArith Arith Lia Lqa.
From Verif Require Import LinModel WholeModel IdleSpec OrderSpec StretchSpec.
From Verif Require DispatchModel RampModel CommitModel BalanceModel StorageModel LimitModel CapModel LossModel ObjectiveModel OrderProofs.
Import ListNotations.
Open Scope string_scope.
Open Scope list_scope.
Open Scope Q_scope.

(* sums *)
Lemma sum_ext f g l : (forall t, In t l -> f t == g t) -> sum f l == sum g l.
Proof. induction l as [|t r IH]; intros H; [reflexivity|]. cbn. fold (sum f r) (sum g r). rewrite (H t) by now left. rewrite IH; [reflexivity|]. intros u J. apply H. now right. Qed.
Lemma sum_to X f g l : (forall t, In t l -> f t == g t) -> X == sum g l -> X == sum f l.
Proof. intros H E. rewrite E. symmetry. now apply sum_ext. Qed.
Lemma sum_plus f g l : sum (fun t => f t + g t) l == sum f l + sum g l.
Proof. induction l as [|t r IH]; [reflexivity|]. cbn. fold (sum (fun t => f t + g t) r) (sum f r) (sum g r). rewrite IH. ring. Qed.
Lemma sum_scale q f l : sum (fun t => q * f t) l == q * sum f l.
Proof. induction l as [|t r IH]; [cbn; ring|]. cbn. fold (sum (fun t => q * f t) r) (sum f r). rewrite IH. ring. Qed.
Lemma sum_le f g l : (forall t, In t l -> f t <= g t) -> sum f l <= sum g l.
Proof. induction l as [|t r IH]; intros H; [apply Qle_refl|]. cbn. fold (sum f r) (sum g r). assert (f t <= g t) by (apply H; now left). assert (sum f r <= sum g r) by (apply IH; intros u J; apply H; now right). lra. Qed.
Lemma sum_zero l : sum (fun _ => 0) l == 0.
Proof. induction l as [|t r IH]; [reflexivity|]. cbn. fold (sum (fun _ => 0) r). rewrite IH. reflexivity. Qed.
Lemma sum_filter f (p : nat -> bool) l : sum f (filter p l) == sum (fun t => if p t then f t else 0) l.
Proof. induction l as [|t r IH]; [reflexivity|]. cbn [filter]. destruct (p t) eqn:E; cbn; rewrite E; fold (sum f (filter p r)) (sum (fun t => if p t then f t else 0) r); rewrite IH; ring. Qed.
Lemma sum_swap (f : nat -> nat -> Q) l m : sum (fun s => sum (f s) m) l == sum (fun t => sum (fun s => f s t) l) m.
Proof.
  induction l as [|s r IH]; cbn.
  - now rewrite sum_zero.
  - fold (sum (fun s => sum (f s) m) r). rewrite IH. rewrite <- sum_plus. reflexivity.
Qed.
Lemma sum_pick (q : Q) s N : forall b, sum (fun u => if Nat.eqb s u then q else 0) (seq b N) == if Nat.leb b s && Nat.ltb s (b + N) then q else 0.
Proof.
  induction N as [|N IH]; intros b; cbn [seq].
  - cbn [sum fold_right]. destruct (Nat.leb b s) eqn:E, (Nat.ltb s (b + 0)) eqn:F; cbn [andb]; try reflexivity. apply Nat.leb_le in E. apply Nat.ltb_lt in F. lia.
  - cbn [sum fold_right]. fold (sum (fun u => if Nat.eqb s u then q else 0) (seq (S b) N)). rewrite IH.
    destruct (Nat.eqb s b) eqn:E; [apply Nat.eqb_eq in E; subst; rewrite Nat.leb_refl; replace (Nat.leb (S b) b) with false by (symmetry; apply Nat.leb_gt; lia); replace (Nat.ltb b (b + S N)) with true by (symmetry; apply Nat.ltb_lt; lia); cbn; ring|].
    apply Nat.eqb_neq in E. replace (Nat.leb (S b) s) with (Nat.leb b s); [replace (S b + N)%nat with (b + S N)%nat by lia; ring|].
    apply eq_true_iff_eq. rewrite !Nat.leb_le. lia.
Qed.
Lemma in_group rep T s t : In t (group rep T s) <-> (t < T)%nat /\ rep t = s.
Proof. unfold group. rewrite filter_In, in_seq, Nat.eqb_eq. lia. Qed.
(* a sum over all snapshots, group by group *)
Lemma sum_groups rep T N (F : nat -> Q) : (forall t, (t < T)%nat -> (rep t < N)%nat) -> sum F (seq 0 T) == sum (fun s => sum F (group rep T s)) (seq 0 N).
Proof.
  intros H. unfold group. transitivity (sum (fun s => sum (fun t => if Nat.eqb (rep t) s then F t else 0) (seq 0 T)) (seq 0 N)).
  - rewrite sum_swap. apply sum_ext. intros t J. apply in_seq in J. rewrite sum_pick. cbn [Nat.leb andb plus].
    specialize (H t ltac:(lia)). apply Nat.ltb_lt in H. now rewrite H.
  - apply sum_ext. intros s _. now rewrite sum_filter.
Qed.
Lemma eval_app x a b : eval x (a ++ b) == eval x a + eval x b.
Proof. induction a as [|[c v] r IH]; cbn [app eval]; [ring|]. rewrite IH. ring. Qed.
Lemma eval_series x (C : nat -> Q) (lab : nat -> label) ts : eval x (map (fun t => (C t, lab t)) ts) == sum (fun t => C t * val x (lab t)) ts.
Proof. induction ts as [|t r IH]; [reflexivity|]. cbn [map eval]. rewrite IH. reflexivity. Qed.
Lemma square_app x a b : ObjectiveModel.square x (a ++ b) == ObjectiveModel.square x a + ObjectiveModel.square x b.
Proof. induction a as [|[c v] r IH]; cbn [app ObjectiveModel.square]; [ring|]. rewrite IH. ring. Qed.
Lemma square_series x (C : nat -> Q) (lab : nat -> label) ts : ObjectiveModel.square x (map (fun t => (C t, lab t)) ts) == sum (fun t => C t * (val x (lab t) * val x (lab t))) ts.
Proof. induction ts as [|t r IH]; [reflexivity|]. cbn [map ObjectiveModel.square]. rewrite IH. reflexivity. Qed.
Lemma filter_maps {A B} (p : B -> bool) (u : A -> B) l : filter p (map u l) = map u (filter (fun a => p (u a)) l).
Proof. induction l as [|a r IH]; cbn; [reflexivity|]. destruct (p (u a)); cbn; now rewrite IH. Qed.

(* labels and rows at another snapshot *)
Definition stamp (t : nat) (l : label) : label := match l with Some (s, u, i) => Some (s, (if timed s then t else u), i) | None => None end.
Definition stamps (t : nat) (l : lin) : lin := map (fun e : Q * label => (fst e, stamp t (snd e))) l.
Definition stamp_con (t : nat) (c : con) : con := {| lhs := stamps t (lhs c); sns := sns c; rhs := rhs c |}.
Definition at_time (s : nat) (l : lin) : Prop := forall c a u i, In (c, Some (a, u, i)) l -> timed a = true -> u = s.
Definition untimed (l : lin) : Prop := forall c a u i, In (c, Some (a, u, i)) l -> timed a = false.
Lemma stamp_term t c : CapModel.has_term (stamp_con t c) = CapModel.has_term c.
Proof.
  unfold CapModel.has_term, stamp_con, stamps. cbn [lhs]. induction (lhs c) as [|[q [[[a u] i]|]] r IH]; cbn; auto.
Qed.

Section G.
Variables (rep : nat -> nat) (T : nat) (wo wg ws : nat -> Q) (n : net).
Hypothesis G : groups rep T wo wg n.
Notation N := (nsnaps n).
Notation fine := (stretched rep T wo wg ws n).
Notation avg := (averaged rep T wo).
Notation W s := (sum wo (group rep T s)).

Lemma W_pos s : (s < N)%nat -> 0 < W s.
Proof.
  intros H. destruct (gr_onto _ _ _ _ _ G s H) as (t & L & E).
  assert (P : forall l, (forall u, In u l -> (u < T)%nat) -> (exists u, In u l) -> 0 < sum wo l).
  { induction l as [|u r IH]; intros B X; [destruct X as (u & [])|]. cbn. fold (sum wo r). assert (0 < wo u) by (apply (gr_pos _ _ _ _ _ G); apply B; now left).
    destruct r as [|u' r']; [cbn; lra|]. assert (0 < sum wo (u' :: r')) by (apply IH; [intros v J; apply B; now right|exists u'; now left]). lra. }
  apply P; [intros u J; now apply in_group in J|]. exists t. now apply in_group.
Qed.
Lemma eval_rep y t l : at_time (rep t) l -> eval (repeated rep y) (stamps t l) == eval y l.
Proof.
  induction l as [|[c v] r IH]; intros H; [reflexivity|]. cbn [stamps map eval fst snd]. fold (stamps t r). rewrite IH by (intros c' a u i J; apply (H c' a u i); now right).
  destruct v as [[[a u] i]|]; [|reflexivity]. cbn [stamp val repeated]. destruct (timed a) eqn:E; [|reflexivity]. rewrite (H c a u i (or_introl eq_refl) E). reflexivity.
Qed.
Lemma eval_untimed y l : untimed l -> eval (repeated rep y) l == eval y l.
Proof.
  induction l as [|[c v] r IH]; intros H; [reflexivity|]. cbn [eval]. rewrite IH by (intros c' a u i J; apply (H c' a u i); now right).
  destruct v as [[[a u] i]|]; [|reflexivity]. cbn [val repeated]. rewrite (H c a u i (or_introl eq_refl)). reflexivity.
Qed.
Lemma avg_untimed x l : untimed l -> eval (avg x) l == eval x l.
Proof.
  induction l as [|[c v] r IH]; intros H; [reflexivity|]. cbn [eval]. rewrite IH by (intros c' a u i J; apply (H c' a u i); now right).
  destruct v as [[[a u] i]|]; [|reflexivity]. cbn [val averaged]. rewrite (H c a u i (or_introl eq_refl)). reflexivity.
Qed.
Lemma eval_avg x s l : (s < N)%nat -> at_time s l -> W s * eval (avg x) l == sum (fun t => wo t * eval x (stamps t l)) (group rep T s).
Proof.
  intros L. pose proof (W_pos s L) as P. induction l as [|[c v] r IH]; intros H.
  - cbn [eval stamps map]. apply (sum_to _ _ (fun _ => 0)); [intros; ring|]. rewrite sum_zero. ring.
  - cbn [eval stamps map fst snd]. apply (sum_to _ _ (fun t => c * (wo t * val x (stamp t v)) + wo t * eval x (stamps t r))); [intros t _; fold (stamps t r); ring|].
    rewrite sum_plus, <- IH by (intros c' a u i J; apply (H c' a u i); now right). rewrite sum_scale.
    assert (E : W s * val (avg x) v == sum (fun t => wo t * val x (stamp t v)) (group rep T s)).
    { destruct v as [[[a u] i]|]; cbn [stamp val].
      - unfold averaged. destruct (timed a) eqn:E.
        + rewrite (H c a u i (or_introl eq_refl) E). field. intros Z. rewrite Z in P. now apply Qlt_irrefl in P.
        + apply (sum_to _ _ (fun t => x (a, u, i) * wo t)); [intros; ring|]. rewrite sum_scale. ring.
      - apply (sum_to _ _ (fun _ => 0)); [intros; ring|]. rewrite sum_zero. ring. }
    rewrite <- E. ring.
Qed.

(* rows that belong to single snapshots *)
Definition inst (A B : list con) : Prop :=
  (forall c, In c A -> (In c B /\ untimed (lhs c)) \/ exists t d, (t < T)%nat /\ In d B /\ at_time (rep t) (lhs d) /\ c = stamp_con t d) /\
  (forall d, In d B -> (In d A /\ untimed (lhs d)) \/ exists s, (s < N)%nat /\ at_time s (lhs d) /\ forall t, (t < T)%nat -> rep t = s -> In (stamp_con t d) A).
Lemma inst_app A B A' B' : inst A A' -> inst B B' -> inst (A ++ B) (A' ++ B').
Proof.
  intros [H1 H2] [K1 K2]. split.
  - intros c J. apply in_app_or in J. destruct J as [J|J]; [destruct (H1 c J) as [[X U]|(t & d & L & X & Y)]|destruct (K1 c J) as [[X U]|(t & d & L & X & Y)]];
      solve [left; split; [apply in_or_app; auto|exact U]|right; exists t, d; split; [exact L|]; split; [apply in_or_app; auto|exact Y]].
  - intros c J. apply in_app_or in J. destruct J as [J|J]; [destruct (H2 c J) as [[X U]|(s & L & X & Y)]|destruct (K2 c J) as [[X U]|(s & L & X & Y)]];
      solve [left; split; [apply in_or_app; auto|exact U]|right; exists s; split; [exact L|]; split; [exact X|]; intros t M E; apply in_or_app; auto].
Qed.
Lemma inst_static A : (forall c, In c A -> untimed (lhs c)) -> inst A A.
Proof. intros H. split; intros c J; left; auto. Qed.
Lemma inst_flat {K} (f g : K -> list con) l : (forall k, In k l -> inst (f k) (g k)) -> inst (flat_map f l) (flat_map g l).
Proof.
  induction l as [|k r IH]; intros H; [split; intros c []|]. cbn. apply inst_app; [apply H; now left|apply IH; intros j J; apply H; now right].
Qed.
Lemma inst_add {A B B'} (L : list A) (u : A -> B) (w : A -> B') mk f mk' f' :
  (forall t a, In a L -> mk t (u a) = mk' (rep t) (w a)) ->
  (forall t a, In a L -> f t (u a) = stamp_con t (f' (rep t) (w a))) ->
  (forall s a, In a L -> at_time s (lhs (f' s (w a)))) ->
  inst (add_constraints (seq 0 T) (map u L) mk f) (add_constraints (seq 0 N) (map w L) mk' f').
Proof.
  intros M F H. unfold add_constraints. split.
  - intros c J. apply in_flat_map in J. destruct J as (t & Jt & J). apply in_seq in Jt. apply in_flat_map in J. destruct J as (b & Jb & J). apply in_map_iff in Jb. destruct Jb as (a & <- & Ja).
    destruct (mk t (u a)) eqn:E; [|destruct J]. destruct J as [<-|[]]. right. exists t, (f' (rep t) (w a)). split; [lia|]. split; [|split; [now apply H|now apply F]].
    apply in_flat_map. exists (rep t). split; [apply in_seq; split; [lia|]; apply (gr_in _ _ _ _ _ G); lia|]. apply in_flat_map. exists (w a). split; [now apply in_map|].
    rewrite <- (M t a Ja), E. now left.
  - intros c J. apply in_flat_map in J. destruct J as (s & Js & J). apply in_seq in Js. apply in_flat_map in J. destruct J as (b & Jb & J). apply in_map_iff in Jb. destruct Jb as (a & <- & Ja).
    destruct (mk' s (w a)) eqn:E; [|destruct J]. destruct J as [<-|[]]. right. exists s. split; [lia|]. split; [now apply H|]. intros t Lt <-.
    apply in_flat_map. exists t. split; [apply in_seq; lia|]. apply in_flat_map. exists (u a). split; [now apply in_map|]. rewrite (M t a Ja), E. left. now apply F.
Qed.
Lemma inst_rep y A B : inst A B -> sat y (CapModel.problem B) -> sat (repeated rep y) (CapModel.problem A).
Proof.
  intros [H _] S c J. apply filter_In in J. destruct J as [J X]. destruct (H c J) as [[K U]|(t & d & L & K & TM & ->)].
  - assert (Y : holds y c) by (apply S, filter_In; auto). unfold holds in *. pose proof (eval_untimed y _ U). destruct (sns c); lra.
  - rewrite stamp_term in X. assert (Y : holds y d) by (apply S, filter_In; auto). unfold holds in *. cbn [stamp_con lhs sns rhs]. pose proof (eval_rep y t _ TM). destruct (sns d); lra.
Qed.
Lemma inst_avg x A B : inst A B -> sat x (CapModel.problem A) -> sat (avg x) (CapModel.problem B).
Proof.
  intros [_ H] S d J. apply filter_In in J. destruct J as [J X]. destruct (H d J) as [[K U]|(s & L & TM & K)].
  - assert (Y : holds x d) by (apply S, filter_In; auto). unfold holds in *. pose proof (avg_untimed x _ U). destruct (sns d); lra.
  - pose proof (eval_avg x s _ L TM) as E. pose proof (W_pos s L) as P.
    assert (Y : forall t, In t (group rep T s) -> holds x (stamp_con t d)).
    { intros t Jt. apply in_group in Jt. apply S, filter_In. split; [now apply K|]. now rewrite stamp_term. }
    assert (WR : W s * rhs d == sum (fun t => wo t * rhs d) (group rep T s)) by (apply (sum_to _ _ (fun t => rhs d * wo t)); [intros; ring|]; rewrite sum_scale; ring).
    assert (PO : forall t, In t (group rep T s) -> 0 < wo t) by (intros t Jt; apply in_group in Jt; now apply (gr_pos _ _ _ _ _ G)).
    unfold holds in *. cbn [stamp_con lhs sns rhs] in Y. destruct (sns d).
    + assert (D : W s * eval (avg x) (lhs d) <= W s * rhs d).
      { rewrite E, WR. apply sum_le. intros t Jt. specialize (Y t Jt). specialize (PO t Jt). nra. }
      apply Qmult_le_l in D; assumption.
    + assert (D : W s * rhs d <= W s * eval (avg x) (lhs d)).
      { rewrite E, WR. apply sum_le. intros t Jt. specialize (Y t Jt). specialize (PO t Jt). nra. }
      apply Qmult_le_l in D; assumption.
    + assert (D : W s * eval (avg x) (lhs d) == W s * rhs d).
      { rewrite E, WR. apply sum_ext. intros t Jt. rewrite (Y t Jt). reflexivity. }
      apply Qmult_inj_l in D; [exact D|]. intros Z. rewrite Z in P. now apply Qlt_irrefl in P.
Qed.

(* rows over all snapshots *)
Definition sumrow (c d : con) : Prop :=
  CapModel.has_term c = CapModel.has_term d /\ sns c = sns d /\ rhs c == rhs d /\
  (forall y, eval (repeated rep y) (lhs c) == eval y (lhs d)) /\ (forall x, eval (avg x) (lhs d) == eval x (lhs c)).
Definition good (A B : list con) : Prop :=
  (forall y, sat y (CapModel.problem B) -> sat (repeated rep y) (CapModel.problem A)) /\ (forall x, sat x (CapModel.problem A) -> sat (avg x) (CapModel.problem B)).
Definition ogood (a b : option (list con)) : Prop := match a, b with Some A, Some B => good A B | None, None => True | _, _ => False end.
Lemma good_inst A B : inst A B -> good A B.
Proof. intros H. split; [intros y; now apply inst_rep|intros x; now apply inst_avg]. Qed.
Lemma good_sum A B : Forall2 sumrow A B -> good A B.
Proof.
  intros H. split.
  - intros y S. induction H as [|c d r r' (HT & SE & RH & RE & _) _ IH]; [intros c []|]. intros e J. unfold CapModel.problem in *. cbn [filter] in *.
    assert (IH' : sat y (filter CapModel.has_term r')) by (intros e' J'; apply S; destruct (CapModel.has_term d); [now right|exact J']).
    destruct (CapModel.has_term c) eqn:E; [|now apply IH]. destruct J as [<-|J]; [|now apply IH]. rewrite <- HT in S. assert (X : holds y d) by (apply S; now left).
    unfold holds in *. specialize (RE y). rewrite SE. destruct (sns d); lra.
  - intros x S. induction H as [|c d r r' (HT & SE & RH & _ & AV) _ IH]; [intros c []|]. intros e J. unfold CapModel.problem in *. cbn [filter] in *.
    assert (IH' : sat x (filter CapModel.has_term r)) by (intros e' J'; apply S; destruct (CapModel.has_term c); [now right|exact J']).
    destruct (CapModel.has_term d) eqn:E; [|now apply IH]. destruct J as [<-|J]; [|now apply IH]. rewrite HT in S. assert (X : holds x c) by (apply S; now left).
    unfold holds in *. specialize (AV x). rewrite SE in X. destruct (sns d); lra.
Qed.
Lemma problem_app A B : CapModel.problem (A ++ B) = CapModel.problem A ++ CapModel.problem B.
Proof. unfold CapModel.problem. induction A as [|c r IH]; cbn; [reflexivity|]. destruct (CapModel.has_term c); cbn; now rewrite IH. Qed.
Lemma sat_app2 z A B : sat z (A ++ B) <-> sat z A /\ sat z B.
Proof. split; [intros H; split; intros c J; apply H, in_or_app; auto|]. intros [H K] c J. apply in_app_or in J. destruct J; auto. Qed.
Lemma good_app A B A' B' : good A A' -> good B B' -> good (A ++ B) (A' ++ B').
Proof.
  intros [H1 H2] [K1 K2]. split; [intros y|intros x]; rewrite !problem_app, !sat_app2; intros [? ?]; split; auto.
Qed.
Lemma good_nil : good [] [].
Proof. split; intros ? _ c []. Qed.
Lemma ogood_collect l l' : Forall2 ogood l l' -> ogood (collect l) (collect l').
Proof.
  induction 1 as [|o o' r r' H _ IH]; [exact good_nil|]. cbn. destruct o as [p|], o' as [p'|]; cbn in H; try (now destruct H); try exact Logic.I.
  destruct (collect r) as [c|], (collect r') as [c'|]; cbn in *; try (now destruct IH); try exact Logic.I. now apply good_app.
Qed.
Lemma sumrow_untimed c : untimed (lhs c) -> sumrow c c.
Proof. intros U. split; [reflexivity|]. split; [reflexivity|]. split; [reflexivity|]. split; [intros; now apply eval_untimed|intros; now apply avg_untimed]. Qed.
Lemma W_nz s : (s < N)%nat -> ~ W s == 0.
Proof. intros L Z. pose proof (W_pos s L) as P. rewrite Z in P. now apply Qlt_irrefl in P. Qed.

(* weighted sums over all snapshots; both weightings satisfy the conditions *)
Definition adds_up (v V : nat -> Q) : Prop :=
  (forall s, (s < N)%nat -> V s == sum v (group rep T s)) /\ (forall t, (t < T)%nat -> v t * W (rep t) == wo t * V (rep t)).
Lemma adds_obj : adds_up wo (w_obj n).
Proof.
  split; [apply (gr_obj _ _ _ _ _ G)|]. intros t L. rewrite (gr_obj _ _ _ _ _ G) by now apply (gr_in _ _ _ _ _ G). reflexivity.
Qed.
Lemma adds_gen : adds_up wg (w_gen n).
Proof.
  split; [apply (gr_gen _ _ _ _ _ G)|]. intros t L. rewrite <- (gr_prop _ _ _ _ _ G t L). rewrite (gr_obj _ _ _ _ _ G) by now apply (gr_in _ _ _ _ _ G). reflexivity.
Qed.
Section V.
Variables v V : nat -> Q.
Hypothesis AU : adds_up v V.
Lemma series_rep (k f : nat -> Q) : sum (fun t => k (rep t) * v t * f (rep t)) (seq 0 T) == sum (fun s => k s * V s * f s) (seq 0 N).
Proof.
  rewrite (sum_groups rep T N) by apply (gr_in _ _ _ _ _ G). apply sum_ext. intros s J. apply in_seq in J. rewrite (proj1 AU) by lia.
  symmetry. apply (sum_to _ _ (fun t => k s * f s * v t)); [|rewrite sum_scale; ring]. intros t Jt. apply in_group in Jt. destruct Jt as [_ ->]. ring.
Qed.
Lemma series_avg (k f : nat -> Q) : sum (fun s => k s * V s * (sum (fun t => wo t * f t) (group rep T s) / W s)) (seq 0 N) == sum (fun t => k (rep t) * v t * f t) (seq 0 T).
Proof.
  symmetry. rewrite (sum_groups rep T N) by apply (gr_in _ _ _ _ _ G). apply sum_ext. intros s J. apply in_seq in J. assert (L : (s < N)%nat) by lia.
  transitivity (sum (fun t => (k s * V s / W s) * (wo t * f t)) (group rep T s)); [|rewrite sum_scale; field; now apply W_nz].
  apply sum_ext. intros t Jt. apply in_group in Jt. destruct Jt as [Lt E]. pose proof (proj2 AU t Lt) as H. rewrite E in *.
  assert (Z : v t == wo t * V s / W s) by (rewrite <- H; field; now apply W_nz). rewrite Z. field. now apply W_nz.
Qed.
End V.
End G.
