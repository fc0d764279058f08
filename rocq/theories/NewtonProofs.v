From Coq Require Import QArith ZArith Bool Lia.
From Verif Require Import NewtonModel.
Open Scope nat_scope.

Section Newton.
Variables X V : Type.
Variable f : X -> V.
Variable step : X -> V -> X.
Variable norm : V -> option Q.

(* the plain Newton sequence started from a guess *)
Fixpoint iterate (k : nat) (x : X) : X :=
  match k with O => x | S j => let y := iterate j x in step y (f y) end.

Lemma iterate_shift k x : iterate k (step x (f x)) = iterate (S k) x.
Proof. induction k; simpl in *; [reflexivity|]. now rewrite IHk. Qed.

Lemma gt_spec a b : gt a b = true <-> exists x y, a = Some x /\ b = Some y /\ (y < x)%Q.
Proof.
  unfold gt. destruct a as [x|], b as [y|].
  - rewrite negb_true_iff. split.
    + intros H. exists x, y. repeat split. apply Qnot_le_lt. intros L. apply Qle_bool_iff in L. congruence.
    + intros [x' [y' [E1 [E2 L]]]]. injection E1 as <-. injection E2 as <-.
      destruct (Qle_bool x y) eqn:E; auto. apply Qle_bool_iff in E. now apply Qlt_not_le in L.
  - split; [discriminate|]. intros [? [? [? [? _]]]]; discriminate.
  - split; [discriminate|]. intros [? [? [? _]]]; discriminate.
  - split; [discriminate|]. intros [? [? [? _]]]; discriminate.
Qed.

Lemma loop_spec fuel tol x n g m :
  loop X V f step norm fuel tol x n = (g, m) ->
  exists k, m = n + k /\ k <= fuel /\ g = iterate k x /\
    (forall j, j < k -> gt (norm (f (iterate j x))) tol = true) /\
    (gt (norm (f g)) tol = true -> k = fuel).
Proof.
  revert x n. induction fuel as [|fuel IH]; intros x n H; simpl in H.
  - injection H as <- <-. exists 0. repeat split; auto; lia.
  - destruct (gt (norm (f x)) tol) eqn:E.
    + destruct (IH _ _ H) as [k [-> [L [-> [P D]]]]]. exists (S k). split; [lia|]. split; [lia|].
      split; [apply iterate_shift|]. split.
      * intros j J. destruct j; [exact E|]. rewrite <- iterate_shift. apply P. lia.
      * intros Q. f_equal. auto.
    + injection H as <- <-. exists 0. repeat split; auto; try lia. simpl. congruence.
Qed.

Definition run := newton_raphson X V f step norm.

Lemma run_trace x tol lim :
  let r := run x tol lim in
  nr_iter _ r <= Z.to_nat lim /\ nr_guess _ r = iterate (nr_iter _ r) x /\ nr_diff _ r = norm (f (nr_guess _ r)) /\
  forall j, j < nr_iter _ r -> exists d t, norm (f (iterate j x)) = Some d /\ tol = Some t /\ (t < d)%Q.
Proof.
  unfold run, newton_raphson. destruct (loop _ _ _ _ _ _ _ _ _) as [g m] eqn:H. simpl.
  destruct (loop_spec _ _ _ _ _ _ H) as [k [-> [L [-> [P D]]]]]. simpl. repeat split; auto.
  intros j J. apply gt_spec. auto.
Qed.

Lemma run_converged x t lim :
  nr_converged _ (run x (Some t) lim) = true <->
  exists k d, k <= Z.to_nat lim /\ norm (f (iterate k x)) = Some d /\ (d <= t)%Q /\
    (forall j, j < k -> exists e, norm (f (iterate j x)) = Some e /\ (t < e)%Q).
Proof.
  unfold run, newton_raphson. destruct (loop _ _ _ _ _ _ _ _ _) as [g m] eqn:H. simpl.
  destruct (loop_spec _ _ _ _ _ _ H) as [k [-> [L [-> [P D]]]]].
  assert (P' : forall j, j < k -> exists e, norm (f (iterate j x)) = Some e /\ (t < e)%Q).
  { intros j J. specialize (P j J). apply gt_spec in P. destruct P as [a [b [E1 [E2 E3]]]]. injection E2 as <-. eauto. }
  split.
  - destruct (gt _ _) eqn:G; [discriminate|]. destruct (norm (f (iterate k x))) as [d|] eqn:N; [|discriminate].
    intros _. exists k, d. repeat split; auto. apply Qnot_lt_le. intros Q.
    rewrite (proj2 (gt_spec (Some d) (Some t))) in G; [discriminate|]. eauto.
  - intros [k' [d [L' [N [T Q]]]]].
    assert (k = k').
    { destruct (Nat.lt_total k k') as [C|[C|C]]; auto; exfalso.
      - destruct (Q k C) as [e [N' T']].
        assert (k = Z.to_nat lim) by (apply D; apply gt_spec; eauto). lia.
      - destruct (P' k' C) as [e [N' T']]. rewrite N in N'. injection N' as <-. now apply Qlt_not_le in T'. }
    subst k'. rewrite N. destruct (gt (Some d) (Some t)) eqn:G; auto.
    apply gt_spec in G. destruct G as [a [b [E1 [E2 E3]]]]. injection E1 as <-. injection E2 as <-. now apply Qlt_not_le in E3.
Qed.

Lemma run_not_converged x t lim :
  let r := run x (Some t) lim in
  nr_converged _ r = false ->
  nr_diff _ r = None \/ nr_iter _ r = Z.to_nat lim /\ exists d, nr_diff _ r = Some d /\ (t < d)%Q.
Proof.
  unfold run, newton_raphson. destruct (loop _ _ _ _ _ _ _ _ _) as [g m] eqn:H. simpl.
  destruct (loop_spec _ _ _ _ _ _ H) as [k [-> [L [-> [P D]]]]]. simpl.
  destruct (gt _ _) eqn:G.
  - intros _. right. split; auto. apply gt_spec in G. destruct G as [a [b [E1 [E2 E3]]]]. injection E2 as <-. eauto.
  - destruct (norm _); [discriminate|auto].
Qed.

Lemma run_zero x t lim d : norm (f x) = Some d -> (d <= t)%Q ->
  let r := run x (Some t) lim in nr_iter _ r = 0 /\ nr_guess _ r = x /\ nr_converged _ r = true.
Proof.
  intros N T. assert (G : gt (Some d) (Some t) = false).
  { destruct (gt (Some d) (Some t)) eqn:E; auto. apply gt_spec in E. destruct E as [a [b [E1 [E2 E3]]]].
    injection E1 as <-. injection E2 as <-. now apply Qlt_not_le in E3. }
  assert (LP : loop X V f step norm (Z.to_nat lim) (Some t) x 0 = (x, 0)).
  { destruct (Z.to_nat lim); simpl; auto. now rewrite N, G. }
  unfold run, newton_raphson. rewrite LP. simpl. rewrite N, G. auto.
Qed.
End Newton.
