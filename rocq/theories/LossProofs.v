From Coq Require Import List String Bool QArith Qabs ZArith Arith Lqa Lia.
From Verif Require Import LinModel LinProofs LossModel LossSpec.
Import ListNotations.
Open Scope string_scope.
Open Scope list_scope.
Open Scope Q_scope.

Lemma q_of_S n : q_of (S n) == q_of n + 1.
Proof. unfold q_of. rewrite Nat2Z.inj_succ. unfold Z.succ. rewrite inject_Z_plus. reflexivity. Qed.
Lemma q_of_nonneg n : 0 <= q_of n.
Proof. induction n; [change (q_of 0) with 0; lra|]. rewrite q_of_S. lra. Qed.
Lemma q_of_pos n : (1 <= n)%nat -> 0 < q_of n.
Proof. intros L. destruct n; [lia|]. rewrite q_of_S. pose proof (q_of_nonneg n). lra. Qed.
Lemma q_of_le m n : (m <= n)%nat -> q_of m <= q_of n.
Proof. induction 1; [lra|]. rewrite q_of_S. lra. Qed.

Lemma sq_nonneg y : 0 <= y * y.
Proof. destruct (Qlt_le_dec y 0); nra. Qed.

Section P.
Variables (cls : string) (N T : nat).

Lemma constraints_iff bs cs x : loss_constraints cls N T bs = Some cs ->
  (sat x cs <-> forall b t, In b bs -> (t < T)%nat -> b_active b t = true ->
     loss_of cls x b t <= upper_limit b t /\
     forall k, (1 <= k <= N)%nat -> offset_k N k b t + slope_k N k b t * flow_of cls x b t <= loss_of cls x b t /\
        offset_k N k b t - slope_k N k b t * flow_of cls x b t <= loss_of cls x b t).
Proof.
  intros E.
  assert (D : cs = match bs with [] => [] | _ => upper cls T bs ++ flat_map (fun k => flat_map (fun s => tangent cls N T k s bs) [-(1); 1]) (seq 1 N) end).
  { unfold loss_constraints in E. destruct bs as [|b r]; [congruence|]. destruct (forallb _ _); congruence. }
  subst cs. destruct bs as [|b0 r]; [split; [intros _ b t []|intros _; apply sat_nil]|]. set (bs := b0 :: r) in *. clearbody bs. clear E b0 r.
  rewrite sat_app. unfold upper. rewrite sat_add. split.
  - intros [U G] b t I L A. split.
    + specialize (U t b ltac:(apply in_seq; lia) I A). unfold holds in U. cbn [sns lhs rhs eval] in U. unfold LossModel.loss in U. rewrite A in U. cbn [val] in U. unfold loss_of. lra.
    + intros k K. assert (H : forall s, In s [-(1); 1] -> sat x (tangent cls N T k s bs)).
      { intros s Is c Ic. apply G. apply in_flat_map. exists k. split; [apply in_seq; lia|]. apply in_flat_map. eauto. }
      pose proof (H (-(1)) ltac:(simpl; auto)) as H1. pose proof (H 1 ltac:(simpl; auto)) as H2. unfold tangent in *. rewrite sat_add in H1, H2.
      specialize (H1 t b ltac:(apply in_seq; lia) I A). specialize (H2 t b ltac:(apply in_seq; lia) I A).
      unfold holds in *. cbn [sns lhs rhs eval] in *. unfold LossModel.loss, flow in *. rewrite A in *. cbn [val] in *. unfold loss_of, flow_of. split; lra.
  - intros H. split.
    + intros t b It I A. apply in_seq in It. destruct (H b t I ltac:(lia) A) as [U _]. unfold holds. cbn [sns lhs rhs eval]. unfold LossModel.loss. rewrite A. cbn [val]. unfold loss_of in U. lra.
    + intros c Ic. apply in_flat_map in Ic. destruct Ic as [k [Ik Ic]]. apply in_flat_map in Ic. destruct Ic as [s [Is Ic]]. revert c Ic.
      change (sat x (tangent cls N T k s bs)). unfold tangent. rewrite sat_add. intros t b It I A. apply in_seq in It. apply in_seq in Ik.
      destruct (H b t I ltac:(lia) A) as [_ G]. destruct (G k ltac:(lia)) as [G1 G2].
      unfold holds. cbn [sns lhs rhs eval]. unfold LossModel.loss, flow. rewrite A. cbn [val]. unfold loss_of, flow_of in *.
      destruct Is as [<-|[<-|[]]]; lra.
Qed.

Lemma tangent_touches k b t : touches_at (b_r b) (p_k N k b t) (fun s => offset_k N k b t + slope_k N k b t * s).
Proof.
  unfold touches_at, offset_k, loss_k, slope_k. split; [|split].
  - exists (2 * b_r b * p_k N k b t), (b_r b * (p_k N k b t * p_k N k b t) - 2 * b_r b * p_k N k b t * p_k N k b t). intros s. ring.
  - ring.
  - intros s R. set (p := p_k N k b t). assert (0 <= b_r b * ((s - p) * (s - p))) by (apply Qmult_le_0_compat; [auto|apply sq_nonneg]). lra.
Qed.

Lemma value_of bs cs b : loss_constraints cls N T bs = Some cs -> In b bs -> limit b = Some (limit_value b).
Proof.
  unfold loss_constraints. destruct bs as [|b0 r]; [intros _ []|]. destruct (forallb _ _) eqn:F; [|discriminate]. intros _ I.
  rewrite forallb_forall in F. specialize (F b I). unfold limit_value. destruct (limit b); [reflexivity|discriminate].
Qed.
Lemma largest_value bs cs b t m : loss_constraints cls N T bs = Some cs -> In b bs -> largest b t m -> m == b_max_pu b t * limit_value b.
Proof. intros E I [c [C M]]. pose proof (value_of bs cs b E I) as V. unfold limit in V. rewrite C in V. injection V as V. rewrite <- V. exact M. Qed.

(* a grid point within half a step *)
Lemma nearest (d s : Q) n : 0 <= d -> 0 <= s -> s <= q_of n * d + d * (1 # 2) -> exists k, (k <= n)%nat /\ (s - q_of k * d) * (s - q_of k * d) <= d * d * (1 # 4).
Proof.
  intros D S. induction n as [|n IH]; intros L.
  - exists 0%nat. split; [lia|]. change (q_of 0) with 0 in *. nra.
  - destruct (Qlt_le_dec (q_of n * d + d * (1 # 2)) s) as [G|G].
    + exists (Datatypes.S n). split; [lia|]. rewrite q_of_S in *. set (y := s - (q_of n + 1) * d). assert (- (d * (1 # 2)) <= y /\ y <= d * (1 # 2)) by (unfold y; split; lra). nra.
    + destruct (IH G) as [k [K E]]. exists k. split; auto.
Qed.

Lemma p_k_step k b t : (1 <= N)%nat -> p_k N k b t == q_of k * (b_max_pu b t * limit_value b / q_of N).
Proof. intros L. unfold p_k. pose proof (q_of_pos N L). field. lra. Qed.

(* the modelled loss undershoots the quadratic one by at most the quadratic loss of half a step *)
Lemma loss_error bs cs x b t m : loss_constraints cls N T bs = Some cs -> sat x cs -> (1 <= N)%nat -> In b bs -> (t < T)%nat -> b_active b t = true ->
  0 <= b_r b -> 0 <= loss_of cls x b t -> largest b t m -> 0 <= m -> Qabs (flow_of cls x b t) <= m ->
  quad b (flow_of cls x b t) - quad b (m / (2 * q_of N)) <= loss_of cls x b t /\ loss_of cls x b t <= quad b m.
Proof.
  intros E S L I Lt A R P M M0 F. rewrite (constraints_iff bs cs x E) in S. destruct (S b t I Lt A) as [U G].
  pose proof (largest_value bs cs b t m E I M) as V. split.
  - pose proof (q_of_pos N L) as Np. set (d := m / q_of N). assert (D : 0 <= d) by (apply Qle_shift_div_l; [auto|lra]).
    assert (ND : q_of N * d == m) by (unfold d; field; lra).
    set (s := flow_of cls x b t) in *.
    destruct (nearest d (Qabs s) N D (Qabs_nonneg s) ltac:(lra)) as [k [K C]].
    assert (SQ : s * s == Qabs s * Qabs s).
    { apply (Qabs_case s (fun y => s * s == y * y)); intros; ring. }
    assert (HD : quad b (m / (2 * q_of N)) == b_r b * (d * d * (1 # 4))) by (unfold quad, d; field; lra).
    assert (T1 : b_r b * (2 * (q_of k * d) * Qabs s - q_of k * d * (q_of k * d)) <= loss_of cls x b t).
    { destruct k as [|k']; [change (q_of 0) with 0; setoid_replace (b_r b * (2 * (0 * d) * Qabs s - 0 * d * (0 * d))) with 0 by ring; auto|].
      destruct (G (Datatypes.S k') ltac:(lia)) as [G1 G2]. unfold offset_k, slope_k, loss_k in *.
      assert (PK : p_k N (Datatypes.S k') b t == q_of (Datatypes.S k') * d) by (rewrite p_k_step by auto; unfold d; rewrite V; reflexivity).
      rewrite PK in *. set (p := q_of (Datatypes.S k') * d) in *.
      apply (Qabs_case s (fun y => b_r b * (2 * p * y - p * p) <= loss_of cls x b t)); intros _; lra. }
    unfold quad at 1. rewrite HD, SQ. set (q := q_of k * d) in *.
    assert (T2 : b_r b * ((Qabs s - q) * (Qabs s - q)) <= b_r b * (d * d * (1 # 4))) by (apply Qmult_le_l_weak || (rewrite !(Qmult_comm (b_r b)); apply Qmult_le_compat_r; auto)). lra.
  - unfold upper_limit in U. unfold quad. rewrite V. exact U.
Qed.

(* at the tangent points the modelled loss is at least the quadratic one *)
Lemma at_points bs cs x b t k m : loss_constraints cls N T bs = Some cs -> sat x cs -> In b bs -> (t < T)%nat -> b_active b t = true -> (1 <= k <= N)%nat ->
  largest b t m -> flow_of cls x b t == q_of k / q_of N * m \/ flow_of cls x b t == - (q_of k / q_of N * m) -> quad b (flow_of cls x b t) <= loss_of cls x b t.
Proof.
  intros E S I Lt A K M F. rewrite (constraints_iff bs cs x E) in S. destruct (S b t I Lt A) as [_ G]. destruct (G k K) as [G1 G2].
  pose proof (largest_value bs cs b t m E I M) as V. unfold offset_k, slope_k, loss_k in *. unfold quad.
  assert (PK : p_k N k b t == q_of k / q_of N * m) by (unfold p_k; rewrite V; ring). rewrite <- PK in F.
  set (p := p_k N k b t) in *. set (s := flow_of cls x b t) in *. destruct F as [F|F]; rewrite F in *; lra.
Qed.

(* the exact quadratic loss is feasible for every flow within the largest capacity *)
Lemma exact_feasible bs cs x : loss_constraints cls N T bs = Some cs ->
  (forall b t, In b bs -> (t < T)%nat -> b_active b t = true -> 0 <= b_r b /\ loss_of cls x b t == quad b (flow_of cls x b t) /\
     forall m, largest b t m -> Qabs (flow_of cls x b t) <= m) -> sat x cs.
Proof.
  intros E H. rewrite (constraints_iff bs cs x E). intros b t I L A. destruct (H b t I L A) as [R [Q F]].
  assert (M : largest b t (b_max_pu b t * limit_value b)).
  { exists (limit_value b). split; [|reflexivity]. exact (value_of bs cs b E I). }
  specialize (F _ M). set (s := flow_of cls x b t) in *. unfold quad in Q. split.
  - rewrite Q. unfold upper_limit. set (m := b_max_pu b t * limit_value b) in *.
    assert (s * s <= m * m) by (revert F; apply (Qabs_case s (fun y => y <= m -> s * s <= m * m)); intros; nra).
    rewrite !(Qmult_comm (b_r b)). apply Qmult_le_compat_r; auto.
  - intros k K. destruct (tangent_touches k b t) as [_ [_ B]]. rewrite Q. split; [apply B; auto|].
    specialize (B (- s) R). setoid_replace (b_r b * (s * s)) with (b_r b * (- s * - s)) by ring. lra.
Qed.

(* rejected exactly when some largest capacity is infinite *)
Lemma rejected bs : loss_constraints cls N T bs = None <-> exists b, In b bs /\ (if b_ext b then b_nom_max b else b_nom b) = None.
Proof.
  unfold loss_constraints. destruct bs as [|b0 r]; [split; [discriminate|intros [b [[] _]]]|]. set (bs := b0 :: r). clearbody bs.
  destruct (forallb _ bs) eqn:F; split; intros H; try discriminate; auto.
  - destruct H as [b [I E]]. rewrite forallb_forall in F. specialize (F b I). unfold limit in F. rewrite E in F. discriminate.
  - clear H. induction bs as [|c l IH]; [discriminate|]. simpl in F. unfold limit in F at 1. destruct (if b_ext c then b_nom_max c else b_nom c) eqn:E.
    + simpl in F. destruct (IH F) as [b [I B]]. exists b. simpl. auto.
    + exists c. simpl. auto.
Qed.
End P.
