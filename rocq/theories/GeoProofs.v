From Coq Require Import Reals List Lra Lia Psatz.
From Verif Require Import GeoModel GeoSpec.
Import ListNotations.
Open Scope R_scope.

Lemma rad_eq d : deg2rad d = rad d.
Proof. unfold deg2rad, rad. field. Qed.
Lemma sq_half x : Rsqr (sin (x / 2)) = (1 - cos x) / 2.
Proof. replace (cos x) with (cos (2 * (x / 2))) by (f_equal; field). rewrite cos_2a_sin. unfold Rsqr. field. Qed.
Lemma chord_dot p q : chord (rad (fst p)) (rad (snd p)) (rad (fst q)) (rad (snd q)) = (1 - dot p q) / 2.
Proof.
  unfold chord, dot, unit_x, unit_y, unit_z. rewrite !sq_half, !cos_minus. field.
Qed.
Lemma unit_norm p : dot p p = 1.
Proof.
  unfold dot, unit_x, unit_y, unit_z. pose proof (sin2_cos2 (rad (fst p))) as H1. pose proof (sin2_cos2 (rad (snd p))) as H2. unfold Rsqr in *.
  set (s := sin (rad (fst p))) in *. set (c := cos (rad (fst p))) in *. set (s' := sin (rad (snd p))) in *. set (c' := cos (rad (snd p))) in *.
  replace (c' * c * (c' * c) + c' * s * (c' * s) + s' * s') with (c' * c' * (s * s + c * c) + s' * s') by ring. rewrite H1. lra.
Qed.
Lemma dot_sym p q : dot p q = dot q p.
Proof. unfold dot. ring. Qed.
Lemma gap_norm p q : Rsqr (unit_x p - unit_x q) + Rsqr (unit_y p - unit_y q) + Rsqr (unit_z p - unit_z q) = 2 - 2 * dot p q.
Proof. pose proof (unit_norm p) as H1. pose proof (unit_norm q) as H2. unfold dot, Rsqr in *. lra. Qed.
Lemma sum_norm p q : Rsqr (unit_x p + unit_x q) + Rsqr (unit_y p + unit_y q) + Rsqr (unit_z p + unit_z q) = 2 + 2 * dot p q.
Proof. pose proof (unit_norm p) as H1. pose proof (unit_norm q) as H2. unfold dot, Rsqr in *. lra. Qed.
Lemma dot_range p q : -1 <= dot p q <= 1.
Proof.
  pose proof (gap_norm p q) as G. pose proof (sum_norm p q) as H.
  pose proof (Rle_0_sqr (unit_x p - unit_x q)). pose proof (Rle_0_sqr (unit_y p - unit_y q)). pose proof (Rle_0_sqr (unit_z p - unit_z q)).
  pose proof (Rle_0_sqr (unit_x p + unit_x q)). pose proof (Rle_0_sqr (unit_y p + unit_y q)). pose proof (Rle_0_sqr (unit_z p + unit_z q)). lra.
Qed.
Lemma arctan2_range c : 0 <= c <= 1 -> 0 <= arctan2 (sqrt c) (sqrt (1 - c)) <= PI / 2 /\ cos (2 * arctan2 (sqrt c) (sqrt (1 - c))) = 1 - 2 * c.
Proof.
  intros C. pose proof PI_RGT_0 as HP. pose proof (sqrt_pos c) as S1. pose proof (sqrt_pos (1 - c)) as S2. unfold arctan2. destruct (Rlt_dec 0 (sqrt (1 - c))) as [L|L].
  - set (t := sqrt c / sqrt (1 - c)). assert (T : 0 <= t) by (unfold t; apply Rmult_le_pos; [auto|left; now apply Rinv_0_lt_compat]). split.
    + split; [|left; apply atan_bound]. destruct (Req_dec t 0) as [E|E]; [rewrite E, atan_0; lra|]. left. rewrite <- atan_0. apply atan_increasing. lra.
    + assert (X : Rsqr t = c / (1 - c)). { unfold t. rewrite Rsqr_div by lra. rewrite !Rsqr_sqrt by lra. reflexivity. }
      assert (NZ : 1 - c <> 0). { intros Z. rewrite Z, sqrt_0 in L. lra. }
      rewrite cos_2a_cos, cos_atan. fold (Rsqr t). rewrite X. replace (1 + c / (1 - c)) with (/ (1 - c)) by (field; auto).
      assert (P : 0 < 1 - c) by lra. assert (Q : 0 < / (1 - c)) by now apply Rinv_0_lt_compat.
      assert (SQ : sqrt (/ (1 - c)) * sqrt (/ (1 - c)) = / (1 - c)) by (apply sqrt_sqrt; lra). assert (SP : sqrt (/ (1 - c)) <> 0) by (intros Z; rewrite Z in SQ; lra).
      replace (2 * (1 / sqrt (/ (1 - c))) * (1 / sqrt (/ (1 - c)))) with (2 / (sqrt (/ (1 - c)) * sqrt (/ (1 - c)))) by (field; auto). rewrite SQ. field. auto.
  - assert (E : c = 1). { assert (sqrt (1 - c) = 0) by lra. apply sqrt_eq_0 in H; lra. } subst c. destruct (Rlt_dec (sqrt (1 - 1)) 0) as [X|_]; [lra|].
    rewrite sqrt_1. destruct (Rlt_dec 0 1) as [_|X]; [|lra]. split; [lra|]. replace (2 * (PI / 2)) with PI by field. rewrite cos_PI. lra.
Qed.
Lemma great_circle p q : haversine_pts p q = radius * acos (dot p q).
Proof.
  unfold haversine_pts. cbn zeta. rewrite !rad_eq, chord_dot. pose proof (dot_range p q) as D. set (c := (1 - dot p q) / 2). assert (C : 0 <= c <= 1) by (unfold c; lra).
  destruct (arctan2_range c C) as [A1 A2]. replace (dot p q) with (1 - 2 * c) by (unfold c; field). rewrite <- A2. rewrite acos_cos by lra. unfold radius. ring.
Qed.
Lemma pts_range p q : 0 <= haversine_pts p q <= radius * PI.
Proof. rewrite great_circle. pose proof (acos_bound (dot p q)) as B. unfold radius. split; nra. Qed.
Lemma pts_sym p q : haversine_pts p q = haversine_pts q p.
Proof. now rewrite !great_circle, dot_sym. Qed.
Lemma pts_zero p q : haversine_pts p q = 0 <-> same_place p q.
Proof.
  rewrite great_circle. pose proof (dot_range p q) as D. split.
  - intros H. assert (A : acos (dot p q) = 0) by (unfold radius in H; lra). assert (E : dot p q = 1). { rewrite <- (cos_acos (dot p q)) by lra. rewrite A. apply cos_0. }
    pose proof (gap_norm p q) as G. rewrite E in G. pose proof (Rle_0_sqr (unit_x p - unit_x q)) as H1. pose proof (Rle_0_sqr (unit_y p - unit_y q)) as H2. pose proof (Rle_0_sqr (unit_z p - unit_z q)) as H3.
    assert (Z1 : Rsqr (unit_x p - unit_x q) = 0) by lra. assert (Z2 : Rsqr (unit_y p - unit_y q) = 0) by lra. assert (Z3 : Rsqr (unit_z p - unit_z q) = 0) by lra.
    apply Rsqr_0_uniq in Z1, Z2, Z3. unfold same_place. lra.
  - intros [H1 [H2 H3]]. assert (E : dot p q = 1). { rewrite <- (unit_norm p). unfold dot. now rewrite H1, H2, H3. } rewrite E, acos_1. ring.
Qed.
Lemma pts_refl p : haversine_pts p p = 0.
Proof. apply pts_zero. repeat split. Qed.

(* Cauchy-Schwarz for the normals of two planes *)
Lemma normals p q r : Rsqr (dot p q * dot q r - dot p r) <= (1 - Rsqr (dot p q)) * (1 - Rsqr (dot q r)).
Proof.
  pose proof (unit_norm p) as Np. pose proof (unit_norm q) as Nq. pose proof (unit_norm r) as Nr. unfold dot in *.
  set (a := unit_x p) in *. set (b := unit_y p) in *. set (c := unit_z p) in *. set (d := unit_x q) in *. set (e := unit_y q) in *. set (f := unit_z q) in *. set (g := unit_x r) in *. set (h := unit_y r) in *. set (i := unit_z r) in *.
  set (x := b * f - c * e). set (y := c * d - a * f). set (z := a * e - b * d). set (x' := e * i - f * h). set (y' := f * g - d * i). set (z' := d * h - e * g).
  assert (L1 : x * x + y * y + z * z = 1 - Rsqr (a * d + b * e + c * f)).
  { unfold x, y, z, Rsqr. replace 1 with ((a * a + b * b + c * c) * (d * d + e * e + f * f)) by (rewrite Np, Nq; ring). ring. }
  assert (L2 : x' * x' + y' * y' + z' * z' = 1 - Rsqr (d * g + e * h + f * i)).
  { unfold x', y', z', Rsqr. replace 1 with ((d * d + e * e + f * f) * (g * g + h * h + i * i)) by (rewrite Nr, Nq; ring). ring. }
  assert (L3 : x * x' + y * y' + z * z' = (a * d + b * e + c * f) * (d * g + e * h + f * i) - (a * g + b * h + c * i)).
  { replace (a * g + b * h + c * i) with ((a * g + b * h + c * i) * (d * d + e * e + f * f)) by (rewrite Nq; ring). unfold x, y, z, x', y', z'. ring. }
  rewrite <- L1, <- L2, <- L3.
  assert (C : (x * x + y * y + z * z) * (x' * x' + y' * y' + z' * z') - Rsqr (x * x' + y * y' + z * z') = Rsqr (x * y' - y * x') + Rsqr (y * z' - z * y') + Rsqr (x * z' - z * x')) by (unfold Rsqr; ring).
  pose proof (Rle_0_sqr (x * y' - y * x')). pose proof (Rle_0_sqr (y * z' - z * y')). pose proof (Rle_0_sqr (x * z' - z * x')). lra.
Qed.
Lemma angle_triangle p q r : acos (dot p r) <= acos (dot p q) + acos (dot q r).
Proof.
  pose proof (dot_range p q) as D1. pose proof (dot_range q r) as D2. pose proof (dot_range p r) as D3.
  pose proof (acos_bound (dot p q)) as B1. pose proof (acos_bound (dot q r)) as B2. pose proof (acos_bound (dot p r)) as B3.
  destruct (Rle_dec (acos (dot p r)) (acos (dot p q) + acos (dot q r))) as [|N]; auto. exfalso. assert (L : acos (dot p q) + acos (dot q r) < acos (dot p r)) by lra.
  assert (X : cos (acos (dot p r)) < cos (acos (dot p q) + acos (dot q r))) by (apply cos_decreasing_1; lra).
  rewrite cos_plus in X. rewrite !cos_acos in X by lra. rewrite !sin_acos in X by lra.
  rewrite <- sqrt_mult in X; [|unfold Rsqr; nra|unfold Rsqr; nra].
  set (w := (1 - Rsqr (dot p q)) * (1 - Rsqr (dot q r))) in X. pose proof (normals p q r) as C. fold w in C.
  assert (S : sqrt w < dot p q * dot q r - dot p r) by lra. pose proof (sqrt_pos w) as P.
  assert (Y : Rsqr (sqrt w) < Rsqr (dot p q * dot q r - dot p r)) by (apply Rsqr_incrst_1; lra). rewrite Rsqr_sqrt in Y; [lra|].
  unfold w. apply Rmult_le_pos; unfold Rsqr; nra.
Qed.
Lemma pts_triangle p q r : haversine_pts p r <= haversine_pts p q + haversine_pts q r.
Proof. rewrite !great_circle. pose proof (angle_triangle p q r). unfold radius. lra. Qed.
Lemma rad_turn x k : rad (x + 360 * IZR k) = rad x + 2 * IZR k * PI.
Proof. unfold rad. field. Qed.
Lemma pts_turn lon lat k q : haversine_pts (lon + 360 * IZR k, lat) q = haversine_pts (lon, lat) q.
Proof.
  rewrite !great_circle. do 2 f_equal. unfold dot, unit_x, unit_y, unit_z. cbn [fst snd]. rewrite rad_turn.
  assert (T : forall m x, cos (x + 2 * INR m * PI) = cos x /\ sin (x + 2 * INR m * PI) = sin x) by (intros; split; [apply cos_period|apply sin_period]).
  assert (Z : cos (rad lon + 2 * IZR k * PI) = cos (rad lon) /\ sin (rad lon + 2 * IZR k * PI) = sin (rad lon)).
  { destruct (Z_le_gt_dec 0 k) as [P|P].
    - rewrite <- (Z2Nat.id k P), <- INR_IZR_INZ. apply T.
    - set (m := Z.to_nat (- k)). assert (E : IZR k = - INR m). { unfold m. rewrite INR_IZR_INZ, Z2Nat.id by lia. rewrite opp_IZR. ring. }
      destruct (T m (rad lon + 2 * IZR k * PI)) as [H1 H2]. rewrite <- H1, <- H2. rewrite E. split; f_equal; ring. }
  destruct Z as [-> ->]. reflexivity.
Qed.
Lemma pts_meridian lon a b : Rabs (a - b) <= 180 -> haversine_pts (lon, a) (lon, b) = radius * Rabs (rad a - rad b).
Proof.
  intros H. rewrite great_circle. f_equal.
  assert (E : dot (lon, a) (lon, b) = cos (Rabs (rad a - rad b))).
  { replace (cos (Rabs (rad a - rad b))) with (cos (rad a - rad b)); [|unfold Rabs; destruct (Rcase_abs _); [now rewrite cos_neg|auto]]. rewrite cos_minus. unfold dot, unit_x, unit_y, unit_z. cbn [fst snd].
    pose proof (sin2_cos2 (rad lon)) as S. unfold Rsqr in S. set (c := cos (rad lon)) in *. set (s := sin (rad lon)) in *.
    replace (cos (rad a) * c * (cos (rad b) * c) + cos (rad a) * s * (cos (rad b) * s) + sin (rad a) * sin (rad b)) with (cos (rad a) * cos (rad b) * (s * s + c * c) + sin (rad a) * sin (rad b)) by ring. rewrite S. ring. }
  rewrite E. apply acos_cos. split; [apply Rabs_pos|]. replace (rad a - rad b) with ((a - b) * (PI / 180)) by (unfold rad; field). pose proof PI_RGT_0. rewrite Rabs_mult, (Rabs_right (PI / 180)) by lra.
  apply Rle_trans with (180 * (PI / 180)); [apply Rmult_le_compat_r; lra|lra].
Qed.
Lemma equator lon1 lon2 : Rabs (lon1 - lon2) <= 180 -> haversine_pts (lon1, 0) (lon2, 0) = radius * Rabs (rad lon1 - rad lon2).
Proof.
  intros H. rewrite great_circle. f_equal. assert (Z : rad 0 = 0) by (unfold rad; field).
  assert (E : dot (lon1, 0) (lon2, 0) = cos (Rabs (rad lon1 - rad lon2))).
  { replace (cos (Rabs (rad lon1 - rad lon2))) with (cos (rad lon1 - rad lon2)); [|unfold Rabs; destruct (Rcase_abs _); [now rewrite cos_neg|auto]]. rewrite cos_minus. unfold dot, unit_x, unit_y, unit_z. cbn [fst snd]. rewrite Z, cos_0, sin_0. ring. }
  rewrite E. apply acos_cos. split; [apply Rabs_pos|]. replace (rad lon1 - rad lon2) with ((lon1 - lon2) * (PI / 180)) by (unfold rad; field). pose proof PI_RGT_0. rewrite Rabs_mult, (Rabs_right (PI / 180)) by lra.
  apply Rle_trans with (180 * (PI / 180)); [apply Rmult_le_compat_r; lra|lra].
Qed.
Lemma matrix_entry a b i j pa pb : nth_error a i = Some pa -> nth_error b j = Some pb -> exists row, nth_error (haversine a b) i = Some row /\ nth_error row j = Some (haversine_pts pa pb).
Proof. intros A B. exists (map (haversine_pts pa) b). unfold haversine. split; [now rewrite (map_nth_error _ _ _ A)|now rewrite (map_nth_error _ _ _ B)]. Qed.

(* bounding box *)
Lemma numbers_In l x : In x (numbers l) <-> In (Some x) l.
Proof. unfold numbers. rewrite in_flat_map. split; [intros [[y|] [H E]]; [destruct E as [E|[]]; now subst|destruct E]|intros H; exists (Some x); split; [auto|now left]]. Qed.
Lemma fold_min l x : (forall y, y = x \/ In y l -> fold_left Rmin l x <= y) /\ (fold_left Rmin l x = x \/ In (fold_left Rmin l x) l).
Proof.
  revert x. induction l as [|z l IH]; intros x; cbn [fold_left].
  - split; [intros y [->|[]]; lra|now left].
  - destruct (IH (Rmin x z)) as [H1 H2]. pose proof (Rmin_l x z). pose proof (Rmin_r x z). split.
    + intros y [->|[->|Y]]; [|apply Rle_trans with (Rmin x y); [apply H1; auto|auto]|auto]. apply Rle_trans with (Rmin x z); [apply H1; auto|auto].
    + destruct H2 as [E|I]; [|right; now right]. rewrite E. unfold Rmin. destruct (Rle_dec x z); [now left|right; now left].
Qed.
Lemma fold_max l x : (forall y, y = x \/ In y l -> y <= fold_left Rmax l x) /\ (fold_left Rmax l x = x \/ In (fold_left Rmax l x) l).
Proof.
  revert x. induction l as [|z l IH]; intros x; cbn [fold_left].
  - split; [intros y [->|[]]; lra|now left].
  - destruct (IH (Rmax x z)) as [H1 H2]. pose proof (Rmax_l x z). pose proof (Rmax_r x z). split.
    + intros y [->|[->|Y]]; [|apply Rle_trans with (Rmax x y); [auto|apply H1; auto]|auto]. apply Rle_trans with (Rmax x z); [auto|apply H1; auto].
    + destruct H2 as [E|I]; [|right; now right]. rewrite E. unfold Rmax. destruct (Rle_dec x z); [right; now left|now left].
Qed.
Lemma extremes l v : In (Some v) l -> exists lo hi, nanmin l = Some lo /\ nanmax l = Some hi /\ In (Some lo) l /\ In (Some hi) l /\ forall w, In (Some w) l -> lo <= w <= hi.
Proof.
  intros V. apply numbers_In in V. unfold nanmin, nanmax. destruct (numbers l) as [|x r] eqn:N; [destruct V|]. exists (fold_left Rmin r x), (fold_left Rmax r x).
  split; auto. split; auto. destruct (fold_min r x) as [A1 A2]. destruct (fold_max r x) as [B1 B2].
  split; [apply numbers_In; rewrite N; destruct A2 as [->|A2]; [now left|now right]|]. split; [apply numbers_In; rewrite N; destruct B2 as [->|B2]; [now left|now right]|].
  intros w W. apply numbers_In in W. rewrite N in W. assert (w = x \/ In w r) by (destruct W; auto). auto.
Qed.
Lemma box_side l margin v : In (Some v) l -> exists lo hi, In (Some lo) l /\ In (Some hi) l /\ (forall w, In (Some w) l -> lo <= w <= hi) /\ widen margin l = Some (lo - margin * (hi - lo), hi + margin * (hi - lo)).
Proof. intros V. destruct (extremes l v V) as [lo [hi [E1 [E2 [I1 [I2 H]]]]]]. exists lo, hi. unfold widen. rewrite E1, E2. auto. Qed.
Lemma box_contains x y margin px py : 0 <= margin -> In (Some px) x -> In (Some py) y -> exists x1 y1 x2 y2, compute_bbox x y margin = ((Some x1, Some y1), (Some x2, Some y2)) /\ x1 <= px <= x2 /\ y1 <= py <= y2.
Proof.
  intros M X Y. destruct (box_side x margin px X) as [a [b [_ [_ [H1 E1]]]]]. destruct (box_side y margin py Y) as [c [d [_ [_ [H2 E2]]]]]. unfold compute_bbox. rewrite E1, E2. cbn [option_map fst snd].
  do 4 eexists. split; [reflexivity|]. specialize (H1 px X). specialize (H2 py Y). split; nra.
Qed.
Lemma box_exact x y margin vx vy : In (Some vx) x -> In (Some vy) y -> exists xl xh yl yh, In (Some xl) x /\ In (Some xh) x /\ In (Some yl) y /\ In (Some yh) y /\
  (forall w, In (Some w) x -> xl <= w <= xh) /\ (forall w, In (Some w) y -> yl <= w <= yh) /\
  compute_bbox x y margin = ((Some (xl - margin * (xh - xl)), Some (yl - margin * (yh - yl))), (Some (xh + margin * (xh - xl)), Some (yh + margin * (yh - yl)))).
Proof.
  intros X Y. destruct (box_side x margin vx X) as [a [b [A1 [A2 [H1 E1]]]]]. destruct (box_side y margin vy Y) as [c [d [C1 [C2 [H2 E2]]]]]. exists a, b, c, d. unfold compute_bbox. rewrite E1, E2. cbn [option_map fst snd]. auto 10.
Qed.
