From Coq Require Import Reals List Lra.
From Verif Require Import GeoModel GeoSpec GeoProofs.
Import ListNotations.
Open Scope R_scope.

(* C47: distances and bounding boxes. *)

(* the distance is the radius times the angle between the points *)
Theorem C47_great_circle : forall p q, haversine_pts p q = radius * acos (dot p q).
Proof. exact great_circle. Qed.
Print Assumptions C47_great_circle.

Theorem C47_range : forall p q, 0 <= haversine_pts p q <= radius * PI.
Proof. exact pts_range. Qed.
Print Assumptions C47_range.

Theorem C47_symmetric : forall p q, haversine_pts p q = haversine_pts q p.
Proof. exact pts_sym. Qed.
Print Assumptions C47_symmetric.

(* zero exactly for the same place on the globe *)
Theorem C47_zero : forall p q, haversine_pts p q = 0 <-> same_place p q.
Proof. exact pts_zero. Qed.
Print Assumptions C47_zero.

Theorem C47_triangle : forall p q r, haversine_pts p r <= haversine_pts p q + haversine_pts q r.
Proof. exact pts_triangle. Qed.
Print Assumptions C47_triangle.

(* whole turns of longitude do not matter *)
Theorem C47_turn : forall lon lat k q, haversine_pts (lon + 360 * IZR k, lat) q = haversine_pts (lon, lat) q.
Proof. exact pts_turn. Qed.
Print Assumptions C47_turn.

(* along a meridian and along the equator it is the arc length *)
Theorem C47_meridian : forall lon a b, Rabs (a - b) <= 180 -> haversine_pts (lon, a) (lon, b) = radius * Rabs (rad a - rad b).
Proof. exact pts_meridian. Qed.
Print Assumptions C47_meridian.
Theorem C47_equator : forall lon1 lon2, Rabs (lon1 - lon2) <= 180 -> haversine_pts (lon1, 0) (lon2, 0) = radius * Rabs (rad lon1 - rad lon2).
Proof. exact equator. Qed.
Print Assumptions C47_equator.

(* entry i, j of the matrix is the distance between a_i and b_j *)
Theorem C47_matrix : forall a b i j pa pb, nth_error a i = Some pa -> nth_error b j = Some pb -> exists row, nth_error (haversine a b) i = Some row /\ nth_error row j = Some (haversine_pts pa pb).
Proof. exact matrix_entry. Qed.
Print Assumptions C47_matrix.

(* the box contains every point *)
Theorem C47_box : forall x y margin px py, 0 <= margin -> In (Some px) x -> In (Some py) y ->
  exists x1 y1 x2 y2, compute_bbox x y margin = ((Some x1, Some y1), (Some x2, Some y2)) /\ x1 <= px <= x2 /\ y1 <= py <= y2.
Proof. exact box_contains. Qed.
Print Assumptions C47_box.

(* and is the smallest such box, widened on each side by the margin times its extent *)
Theorem C47_box_exact : forall x y margin vx vy, In (Some vx) x -> In (Some vy) y -> exists xl xh yl yh, In (Some xl) x /\ In (Some xh) x /\ In (Some yl) y /\ In (Some yh) y /\
  (forall w, In (Some w) x -> xl <= w <= xh) /\ (forall w, In (Some w) y -> yl <= w <= yh) /\
  compute_bbox x y margin = ((Some (xl - margin * (xh - xl)), Some (yl - margin * (yh - yl))), (Some (xh + margin * (xh - xl)), Some (yh + margin * (yh - yl)))).
Proof. exact box_exact. Qed.
Print Assumptions C47_box_exact.

(* non-vacuity *)
Example pole_to_pole : haversine_pts (17, 90) (17, -90) = 6371 * PI.
Proof.
  rewrite pts_meridian; [|unfold Rabs; destruct (Rcase_abs _); lra]. replace (rad 90 - rad (-90)) with PI by (unfold rad; field). rewrite Rabs_right; [reflexivity|]. pose proof PI_RGT_0. lra.
Qed.
Example box_case : 0 <= 1/10 /\ In (Some 3) [Some 1; None; Some 3] /\ widen 1 [Some 1; None; Some 3] = Some (-1, 5).
Proof.
  split; [lra|]. split; [right; right; now left|]. unfold widen, nanmin, nanmax. cbn [numbers flat_map app fold_left]. unfold Rmin, Rmax. destruct (Rle_dec 1 3); [|lra]. do 2 f_equal; lra.
Qed.
