From Coq Require Import Reals List.
Import ListNotations.
Open Scope R_scope.

(* pypsa/geo.py over the real numbers (floats are not modelled). *)
(* np.deg2rad *)
Definition deg2rad (d : R) : R := d * (PI / 180).
(* np.arctan2 *)
Definition arctan2 (y x : R) : R :=
  if Rlt_dec 0 x then atan (y / x)
  else if Rlt_dec x 0 then (if Rle_dec 0 y then atan (y / x) + PI else atan (y / x) - PI)
  else if Rlt_dec 0 y then PI / 2 else if Rlt_dec y 0 then - (PI / 2) else 0.
(* points: longitude, latitude in degrees; 24-58 *)
Definition point : Type := R * R.
Definition chord (lon0 lat0 lon1 lat1 : R) : R := Rsqr (sin ((lat1 - lat0) / 2)) + cos lat0 * cos lat1 * Rsqr (sin ((lon0 - lon1) / 2)).
Definition haversine_pts (a b : point) : R :=
  let lon0 := deg2rad (fst a) in let lat0 := deg2rad (snd a) in let lon1 := deg2rad (fst b) in let lat1 := deg2rad (snd b) in
  let c := chord lon0 lat0 lon1 lat1 in
  6371 * 2 * arctan2 (sqrt c) (sqrt (1 - c)).
(* 61-120: a[np.newaxis, :], b[:, np.newaxis] and the transposition in haversine_pts: one row for each point of a *)
Definition haversine (a b : list point) : list (list R) := map (fun p => map (haversine_pts p) b) a.

(* 123-157; None: NaN. np.nanmin of values among which none is a number is NaN, and an exception for no values at all *)
Definition numbers (l : list (option R)) : list R := flat_map (fun o => match o with Some x => [x] | None => [] end) l.
Definition nanmin (l : list (option R)) : option R := match numbers l with [] => None | x :: r => Some (fold_left Rmin r x) end.
Definition nanmax (l : list (option R)) : option R := match numbers l with [] => None | x :: r => Some (fold_left Rmax r x) end.
Definition widen (margin : R) (l : list (option R)) : option (R * R) :=
  match nanmin l, nanmax l with Some lo, Some hi => Some (lo - margin * (hi - lo), hi + margin * (hi - lo)) | _, _ => None end.
(* ((x1, y1), (x2, y2)); a side without numbers is NaN *)
Definition compute_bbox (x y : list (option R)) (margin : R) : (option R * option R) * (option R * option R) :=
  ((option_map fst (widen margin x), option_map fst (widen margin y)), (option_map snd (widen margin x), option_map snd (widen margin y))).
