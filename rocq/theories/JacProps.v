From Coq Require Import Reals Arith Lia Lra.
From Coquelicot Require Import Coquelicot.
From Verif Require Import JacModel JacSpec JacProofs.
Open Scope R_scope.

(* C55: the residual vanishes exactly when the power equations hold: active power at every bus but the
   slack bus, reactive power at every PQ bus *)
Theorem C55_residual :
  forall npv npq (Y : nat -> nat -> C) (s : nat -> C) (v_set w g : nat -> R),
    (forall r, (r < nrows npv npq false)%nat -> f npv npq Y s v_set false w g r = 0) <->
    (forall i, (1 <= i < 1 + npv + npq)%nat ->
       P_out (1 + npv + npq) Y (v_mag npv npq v_set g) (v_ang g) i = Re (s i)) /\
    (forall i, (1 + npv <= i < 1 + npv + npq)%nat ->
       Q_out (1 + npv + npq) Y (v_mag npv npq v_set g) (v_ang g) i = Im (s i)).
Proof. exact residual_plain. Qed.
Print Assumptions C55_residual.

(* with distributed slack: active power at every bus, up to its share of the total slack guess[-1] *)
Theorem C55_residual_distributed :
  forall npv npq (Y : nat -> nat -> C) (s : nat -> C) (v_set w g : nat -> R),
    (forall r, (r < nrows npv npq true)%nat -> f npv npq Y s v_set true w g r = 0) <->
    (forall i, (i < 1 + npv + npq)%nat ->
       P_out (1 + npv + npq) Y (v_mag npv npq v_set g) (v_ang g) i =
       Re (s i) - w i * g (npv + npq + npq)%nat) /\
    (forall i, (1 + npv <= i < 1 + npv + npq)%nat ->
       Q_out (1 + npv + npq) Y (v_mag npv npq v_set g) (v_ang g) i = Im (s i)).
Proof. exact residual_distributed. Qed.
Print Assumptions C55_residual_distributed.

(* dfdx is the derivative of f wherever the magnitudes of the PQ buses are positive; it is square *)
Theorem C55_jacobian :
  forall npv npq (Y : nat -> nat -> C) (s : nat -> C) (v_set w g : nat -> R) (ds : bool),
    (forall j, (1 + npv <= j < 1 + npv + npq)%nat -> 0 < v_mag npv npq v_set g j) ->
    is_jacobian (nrows npv npq ds) (nvars npv npq ds) (f npv npq Y s v_set ds w) g (dfdx npv npq Y v_set ds w g) /\
    nrows npv npq ds = nvars npv npq ds.
Proof.
  intros npv npq Y s v_set w g ds Pos. split; [exact (jacobian_at npv npq Y s v_set ds w g Pos)|].
  unfold nrows, nvars, nb, npvpq. destruct ds; lia.
Qed.
Print Assumptions C55_jacobian.

(* entry by entry *)
Theorem C55_partials :
  forall npv npq (Y : nat -> nat -> C) (s : nat -> C) (v_set w g : nat -> R) (ds : bool) (r c : nat),
    (forall j, (1 + npv <= j < 1 + npv + npq)%nat -> 0 < v_mag npv npq v_set g j) ->
    (r < nrows npv npq ds)%nat -> (c < nvars npv npq ds)%nat ->
    is_derive (fun y => f npv npq Y s v_set ds w (upd g c y) r) (g c) (dfdx npv npq Y v_set ds w g r c).
Proof. exact (fun npv npq Y s v_set w g ds r c => partials npv npq Y s v_set ds w g r c). Qed.
Print Assumptions C55_partials.

(* the Newton step d = J^-1 F: moving along -d every residual decreases at the rate of its own value *)
Theorem C55_newton_direction :
  forall npv npq (Y : nat -> nat -> C) (s : nat -> C) (v_set w g d : nat -> R) (ds : bool) (r : nat),
    (forall j, (1 + npv <= j < 1 + npv + npq)%nat -> 0 < v_mag npv npq v_set g j) ->
    (r < nrows npv npq ds)%nat ->
    rsum (nvars npv npq ds) (fun c => dfdx npv npq Y v_set ds w g r c * d c) = f npv npq Y s v_set ds w g r ->
    is_derive (fun t => f npv npq Y s v_set ds w (fun c => g c - t * d c) r) 0 (- f npv npq Y s v_set ds w g r).
Proof. exact (fun npv npq Y s v_set w g d ds r => newton_direction npv npq Y s v_set ds w g d r). Qed.
Print Assumptions C55_newton_direction.

(* one PV and one PQ bus on a line of admittance -10j; flat start: hypotheses met, and the equations have
   the flat solution without load *)
Definition exY (i j : nat) : C :=
  if Nat.eqb i j then (0, if Nat.eqb i 1 then -20 else -10)
  else if (Nat.eqb i 1 || Nat.eqb j 1)%bool then (0, 10) else RtoC 0.
Definition flat (k : nat) : R := if Nat.ltb k 2 then 0 else 1.
Example C55_example :
  (forall j, (2 <= j < 3)%nat -> 0 < v_mag 1 1 (fun _ => 1) flat j) /\
  nrows 1 1 false = 3%nat /\
  (forall r, (r < 3)%nat -> f 1 1 exY (fun _ => RtoC 0) (fun _ => 1) false (fun _ => 0) flat r = 0) /\
  dfdx 1 1 exY (fun _ => 1) false (fun _ => 0) flat 0 0 = 20.
Proof.
  split; [|split; [reflexivity|split]].
  - intros j Hj. assert (j = 2)%nat as -> by lia. unfold v_mag, flat. simpl. lra.
  - apply (proj2 (residual_plain 1 1 exY (fun _ => RtoC 0) (fun _ => 1) (fun _ => 0) flat)). unfold P_out, Q_out, nb, npvpq.
    split; intros i Hi; assert (i = 1 \/ i = 2)%nat as [-> | ->] by lia;
      unfold v_mag, v_ang, flat, exY; simpl; rewrite ?Rminus_0_r, ?cos_0, ?sin_0; lra.
  - unfold dfdx. simpl Nat.ltb. cbv iota. rewrite dS_dVa_at by (unfold nb, npvpq; simpl; lia).
    unfold I_bus, mv, V, v_mag, v_ang, flat, exY, nb, npvpq. simpl. rewrite ?cos_0, ?sin_0. lra.
Qed.

(* DEFECT: V / abs(V) is the direction of the voltage only while the magnitude is positive. Once an
   iterate has a negative magnitude the column of dfdx has the wrong sign. *)
Theorem C55_negative_magnitude_refuted :
  exists npv npq (Y : nat -> nat -> C) (s : nat -> C) (v_set w g : nat -> R) (r c : nat) (true_derivative : R),
    (r < nrows npv npq false)%nat /\ (c < nvars npv npq false)%nat /\
    is_derive (fun y => f npv npq Y s v_set false w (upd g c y) r) (g c) true_derivative /\
    true_derivative < 0 /\ dfdx npv npq Y v_set false w g r c > 0.
Proof.
  set (Y := fun i j => if (Nat.eqb i 1 && Nat.eqb j 1)%bool then RtoC 1 else RtoC 0).
  set (g := fun k => if Nat.eqb k 0 then 0 else -1).
  exists 0%nat, 1%nat, Y, (fun _ => RtoC 0), (fun _ => 1), (fun _ => 0), g, 0%nat, 1%nat, (-2).
  split; [unfold nrows, npvpq; lia|]. split; [unfold nvars, npvpq; lia|].
  split; [|split; [lra|]].
  - apply (is_derive_ext (fun y => y * y)).
    + intros y. unfold f. simpl Nat.ltb. cbv iota. rewrite mismatch_polar.
      unfold P_out, v_mag, v_ang, g, upd, Y, nb, npvpq. simpl. replace (0 - 0) with 0 by ring. rewrite cos_0, sin_0. match goal with |- ?a = ?b => change (@eq R a b) end. ring.
    + unfold g. simpl. auto_derive; auto. ring.
  - change (dfdx 0 1 Y (fun _ => 1) false (fun _ => 0) g 0 1) with (Re (dS_dVm 0 1 Y (fun _ => 1) g 1 1)).
    rewrite dS_dVm_at by (unfold nb, npvpq; simpl; lia).
    assert (E : V_norm 0 1 (fun _ => 1) g 1 = RtoC (-1)).
    { unfold V_norm. assert (V 0 1 (fun _ => 1) g 1 = RtoC (-1)) as ->.
      { unfold V, v_mag, v_ang, g. simpl. rewrite cos_0, sin_0. apply injective_projections; simpl; ring. }
      rewrite Cmod_R, Rabs_left by lra. apply injective_projections; simpl; field. }
    rewrite E. unfold I_bus, mv, V, v_mag, v_ang, g, Y. simpl. rewrite ?cos_0, ?sin_0. lra.
Qed.
Print Assumptions C55_negative_magnitude_refuted.
