From mathcomp Require Import all_ssreflect all_algebra.
From Verif Require Import LinflowModel.
Set Implicit Arguments. Unset Strict Implicit. Unset Printing Implicit Defensive.
Import GRing.Theory.
Local Open Scope ring_scope.

(* Voltage angles after an optimisation: pypsa/optimization/optimize.py 503-521, one sub-network and one snapshot, exact
   arithmetic. Buses in the order buses_o, the slack bus first; B as in LinflowModel (calculate_B_H, pf.py 1107-1146). *)
Section Angles.
Variable F : fieldType.
Variables n m : nat.
Variables b0 b1 : 'I_m -> 'I_(1 + n).
Variable z : 'I_m -> F.

(* 508: np.linalg.pinv(B) is the matrix Z with the four equations of Moore and Penrose *)
Definition is_pinv (k : nat) (A Z : 'M[F]_k) : Prop :=
  A *m Z *m A = A /\ Z *m A *m Z = Z /\ (A *m Z)^T = A *m Z /\ (Z *m A)^T = Z *m A.

(* 509: Z -= Z[slack]; a series is matched with the columns of a frame, so entry j of the slack's column is taken off
   column j *)
Definition less_slack (Z : 'M[F]_(1 + n)) : 'M[F]_(1 + n) := \matrix_(i, j) (Z i j - Z j (lshift n ord0)).

(* 505-506, 510: buses_t.p @ Z, one row; a single bus has angle 0 *)
Definition v_ang (Z : 'M[F]_(1 + n)) (p : 'cV[F]_(1 + n)) : 'cV[F]_(1 + n) :=
  if n == 0%N then 0 else (p^T *m less_slack Z)^T.
End Angles.
