From mathcomp Require Import all_ssreflect all_algebra.
Set Implicit Arguments. Unset Strict Implicit. Unset Printing Implicit Defensive.
Import GRing.Theory.
Local Open Scope ring_scope.

(* Linear power flow of one sub-network for one snapshot, exact arithmetic over any field.
   Buses are numbered in the order buses_o, i.e. the slack bus first (pf.py 1102-1105), then the n others;
   the m switched-on branches are numbered in the order of iterate_components(passive_branch_components). *)
Section Linflow.
Variable F : fieldType.
Variables n m : nat.
Variables b0 b1 : 'I_m -> 'I_(1 + n).       (* columns bus0, bus1 as bus positions *)
Variable z : 'I_m -> F.                     (* column x_pu_eff (AC) or r_pu_eff (DC) *)
Variable shift : 'I_m -> F.                 (* phase_shift * pi / 180 of transformers, 0 for lines *)

(* SubNetwork.incidence_matrix, networks/graph: +1 at bus0, -1 at bus1 (CyclesModel.incidence_matrix, C16) *)
Definition K : 'M[F]_(1 + n, m) := \matrix_(i, l) ((b0 l == i)%:R - (b1 l == i)%:R).

(* pf.py 1131-1138: b = 1/z (z = 0 gives infinity there; not modelled, the theorems assume z <> 0) *)
Definition b (l : 'I_m) : F := (z l)^-1.

(* pf.py 1143: H = b_diag * K.T *)
Definition H : 'M[F]_(m, 1 + n) := diag_mx (\row_l b l) *m K^T.

(* pf.py 1146: B = K * H *)
Definition B : 'M[F]_(1 + n) := K *m H.

(* pf.py 1160, 1162 *)
Definition p_branch_shift : 'cV[F]_m := \col_l (- b l * shift l).
Definition p_bus_shift : 'cV[F]_(1 + n) := K *m p_branch_shift.

(* pf.py 1501-1504: v_diff[:, 1:] = spsolve(B[1:, 1:], p[:, 1:]); the slack entry stays zero *)
Definition v_diff (p : 'cV[F]_(1 + n)) : 'cV[F]_(1 + n) :=
  col_mx 0 (invmx (drsubmx B) *m dsubmx (p - p_bus_shift)).

(* pf.py 1505-1508 *)
Definition flows (p : 'cV[F]_(1 + n)) : 'cV[F]_m := H *m v_diff p + p_branch_shift.

(* pf.py 1512, 1513 *)
Definition branch_p0 (p : 'cV[F]_(1 + n)) (l : 'I_m) : F := flows p l ord0.
Definition branch_p1 (p : 'cV[F]_(1 + n)) (l : 'I_m) : F := - flows p l ord0.

(* pf.py 1523-1527 *)
Definition slack_adjustment (p : 'cV[F]_(1 + n)) : F :=
  - (\sum_i dsubmx p i ord0) - usubmx p ord0 ord0.
Definition bus_p (p : 'cV[F]_(1 + n)) : 'cV[F]_(1 + n) :=
  \col_i (p i ord0 + (if i == lshift n ord0 then slack_adjustment p else 0)).

(* pf.py 1182-1200 *)
Definition B_inverse : 'M[F]_(1 + n) := block_mx 0 0 0 (invmx (drsubmx B)).
Definition PTDF : 'M[F]_(m, 1 + n) := H *m B_inverse.

(* contingency.py 53-64 *)
Definition branch_PTDF : 'M[F]_m := PTDF *m K.
Definition BODF : 'M[F]_m :=
  \matrix_(k, l) (if k == l then -1 else branch_PTDF k l * (1 - branch_PTDF l l)^-1).

(* contingency.py 127-130: flows after the outage of branch l, from the flows f of the base case *)
Definition outage_flow (f : 'cV[F]_m) (l : 'I_m) : 'cV[F]_m := \col_k (f k ord0 + BODF k l * f l ord0).

(* constraints.py 706-708, 719: one equation per column of C; the factor 1e5 is any non-zero s *)
Definition kvl (c : nat) (C : 'M[F]_(m, c)) (s : F) (f : 'cV[F]_m) : Prop :=
  forall j, \sum_l s * z l * C l j * f l ord0 = 0.
End Linflow.
