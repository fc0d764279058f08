From Coq Require Import Reals Arith.
From Coquelicot Require Import Coquelicot.
Open Scope R_scope.

(* Mismatch and Jacobian of the non-linear power flow, pypsa/pf.py 523-601, over the real and complex
   numbers. Matrices and vectors are functions of positions; slices shift positions.
   Buses are numbered as in buses_o: 0 is the slack bus, then npv PV buses, then npq PQ buses
   (pf.py 1102-1105). *)

Fixpoint csum (n : nat) (x : nat -> C) : C :=
  match n with O => RtoC 0 | S k => Cplus (csum k x) (x k) end.

(* dense view of the sparse matrices: products, diagonal matrices, conjugates *)
Definition mv (n : nat) (A : nat -> nat -> C) (x : nat -> C) (i : nat) : C :=
  csum n (fun j => Cmult (A i j) (x j)).
Definition mm (n : nat) (A B : nat -> nat -> C) (i j : nat) : C :=
  csum n (fun k => Cmult (A i k) (B k j)).
Definition diag (x : nat -> C) (i j : nat) : C := if Nat.eqb i j then x i else RtoC 0.
Definition mconj (A : nat -> nat -> C) (i j : nat) : C := Cconj (A i j).

Section Pf.
Variables npv npq : nat.
Variable Y : nat -> nat -> C.                (* sub_network.Y *)
Variable s : nat -> C.                       (* p + 1j * q of the snapshot, pf.py 670-672 *)
Variable v_set : nat -> R.                   (* v_mag_pu of slack and PV buses, pf.py 604-608 *)

Definition npvpq : nat := npv + npq.
Definition nb : nat := 1 + npvpq.

(* pf.py 529-535, 557-563: the guess holds the angles of pvpqs, then the magnitudes of pqs *)
Definition v_ang (g : nat -> R) (i : nat) : R := match i with O => 0 | S k => g k end.
Definition v_mag (g : nat -> R) (i : nat) : R :=
  if Nat.ltb i (1 + npv) then v_set i else g (npvpq + (i - (1 + npv)))%nat.

(* pf.py 536, 565 *)
Definition V (g : nat -> R) (i : nat) : C := Cmult (RtoC (v_mag g i)) (cos (v_ang g i), sin (v_ang g i)).

(* pf.py 538-542; guess[-1] is the total slack power *)
Definition mismatch (ds : bool) (w : nat -> R) (g : nat -> R) (i : nat) : C :=
  let m := Cminus (Cmult (V g i) (Cconj (mv nb Y (V g) i))) (s i) in
  if ds then Cplus m (RtoC (w i * g (npvpq + npq)%nat)) else m.

(* pf.py 544-547 *)
Definition f (ds : bool) (w : nat -> R) (g : nat -> R) (r : nat) : R :=
  if ds then
    if Nat.ltb r nb then Re (mismatch ds w g r) else Im (mismatch ds w g (1 + npv + (r - nb))%nat)
  else
    if Nat.ltb r npvpq then Re (mismatch ds w g (1 + r)%nat)
    else Im (mismatch ds w g (1 + npv + (r - npvpq))%nat).

(* lengths of F and of the guess *)
Definition nrows (ds : bool) : nat := if ds then nb + npq else npvpq + npq.
Definition nvars (ds : bool) : nat := if ds then npvpq + npq + 1 else npvpq + npq.

(* pf.py 570-578 *)
Definition V_norm (g : nat -> R) (i : nat) : C := Cdiv (V g i) (RtoC (Cmod (V g i))).
Definition I_bus (g : nat -> R) (i : nat) : C := mv nb Y (V g) i.
Definition dS_dVa (g : nat -> R) : nat -> nat -> C :=
  mm nb (fun i j => Cmult Ci (diag (V g) i j))
     (mconj (fun i j => Cminus (diag (I_bus g) i j) (mm nb Y (diag (V g)) i j))).
Definition dS_dVm (g : nat -> R) (i j : nat) : C :=
  Cplus (mm nb (diag (V_norm g)) (mconj (diag (I_bus g))) i j)
        (mm nb (diag (V g)) (mconj (mm nb Y (diag (V_norm g)))) i j).

(* pf.py 580-599: the blocks J00 J01 J02 / J10 J11 J12 *)
Definition dfdx (ds : bool) (w : nat -> R) (g : nat -> R) (r c : nat) : R :=
  let nP := if ds then nb else npvpq in
  let off := if ds then 0%nat else 1%nat in
  if Nat.ltb r nP then
    if Nat.ltb c npvpq then Re (dS_dVa g (off + r)%nat (1 + c)%nat)
    else if Nat.ltb c (npvpq + npq) then Re (dS_dVm g (off + r)%nat (1 + npv + (c - npvpq))%nat)
    else w r
  else
    let i := (1 + npv + (r - nP))%nat in
    if Nat.ltb c npvpq then Im (dS_dVa g i (1 + c)%nat)
    else if Nat.ltb c (npvpq + npq) then Im (dS_dVm g i (1 + npv + (c - npvpq))%nat)
    else 0.
End Pf.
