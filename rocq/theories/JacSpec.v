From Coq Require Import Reals Arith.
From Coquelicot Require Import Coquelicot.
Open Scope R_scope.

Fixpoint rsum (n : nat) (x : nat -> R) : R := match n with O => 0 | S k => rsum k x + x k end.

(* the textbook equations in polar form: power leaving bus i, with Y = G + jB *)
Definition P_out (n : nat) (Y : nat -> nat -> C) (v th : nat -> R) (i : nat) : R :=
  v i * rsum n (fun j => v j * (Re (Y i j) * cos (th i - th j) + Im (Y i j) * sin (th i - th j))).
Definition Q_out (n : nat) (Y : nat -> nat -> C) (v th : nat -> R) (i : nat) : R :=
  v i * rsum n (fun j => v j * (Re (Y i j) * sin (th i - th j) - Im (Y i j) * cos (th i - th j))).

(* J is the derivative of F at x: along every differentiable curve through x the chain rule holds with J *)
Definition is_jacobian (rows cols : nat) (F : (nat -> R) -> nat -> R) (x : nat -> R) (J : nat -> nat -> R) : Prop :=
  forall (gam : R -> nat -> R) (t0 : R) (d : nat -> R),
    (forall c, gam t0 c = x c) ->
    (forall c, (c < cols)%nat -> is_derive (fun t => gam t c) t0 (d c)) ->
    forall r, (r < rows)%nat -> is_derive (fun t => F (gam t) r) t0 (rsum cols (fun c => J r c * d c)).

(* coordinate c replaced *)
Definition upd (x : nat -> R) (c : nat) (y : R) (k : nat) : R := if Nat.eqb k c then y else x k.
