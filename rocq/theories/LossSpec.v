From Coq Require Import List String Bool QArith Qabs Arith.
From Verif Require Import LinModel LossModel.
Open Scope string_scope.
Open Scope Q_scope.

(* a function whose graph is a line touching r*s^2 at the point p *)
Definition touches_at (r p : Q) (f : Q -> Q) : Prop :=
  (exists a c, forall s, f s == a * s + c) /\ f p == r * (p * p) /\ forall s, 0 <= r -> f s <= r * (s * s).

(* values of a solution *)
Definition flow_of (cls : string) (x : sol) (b : branch) (t : nat) : Q := x ((cls ++ "-s")%string, t, b_name b).
Definition loss_of (cls : string) (x : sol) (b : branch) (t : nat) : Q := x ((cls ++ "-loss")%string, t, b_name b).
Definition quad (b : branch) (s : Q) : Q := b_r b * (s * s).
(* largest flow: s_max_pu times the capacity, for extendable branches the largest capacity *)
Definition largest (b : branch) (t : nat) (m : Q) : Prop :=
  exists c, (if b_ext b then b_nom_max b else b_nom b) = Some c /\ m == b_max_pu b t * c.
