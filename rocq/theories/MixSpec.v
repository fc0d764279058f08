From Coq Require Import List String Bool QArith ZArith Arith.
From Verif Require Import LinModel WholeModel.
Import ListNotations.
Open Scope Q_scope.

(* a mixture of two solutions, e.g. of the results of two runs of n.optimize() *)
Definition mix (s : Q) (x y : sol) : sol := fun v => s * x v + (1 - s) * y v.
(* neither modules nor units that are either on or off *)
Definition no_integers (n : net) : Prop :=
  (forall a, In a (assets n) -> nom_mod a <= 0) /\ (linear n = true \/ forall a, In a (assets n) -> committable a = false).
(* quadratic costs that do not fall *)
Definition convex_costs (n : net) : Prop := (forall a t, In a (assets n) -> 0 <= quadratic a t) /\ (forall t, 0 <= w_obj n t).
Definition linear_costs (n : net) : Prop := forall a t, In a (assets n) -> quadratic a t == 0.
