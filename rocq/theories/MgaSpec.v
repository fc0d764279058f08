From Coq Require Import List String Bool QArith ZArith Arith.
From Verif Require Import LinModel ObjectiveModel ObjectiveSpec MgaModel.
Import ListNotations.
Open Scope string_scope.
Open Scope list_scope.
Open Scope Q_scope.

(* what a system costs: capacities in service, running, switching *)
Definition system_cost (n : net) (x : sol) : Q :=
  total (fun a => if a_flag a then a_capital a * capacity x a else 0) (assets n) +
  total (fun t => w_snap n t * total (fun a => running x a t) (assets n)) (days n) +
  total (fun t => total (fun a => starts x a t) (assets n)) (days n).
Definition near (n : net) (x0 : sol) (slack : Q) (x : sol) : Prop := system_cost n x <= (1 + slack) * system_cost n x0.

(* the figure a wish asks for: weighted capacities of extendable assets, or weighted values over the snapshots *)
Definition or_zero (q : option Q) : Q := match q with Some q => q | None => 0 end.
Definition weight_of (w : wish) (t : nat) (name : string) : Q :=
  match with_coeffs w with Scalar q => q | Series f => or_zero (f name) | Frame f => or_zero (f t name) end.
Definition is_capacity (w : wish) : bool := existsb (String.eqb (for_attr w)) ["p_nom"; "s_nom"; "e_nom"].
Definition figure (n : net) (x : sol) (w : wish) : Q :=
  total (fun a =>
    if String.eqb (a_class a) (for_class w) then
      if is_capacity w then if a_ext a then weight_of w 0 (a_name a) * capacity x a else 0
      else total (fun t => weight_of w t (a_name a) *
             (if String.eqb (for_attr w) "spill" && negb (positive (a_inflow a t)) then 0
              else at_ x a (for_class w ++ "-" ++ for_attr w) t)) (days n)
    else 0) (assets n).
Definition figures (n : net) (x : sol) (l : list wish) : Q := total (figure n x) l.
(* names by class, as the network keeps them *)
Definition installed_generation (n : net) (x : sol) : Q :=
  total (fun a => if String.eqb (a_class a) "Generator" && a_ext a then capacity x a else 0) (assets n).

(* y is the best of all allowed candidates: it minimises (maximises) f *)
Definition least (P : sol -> Prop) (f : sol -> Q) (y : sol) : Prop := P y /\ forall x, P x -> f y <= f x.
Definition greatest (P : sol -> Prop) (f : sol -> Q) (y : sol) : Prop := P y /\ forall x, P x -> f x <= f y.

(* when the function can do what it is asked: no quadratic costs, every wish is for decisions the network has, in a form that is understood *)
Definition no_squares (n : net) : Prop := forall a t, In a (assets n) -> a_quadratic a t == 0.
Definition granted (n : net) (w : wish) : Prop :=
  (In (for_class w, for_attr w) nominal /\ (forall f, with_coeffs w <> Frame f) /\ exists a, In a (assets n) /\ a_class a = for_class w /\ a_ext a = true) \/
  (In (for_class w, for_attr w) operational /\ (forall f, with_coeffs w <> Series f) /\
     exists a, In a (assets n) /\ a_class a = for_class w /\ (for_attr w = "spill" -> exists t, (t < nsnaps n)%nat /\ 0 < a_inflow a t)).
