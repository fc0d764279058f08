From Coq Require Import List Bool ZArith QArith Arith.
From Verif Require Import CyclesModel CyclesSpec.
Import ListNotations.
Open Scope list_scope.

(* walks over edges, without regard to their direction *)
Definition linked (es : list gbranch) (u v : nat) : Prop := exists b, In b es /\ ((g0 b = u /\ g1 b = v) \/ (g0 b = v /\ g1 b = u)).
Inductive walks (es : list gbranch) : nat -> nat -> list nat -> Prop :=
| stay a : walks es a a [a]
| go a b s p : linked es a b -> walks es b s p -> walks es a s (a :: p).
Definition simple_path (es : list gbranch) (a s : nat) (p : list nat) : Prop := walks es a s p /\ NoDup p.

(* a network without cycles: no loops, no parallel branches, one simple path at most between two buses *)
Definition radial (brs : list gbranch) : Prop :=
  (forall b, In b brs -> g0 b <> g1 b) /\
  (forall k l b c, nth_error brs k = Some b -> nth_error brs l = Some c -> (g0 c = g0 b /\ g1 c = g1 b) \/ (g0 c = g1 b /\ g1 c = g0 b) -> k = l) /\
  (forall a s p q, simple_path brs a s p -> simple_path brs a s q -> p = q).

(* what the flows f take away from bus x *)
Definition leaving (brs : list gbranch) (f : nat -> Q) (x : nat) : Q := qsum (fun l => inject_Z (inc brs l x) * f l)%Q (List.length brs).
(* flows from the injections p by a matrix *)
Definition along (T : nat -> nat -> Z) (nb : nat) (p : nat -> Q) (l : nat) : Q := qsum (fun j => inject_Z (T l j) * p j)%Q nb.
