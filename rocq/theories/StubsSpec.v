From Coq Require Import List String Bool Arith.
From Verif Require Import StubsModel.
Import ListNotations.

Definition adjacent (G : graph) (a b : string) : Prop := In (a, b) (edges G) \/ In (b, a) (edges G).
Inductive connected (G : graph) : string -> string -> Prop :=
| c_refl : forall a, connected G a a
| c_step : forall a b c, adjacent G a b -> connected G b c -> connected G a c.
Definition closed (G : graph) : Prop := NoDup (nodes G) /\ forall a b, adjacent G a b -> In a (nodes G).
(* the buses agree in all matching attributes *)
Definition agree (matching : list string) (value : string -> string -> option string) (u v : string) : Prop :=
  forall a, In a matching -> exists x, value a u = Some x /\ value a v = Some x.
(* the meshed part: a set of buses each with two different neighbours in the set (itself counts if it has a loop) *)
Definition meshed (G : graph) (C : string -> Prop) : Prop :=
  forall u, C u -> In u (nodes G) /\ exists v w, v <> w /\ C v /\ C w /\ adjacent G u v /\ adjacent G u w.
(* different clusters joined by a branch *)
Definition linked (G : graph) (bm : string -> string) (u v : string) : Prop := u <> v /\ exists a b, adjacent G a b /\ bm a = u /\ bm b = v.
(* no meshed part: a forest *)
Definition forest (G : graph) : Prop := forall C, meshed G C -> forall u, ~ C u.
