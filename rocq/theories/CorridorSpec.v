(* What replacing parallel branches by one should mean (C94). *)
From Coq Require Import List Bool QArith Qabs.
From Verif Require Import CorridorModel.
Import ListNotations.
Open Scope list_scope.

(* two branches between the same buses *)
Definition same_ends (e e' : edge) : Prop := (eu e = eu e' /\ ev e = ev e') \/ (eu e = ev e' /\ ev e = eu e').
Definition parallel (g : list edge) : Prop := exists a e b e' c, g = a ++ e :: b ++ e' :: c /\ same_ends e e'.
Definition ends_in (nodes : list nat) (g : list edge) : Prop := forall e, In e g -> In (eu e) nodes /\ In (ev e) nodes.
Definition sumq {A} (f : A -> Q) (l : list A) : Q := fold_right (fun a q => f a + q)%Q 0%Q l.
(* the values of one attribute as numbers *)
Definition vals (a : attr) (f : line -> Q) (ls : list line) : Prop := forall l, In l ls -> lval l a = Fin (f l).
(* series admittance 1 / (r + j x) *)
Definition conductance (r x : Q) : Q := (r / (r * r + x * x))%Q.
Definition susceptance (r x : Q) : Q := (- (x / (r * r + x * x)))%Q.
(* the flow over a reactance by an angle difference *)
Definition flow (d x : Q) : Q := (d / x)%Q.
Definition within (f s : Q) : Prop := (Qabs f <= s)%Q.
