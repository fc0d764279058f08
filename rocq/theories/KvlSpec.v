From Coq Require Import ZArith List.
From Verif Require Import CyclesModel LinflowSpec.
From mathcomp Require Import all_ssreflect all_algebra.
Set Implicit Arguments. Unset Strict Implicit. Unset Printing Implicit Defensive.
Import GRing.Theory.
Local Open Scope nat_scope.
Local Open Scope ring_scope.

(* The contract of networkx.cycle_basis: the cycles are closed walks in the graph and every circulation of
   the graph without parallel edges is a combination of them. A circulation of that graph is given by what
   flows from u to v, for every ordered pair of buses. *)
Section Basis.
Variable F : fieldType.
Variables n m : nat.
Variables b0 b1 : 'I_m -> 'I_n.

(* the steps of a closed walk *)
Definition steps (c : seq nat) : seq (nat * nat) := zip c (rot 1 c).
Definition turns (c : seq nat) (u v : 'I_n) : F :=
  (count (pred1 (val u, val v)) (steps c))%:R - (count (pred1 (val v, val u)) (steps c))%:R.

Definition simple_circulation (h : 'I_n -> 'I_n -> F) : Prop :=
  (forall u v, h u v = - h v u) /\ (forall u v, ~~ adj b0 b1 u v -> h u v = 0) /\
  (forall u, \sum_v h u v = 0).

Definition cycle_basis (cycles : seq (seq nat)) : Prop :=
  (forall c u v, c \in cycles -> (u, v) \in steps c ->
     exists l, (val (b0 l) = u /\ val (b1 l) = v) \/ (val (b0 l) = v /\ val (b1 l) = u)) /\
  (forall h, simple_circulation h ->
     exists w : nat -> F, forall u v, h u v = \sum_(j < size cycles) w j * turns (nth [::] cycles j) u v).
End Basis.
