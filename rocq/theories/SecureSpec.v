From mathcomp Require Import all_ssreflect all_algebra.
From Verif Require Import LinflowSpec.
Set Implicit Arguments. Unset Strict Implicit. Unset Printing Implicit Defensive.
Import Order.TTheory GRing.Theory Num.Theory.
Local Open Scope ring_scope.

(* What a secure dispatch means: with the same injections and one branch gone, the flows that Kirchhoff and Ohm prescribe
   stay within what the remaining branches can carry. *)
Section Spec.
Variable F : realFieldType.
Variables n m : nat.
Variables b0 b1 : 'I_m.+1 -> 'I_n.
Variable z : 'I_m.+1 -> F.

(* what a branch can carry: its optimised capacity if extendable, its given one otherwise *)
Definition rated (ext : 'I_m.+1 -> bool) (nom cap : 'I_m.+1 -> F) (l : 'I_m.+1) : F := if ext l then cap l else nom l.
Definition within (pu s loss : 'I_m.+1 -> F) (l : 'I_m.+1) (g : F) : Prop :=
  - (pu l * s l) + loss l <= g /\ g <= pu l * s l - loss l.

(* the network without branch k *)
Definition still_connected (k : 'I_m.+1) : Prop :=
  connected (fun j => b0 (lift k j)) (fun j => b1 (lift k j)).
Definition after_outage (k : 'I_m.+1) (p : 'I_n -> F) (g : 'I_m -> F) : Prop :=
  dc_flow (fun j => b0 (lift k j)) (fun j => b1 (lift k j)) (fun j => z (lift k j)) (fun=> 0) p g.
Definition survives (pu s loss : 'I_m.+1 -> F) (p : 'I_n -> F) (k : 'I_m.+1) : Prop :=
  forall g, after_outage k p g -> forall j, within pu s loss (lift k j) (g j).
End Spec.
