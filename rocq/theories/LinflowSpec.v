From mathcomp Require Import all_ssreflect all_algebra.
Set Implicit Arguments. Unset Strict Implicit. Unset Printing Implicit Defensive.
Import GRing.Theory Num.Theory.
Local Open Scope ring_scope.

(* What the physics demands, written without any matrix. *)
Section Spec.
Variable F : fieldType.
Variables n m : nat.
Variables b0 b1 : 'I_m -> 'I_n.

(* what leaves bus i over branches minus what arrives *)
Definition outflow (f : 'I_m -> F) (i : 'I_n) : F :=
  \sum_(l | b0 l == i) f l - \sum_(l | b1 l == i) f l.

(* Kirchhoff's current law, and Ohm's law with bus angles th and phase shifts *)
Definition balanced_at (p : 'I_n -> F) (f : 'I_m -> F) : Prop := forall i, outflow f i = p i.
Definition ohm (z shift : 'I_m -> F) (th : 'I_n -> F) (f : 'I_m -> F) : Prop :=
  forall l, z l * f l = th (b0 l) - th (b1 l) - shift l.
Definition dc_flow (z shift : 'I_m -> F) (p : 'I_n -> F) (f : 'I_m -> F) : Prop :=
  balanced_at p f /\ exists th, ohm z shift th f.

(* circulation: a flow leaving nothing at any bus *)
Definition circulation (g : 'I_m -> F) : Prop := forall i, outflow g i = 0.

(* two buses joined by branches, in either direction *)
Definition adj : rel 'I_n :=
  fun i j => [exists l, ((b0 l == i) && (b1 l == j)) || ((b0 l == j) && (b1 l == i))].
Definition connected : Prop := forall i j, connect adj i j.
End Spec.
