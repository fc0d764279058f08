From mathcomp Require Import all_ssreflect all_algebra.
From Coq Require Import Ring Field.
Set Implicit Arguments. Unset Strict Implicit. Unset Printing Implicit Defensive.
Import GRing.Theory Num.Theory.
Local Open Scope ring_scope.
(* Proof support: lets the standard ring and field tactics work over a mathcomp field. *)
Section Plain.
Variable F : fieldType.
Definition fT : Type := GRing.Field.sort F.
Definition fadd (x y : fT) : fT := @GRing.add F x y.
Definition fmul (x y : fT) : fT := @GRing.mul F x y.
Definition fopp (x : fT) : fT := @GRing.opp F x.
Definition finv (x : fT) : fT := @GRing.inv F x.
Definition fsub (x y : fT) : fT := fadd x (fopp y).
Definition fdiv (x y : fT) : fT := fmul x (finv y).
Definition f0 : fT := @GRing.zero F.
Definition f1 : fT := @GRing.one F.
Lemma field_th : field_theory f0 f1 fadd fmul fsub fopp fdiv finv (@eq fT).
Proof.
split; first split.
- exact: add0r. - exact: addrC. - exact: addrA. - exact: mul1r. - exact: mulrC. - exact: mulrA.
- exact: mulrDl. - by []. - exact: subrr. - by apply/eqP; exact: oner_neq0.
- by []. - by move=> p /eqP; exact: mulVf.
Qed.
End Plain.
Ltac reify F t :=
  lazymatch t with
  | @GRing.add _ ?x ?y => let x' := reify F x in let y' := reify F y in constr:(@fadd F x' y')
  | @GRing.mul _ ?x ?y => let x' := reify F x in let y' := reify F y in constr:(@fmul F x' y')
  | @GRing.opp _ ?x => let x' := reify F x in constr:(@fopp F x')
  | @GRing.inv _ ?x => let x' := reify F x in constr:(@finv F x')
  | @GRing.zero _ => constr:(@f0 F)
  | @GRing.one _ => constr:(@f1 F)
  | @GRing.natmul _ ?x 2%N => let x' := reify F x in constr:(@fadd F x' x')
  | @GRing.exp _ ?x 2%N => let x' := reify F x in constr:(@fmul F x' x')
  | _ => constr:(t : fT F)
  end.
Ltac to_plain F :=
  lazymatch goal with |- @eq _ ?x ?y =>
   let x' := reify F x in let y' := reify F y in
   change (@eq (fT F) x' y') end.

Ltac fring F := to_plain F; ring.
Ltac ffield F := to_plain F; field.
