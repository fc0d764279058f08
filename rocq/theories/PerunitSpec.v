From mathcomp Require Import all_ssreflect all_algebra.
From Coq Require Import String.
From Verif Require Import AdmitModel AdmitSpec PerunitModel.
Set Implicit Arguments. Unset Strict Implicit. Unset Printing Implicit Defensive.
Import GRing.Theory Num.Theory.
Local Open Scope ring_scope.

Section S.
Variable C : numClosedFieldType.

(* the nominal voltage of a bus *)
Definition level (n : network C) (b : string) (v : C) : Prop := exists c, List.In (Bus b v c) (buses n).
Definition own_names {A : Type} (name : A -> string) (s : seq A) : Prop := List.NoDup (List.map name s).

(* the circuit a transformer's constants describe: T or pi *)
Definition circuit (model : string) (z y v0 v1 i0 i1 : C) : Prop :=
  if String.eqb model "t" then T_circuit z y v0 v1 i0 i1 else pi_circuit z y v0 v1 i0 i1.
(* behind ideal transformers of ratio t0 and t1 *)
Definition with_taps (t0 t1 : C) (model : string) (z y v0 v1 i0 i1 : C) : Prop :=
  exists w0 w1 k0 k1, [/\ ideal (@conjC C) t0 v0 i0 w0 k0, ideal (@conjC C) t1 v1 i1 w1 k1 & circuit model z y w0 w1 k0 k1].

(* what the name plate says of one device, in per unit of its rating: short-circuit voltage and its resistive part in per
   cent, iron losses in kW, no-load current in per cent; inductive *)
Definition name_plate (t : ttype C) (z y : C) : Prop :=
  [/\ `|z| = tt_vsc t / 100%:R, 'Re z = tt_vscr t / 100%:R & 0 <= 'Im z] /\
  [/\ 'Re y * tt_s t * 1000%:R = tt_pfe t, `|y| = tt_i0 t / 100%:R & 'Im y <= 0].
End S.
