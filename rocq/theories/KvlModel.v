From Coq Require Import ZArith List.
From Verif Require Import Assoc CyclesModel.
From mathcomp Require Import all_ssreflect all_algebra.
Set Implicit Arguments. Unset Strict Implicit. Unset Printing Implicit Defensive.
Import GRing.Theory.
Local Open Scope nat_scope.
Local Open Scope ring_scope.

(* Kirchhoff voltage constraints of the optimisation: constraints.py 669-725, over the columns computed by
   CyclesModel.find_cycles. Buses are 0..n, branches 0..m-1, all of one snapshot and one sub-network. *)
Section Kvl.
Variable F : fieldType.

(* entries of the float matrix C *)
Definition zF (x : Z) : F := (Z.to_nat x)%:R - (Z.to_nat (- x))%:R.

(* sub_network.branches() with finite reactance, as find_cycles sees it *)
Definition branch_list n m (b0 b1 : 'I_m -> 'I_n) : list gbranch :=
  [seq {| g0 := val (b0 l); g1 := val (b1 l); gfin := true |} | l <- enum 'I_m].

(* constraints.py 706-719: for every column, sum over its entries of 1e5 * weighting * entry * variable = 0
   (s is the scale 1e5). Variables of switched-off branches do not exist (variables.py 37-39) and their
   terms are dropped. *)
Definition kvl_term m (z : 'I_m -> F) (active : 'I_m -> bool) (s : F) (col : list (nat * Z)) (f : 'I_m -> F) l : F :=
  if active l then s * z l * zF (col_entry col (val l)) * f l else 0.
Definition kvl_constraints m (z : 'I_m -> F) (active : 'I_m -> bool) (s : F)
    (cols : list (list (nat * Z))) (f : 'I_m -> F) : Prop :=
  forall col, List.In col cols -> \sum_l kvl_term z active s col f l = 0.
End Kvl.
