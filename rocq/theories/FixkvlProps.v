From Coq Require Import ZArith List String.
From Verif Require Import CyclesModel.
From mathcomp Require Import all_ssreflect all_algebra.
From Verif Require Import LinflowModel LinflowSpec LinflowProofs KvlModel KvlSpec KvlProofs.
From Verif Require PerunitModel.
Set Implicit Arguments. Unset Strict Implicit. Unset Printing Implicit Defensive.
Import Order.TTheory GRing.Theory Num.Theory.
Local Open Scope nat_scope.
Local Open Scope ring_scope.

(* Impedances and fixed capacities. Reactance of a branch in per unit (pf.py 993-1010): that of a transformer, x, is
   per unit of its rating s_nom, that of a line does not depend on s_nom *)
Definition reactance (F : fieldType) (trafo : bool) (x s : F) : F := if trafo then x / s else x.

(* fix_optimal_capacities changes s_nom and with it the impedances of transformers: flows that met the voltage law when the
   capacity was chosen violate it at the fixed capacity *)
Theorem C66_transformer_refuted :
  exists (n m : nat) (b0 b1 : 'I_m -> 'I_(1 + n)) (trafo : 'I_m -> bool) (x nom opt : 'I_m -> rat)
         (cycles : list (list nat)) (cols : list (list (nat * Z))) (f : 'I_m -> rat),
    (forall l, b0 l != b1 l) /\ (forall l, 0 < x l /\ 0 < nom l /\ `|f l| <= opt l) /\
    find_cycles (branch_list b0 b1) cycles = Some cols /\ cycle_basis rat_fieldType b0 b1 cycles /\
    (forall s, kvl_constraints (fun l => reactance (trafo l) (x l) (nom l)) xpredT s cols f) /\
    (forall s, s != 0 -> ~ kvl_constraints (fun l => reactance (trafo l) (x l) (opt l)) xpredT s cols f).
Proof.
exists 2%N, 3%N, tri0, tri1, (fun l => val l == 2%N), (fun=> 1), (fun=> 1), (fun=> 2%:R), [:: [:: 0; 1; 2]]%N,
  [:: [:: (0%N, Zpos xH); (1%N, Zpos xH); (2%N, Zpos xH)]], (fun l => if val l == 2%N then - 2%:R else 1).
split; first exact: tri_noself.
split; first by case=> [[|[|[|l]]] // h].
split; first exact: tri_cols.
split; first exact: tri_basis.
split=> [s col [<-|[]]|s sn /(_ _ (or_introl (erefl _)))];
  rewrite !big_ord_recl big_ord0 /kvl_term /reactance /= !zF1 !mulr1 addr0.
- by rewrite mulrN addrA -mulr2n mulr_natr subrr.
- rewrite mul1r mulrN -mulrA mulVf // mulr1 subrr addr0; exact/eqP.
Qed.
Print Assumptions C66_transformer_refuted.

(* a transformer with a standard type: the next calculate_dependent_values puts back the rating of the type *)
Theorem C66_type_refuted : forall (C : numClosedFieldType) (opt : C) (t : PerunitModel.ttype C) (a : PerunitModel.transformer C),
  PerunitModel.tr_type a = PerunitModel.tt_name t -> PerunitModel.tr_type a <> ""%string -> PerunitModel.tr_s a = opt -> opt <> PerunitModel.tt_s t ->
  exists a', PerunitModel.apply_transformer_types [:: t] [:: a] = Some [:: a'] /\ PerunitModel.tr_s a' <> opt.
Proof.
move=> C opt t a E N S D; exists (PerunitModel.typed_transformer t a); split; last by rewrite /= => X; apply: D.
rewrite /= E; case: String.eqb_spec => [X|_]; first by case: N; rewrite E.
by rewrite /PerunitModel.named /= String.eqb_refl.
Qed.
Print Assumptions C66_type_refuted.
