From Coq Require Import ZArith List QArith String.
From Verif Require Import CyclesModel.
From mathcomp Require Import all_ssreflect all_algebra.
From Verif Require Import LinflowModel LinflowSpec LinflowProofs KvlModel KvlSpec KvlProofs.
From Verif Require BalanceModel BalanceSpec ControlModel PfoutModel PfoutSpec SetpointModel SetpointSpec SetpointProofs SetpointProps.
From Verif Require Import SetpointkvlProofs.
Set Implicit Arguments. Unset Strict Implicit. Unset Printing Implicit Defensive.
Import Order.TTheory GRing.Theory Num.Theory.
Local Open Scope ring_scope.

(* C67, flows: buses are numbered in the order of buses_o, branches in the order of sub_branches. The
   branch flows of lpf on the fixed dispatch are those of the optimum (qF reads a rational number in F). *)
Theorem C67_flows :
  forall (F : realFieldType) (nn m : nat) (b0 b1 : 'I_m -> 'I_(1 + nn)) (z : 'I_m -> F) (sc : F)
         (cycles : list (list nat)) (cols : list (list (nat * Z))) (f : 'I_m -> F)
         s n0 nc c n x sns t tb,
    SetpointSpec.optimised s n0 nc c n false x sns t tb -> SetpointSpec.no_conductance tb ->
    List.length (ControlModel.buses_o c) = (1 + nn)%N ->
    List.length (SetpointSpec.sub_branches n (ControlModel.buses_o c)) = m ->
    (forall l : 'I_m, exists v br,
      [/\ List.nth_error (SetpointSpec.sub_branches n (ControlModel.buses_o c)) l = Some (v, br),
          List.nth_error (ControlModel.buses_o c) (b0 l) = Some (BalanceModel.b_bus0 br),
          List.nth_error (ControlModel.buses_o c) (b1 l) = Some (BalanceModel.b_bus1 br) &
          f l = qF F (BalanceSpec.flow x t v br)]) ->
    (forall l, b0 l != b1 l) -> sc != 0 -> (forall l, 0 < z l) -> LinflowSpec.connected b0 b1 ->
    find_cycles (branch_list b0 b1) cycles = Some cols -> cycle_basis F b0 b1 cycles ->
    kvl_constraints z xpredT sc cols f ->
    let r := PfoutModel.lpf_out c (SetpointModel.fix_optimal_dispatch tb) in
    forall l, branch_p0 b0 b1 z (fun=> 0)
      (\col_i qF F (PfoutModel.r_p r (nth ""%string (ControlModel.buses_o c) i))) l = f l.
Proof. exact: flows_of_fixed. Qed.
Print Assumptions C67_flows.

(* the triangle of SetpointProps.C67_ex *)
Example C67_flows_ex :
  let c := SetpointProps.ex_c in let n := SetpointProps.ex_net in
  let f (l : 'I_3) : rat := if val l == 0%N then 2%:R else -1 in
  exists nc, [/\ SetpointSpec.optimised "0" SetpointProps.ex_cn nc c n false SetpointProps.ex_x SetpointProps.on 0 (SetpointProps.ex_tb nil),
    List.length (ControlModel.buses_o c) = 3%N, List.length (SetpointSpec.sub_branches n (ControlModel.buses_o c)) = 3%N,
    (forall l : 'I_3, exists v br,
      [/\ List.nth_error (SetpointSpec.sub_branches n (ControlModel.buses_o c)) l = Some (v, br),
          List.nth_error (ControlModel.buses_o c) (tri0 l) = Some (BalanceModel.b_bus0 br),
          List.nth_error (ControlModel.buses_o c) (tri1 l) = Some (BalanceModel.b_bus1 br) &
          f l = qF _ (BalanceSpec.flow SetpointProps.ex_x 0 v br)]) &
    exists cols, [/\ find_cycles (branch_list tri0 tri1) [:: [:: 0; 1; 2]]%N = Some cols,
      cycle_basis rat_realFieldType tri0 tri1 [:: [:: 0; 1; 2]]%N & kvl_constraints (fun=> 1 : rat) xpredT 1 cols f]].
Proof.
move=> c n f.
have [nc [op _]] := SetpointProps.C67_ex; exists nc; split=> //.
- move=> l; exists "Line-s"%string; rewrite /f /tri0 /tri1.
  have [->|->|->] : [\/ l = tr 0, l = tr 1 | l = tr 2].
    case: l => [[|[|[|k]]] h] //; [constructor 1|constructor 2|constructor 3]; exact: val_inj.
  + by exists (SetpointProps.ln "l0" "a" "b"); split; rewrite ?inordK.
  + by exists (SetpointProps.ln "l1" "b" "c"); split; rewrite ?inordK.
  + by exists (SetpointProps.ln "l2" "c" "a"); split; rewrite ?inordK.
- eexists; split; [exact: tri_cols|exact: tri_basis|].
  move=> col; rewrite /= => -[<-|//].
  rewrite !big_ord_recl big_ord0 /kvl_term /=.
  by rewrite /f /= !zF1 !mul1r; apply/eqP; vm_compute.
Qed.
