From Coq Require Import ZArith List.
From Verif Require Import CyclesModel KvlModel KvlSpec KvlProofs.
From mathcomp Require Import all_ssreflect all_algebra.
From Verif Require Import LinflowModel LinflowSpec LinflowProofs AnglesModel AnglesProofs.
Set Implicit Arguments. Unset Strict Implicit. Unset Printing Implicit Defensive.
Import GRing.Theory Num.Theory.
Local Open Scope nat_scope.
Local Open Scope ring_scope.

(* the reported angles drive the optimised flows: with the voltage constraints and the nodal balance, on every branch
   reactance times flow is the difference of the angles at its ends *)
Theorem C59_angles_drive_flows :
  forall (F : realFieldType) (n m : nat) (b0 b1 : 'I_m -> 'I_(1 + n)) (z : 'I_m -> F) (s : F)
         (cycles : list (list nat)) (cols : list (list (nat * Z))) (p : 'cV[F]_(1 + n)) (f : 'I_m -> F) (Z : 'M[F]_(1 + n)),
    (forall l, b0 l != b1 l) -> s != 0 -> (forall l, 0 < z l) -> connected b0 b1 ->
    find_cycles (branch_list b0 b1) cycles = Some cols -> cycle_basis F b0 b1 cycles ->
    kvl_constraints z xpredT s cols f -> balanced_at b0 b1 (fun i => p i ord0) f ->
    is_pinv (B b0 b1 z) Z -> n != 0%N ->
    ohm b0 b1 z (fun=> 0) (fun i => v_ang Z p i ord0) f.
Proof. exact: opt_angles. Qed.
Print Assumptions C59_angles_drive_flows.

(* for any injections, also unbalanced ones, they are those of the linear power flow minus their mean *)
Theorem C59_angles_centred :
  forall (F : realFieldType) (n m : nat) (b0 b1 : 'I_m -> 'I_(1 + n)) (z : 'I_m -> F) (p : 'cV[F]_(1 + n)) (Z : 'M[F]_(1 + n)),
    (forall l, 0 < z l) -> connected b0 b1 -> is_pinv (B b0 b1 z) Z -> n != 0%N ->
    \sum_i v_ang Z p i ord0 = 0 /\
    forall i j, v_ang Z p i ord0 - v_ang Z p j ord0 = v_diff b0 b1 z (fun=> 0) p i ord0 - v_diff b0 b1 z (fun=> 0) p j ord0.
Proof. exact: angles_centred. Qed.
Print Assumptions C59_angles_centred.

(* the pseudo-inverse exists and is the only matrix meeting its four equations *)
Theorem C59_pinv :
  forall (F : realFieldType) (n m : nat) (b0 b1 : 'I_m -> 'I_(1 + n)) (z : 'I_m -> F),
    (forall l, 0 < z l) -> connected b0 b1 -> exists Z, is_pinv (B b0 b1 z) Z /\ forall Y, is_pinv (B b0 b1 z) Y -> Y = Z.
Proof. exact: pinv_exists. Qed.
Print Assumptions C59_pinv.

(* the slack bus does not get angle zero: two buses, one line of reactance 1, one unit sent over it *)
Theorem C59_slack_refuted :
  exists (n m : nat) (b0 b1 : 'I_m -> 'I_(1 + n)) (z : 'I_m -> rat) (p : 'cV[rat]_(1 + n)),
    (forall l, 0 < z l) /\ connected b0 b1 /\ \sum_i p i ord0 = 0 /\ n != 0%N /\
    forall Z, is_pinv (B b0 b1 z) Z -> v_ang Z p (lshift n ord0) ord0 = 2%:R^-1 /\ v_diff b0 b1 z (fun=> 0) p (lshift n ord0) ord0 = 0.
Proof. exact: slack_not_zero. Qed.
Print Assumptions C59_slack_refuted.

(* the triangle of C18: its cycle, a flow of 3/4 over one line and 1/4 over the two others *)
Example C59_example :
  (forall l, tri0 l != tri1 l) /\ (forall l, 0 < triz l) /\ connected tri0 tri1 /\ \sum_i trip i ord0 = 0 /\
  exists cols, find_cycles (branch_list tri0 tri1) [:: [:: 0; 1; 2]]%N = Some cols /\ cycle_basis rat_fieldType tri0 tri1 [:: [:: 0; 1; 2]]%N /\
    kvl_constraints triz xpredT 1 cols (branch_p0 tri0 tri1 triz (fun=> 0) trip) /\
    balanced_at tri0 tri1 (fun i => trip i ord0) (branch_p0 tri0 tri1 triz (fun=> 0) trip) /\
    branch_p0 tri0 tri1 triz (fun=> 0) trip (tr 1) = 3%:R / 4%:R.
Proof. exact: triangle_case. Qed.
