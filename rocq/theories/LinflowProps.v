From mathcomp Require Import all_ssreflect all_fingroup all_algebra.
From Verif Require Import LinflowModel LinflowSpec LinflowProofs.
Set Implicit Arguments. Unset Strict Implicit. Unset Printing Implicit Defensive.
Import Order.TTheory GRing.Theory Num.Theory.
Local Open Scope ring_scope.

(* C20: with positive reactances the slack-reduced Laplacian is invertible exactly when all buses are
   connected *)
Theorem C20_invertible_iff_connected :
  forall (F : realFieldType) (n m : nat) (b0 b1 : 'I_m -> 'I_(1 + n)) (z : 'I_m -> F),
    (forall l, 0 < z l) ->
    (drsubmx (B b0 b1 z) \in unitmx <-> connected b0 b1).
Proof. by move=> F n m b0 b1 z zp; split; [exact: unit_connected|exact: connected_unit]. Qed.
Print Assumptions C20_invertible_iff_connected.

(* the angles are the only ones with zero slack angle that produce a flow meeting the injections *)
Theorem C20_angles_unique :
  forall (F : realFieldType) (n m : nat) (b0 b1 : 'I_m -> 'I_(1 + n)) (z shift : 'I_m -> F)
         (p : 'cV[F]_(1 + n)) (th : 'I_(1 + n) -> F) (f : 'I_m -> F),
    (forall l, 0 < z l) -> connected b0 b1 ->
    balanced_at b0 b1 (fun i => bus_p p i ord0) f -> ohm b0 b1 z shift th f -> th (lshift n ord0) = 0 ->
    forall i, th i = v_diff b0 b1 z shift p i ord0.
Proof.
move=> F n m b0 b1 z shift p th f zp C; apply: angles_unique; first exact: connected_unit.
by move=> l; rewrite gt_eqF.
Qed.
Print Assumptions C20_angles_unique.

(* negative reactances (series capacitors, star equivalents) can make it singular *)
Theorem C20_negative_reactance_refuted :
  exists (F : realFieldType) (n m : nat) (b0 b1 : 'I_m -> 'I_(1 + n)) (z : 'I_m -> F),
    (forall l, z l != 0) /\ connected b0 b1 /\ drsubmx (B b0 b1 z) \notin unitmx.
Proof.
exact: negative_singular.
Qed.
Print Assumptions C20_negative_reactance_refuted.

(* C19: lpf solves the DC power flow equations for the injections it reports *)
Theorem C19_lpf_solves :
  forall (F : realFieldType) (n m : nat) (b0 b1 : 'I_m -> 'I_(1 + n)) (z shift : 'I_m -> F)
         (p : 'cV[F]_(1 + n)),
    (forall l, 0 < z l) -> connected b0 b1 ->
    ohm b0 b1 z shift (fun i => v_diff b0 b1 z shift p i ord0) (branch_p0 b0 b1 z shift p) /\
    balanced_at b0 b1 (fun i => bus_p p i ord0) (branch_p0 b0 b1 z shift p) /\
    v_diff b0 b1 z shift p (lshift n ord0) ord0 = 0 /\
    (forall i, bus_p p (rshift 1 i) ord0 = p (rshift 1 i) ord0) /\
    \sum_i bus_p p i ord0 = 0 /\
    (forall l, branch_p1 b0 b1 z shift p l = - branch_p0 b0 b1 z shift p l).
Proof.
move=> F n m b0 b1 z shift p zp C; have U := connected_unit zp C.
have zn l : z l != 0 by rewrite gt_eqF.
split; first exact: flows_ohm.
split; first by have [] := lpf_dc_flow shift U zn p.
split; first exact: v_slack.
split; last by split; [exact: bus_p_total|].
by move=> i; have /matrixP/(_ i ord0) := bus_p_keep p; rewrite [X in X = _]mxE [X in _ = X]mxE.
Qed.
Print Assumptions C19_lpf_solves.

(* and no other flows solve them *)
Theorem C19_flows_unique :
  forall (F : realFieldType) (n m : nat) (b0 b1 : 'I_m -> 'I_(1 + n)) (z shift : 'I_m -> F)
         (p : 'cV[F]_(1 + n)) (f : 'I_m -> F),
    (forall l, 0 < z l) -> connected b0 b1 ->
    dc_flow b0 b1 z shift (fun i => bus_p p i ord0) f ->
    forall l, f l = branch_p0 b0 b1 z shift p l.
Proof.
move=> F n m b0 b1 z shift p f zp C D.
have zn l : z l != 0 by rewrite gt_eqF.
have U := connected_unit zp C.
exact: (dc_flow_unique U zn D (lpf_dc_flow shift U zn p)).
Qed.
Print Assumptions C19_flows_unique.

(* C21: PTDF times injections is the linear power flow (with the phase-shift correction), its slack column
   is zero, and column i is the flow of one unit sent from bus i to the slack bus *)
Theorem C21_ptdf_is_lpf :
  forall (F : realFieldType) (n m : nat) (b0 b1 : 'I_m -> 'I_(1 + n)) (z shift : 'I_m -> F)
         (p : 'cV[F]_(1 + n)),
    flows b0 b1 z shift p = PTDF b0 b1 z *m (p - p_bus_shift b0 b1 z shift) + p_branch_shift z shift /\
    flows b0 b1 z (fun=> 0) p = PTDF b0 b1 z *m p /\
    (forall k, PTDF b0 b1 z k (lshift n ord0) = 0).
Proof.
move=> F n m b0 b1 z shift p; split; first exact: PTDF_flows.
by split; [exact: no_shift_flows|exact: PTDF_slack_col].
Qed.
Print Assumptions C21_ptdf_is_lpf.

Theorem C21_ptdf_solves :
  forall (F : realFieldType) (n m : nat) (b0 b1 : 'I_m -> 'I_(1 + n)) (z : 'I_m -> F) (p : 'cV[F]_(1 + n)),
    (forall l, 0 < z l) -> connected b0 b1 -> \sum_i p i ord0 = 0 ->
    dc_flow b0 b1 z (fun=> 0) (fun i => p i ord0) (fun l => (PTDF b0 b1 z *m p) l ord0).
Proof.
move=> F n m b0 b1 z p zp C S; rewrite -{1}(bus_p_balanced S).
by apply: PTDF_dc_flow; [exact: connected_unit|move=> l; rewrite gt_eqF].
Qed.
Print Assumptions C21_ptdf_solves.

(* for balanced injections the flows do not depend on which bus is the slack, nor on the bus order:
   s renumbers the buses *)
Theorem C21_slack_choice_irrelevant :
  forall (F : realFieldType) (n m : nat) (b0 b1 : 'I_m -> 'I_(1 + n)) (z : 'I_m -> F)
         (s : {perm 'I_(1 + n)}) (p : 'cV[F]_(1 + n)),
    (forall l, 0 < z l) -> connected b0 b1 -> \sum_i p i ord0 = 0 ->
    PTDF (fun l => s (b0 l)) (fun l => s (b1 l)) z *m (\col_i p ((s^-1)%g i) ord0) = PTDF b0 b1 z *m p.
Proof.
by move=> F n m b0 b1 z s p zp C S; rewrite -!no_shift_flows; exact: slack_choice.
Qed.
Print Assumptions C21_slack_choice_irrelevant.

(* C22: the outage factors predict the flows of the network without branch l *)
Theorem C22_bodf_predicts_outage :
  forall (F : realFieldType) (n m : nat) (b0 b1 : 'I_m.+1 -> 'I_(1 + n)) (z shift : 'I_m.+1 -> F)
         (l : 'I_m.+1) (p : 'cV[F]_(1 + n)),
    (forall k, 0 < z k) ->
    connected (fun k => b0 (lift l k)) (fun k => b1 (lift l k)) ->
    (forall k, outage_flow b0 b1 z (flows b0 b1 z shift p) l (lift l k) ord0
       = flows (fun k => b0 (lift l k)) (fun k => b1 (lift l k)) (fun k => z (lift l k))
               (fun k => shift (lift l k)) p k ord0) /\
    outage_flow b0 b1 z (flows b0 b1 z shift p) l l ord0 = 0 /\
    (forall k, outage_flow b0 b1 z (flows b0 b1 z shift p) l k ord0
       = flows b0 b1 z shift p k ord0 + BODF b0 b1 z k l * flows b0 b1 z shift p l ord0).
Proof.
move=> F n m b0 b1 z shift l p zp R; have C := connected_mono R.
split; first by move=> k; exact: outage_flows.
by split; [exact: outage_self|move=> k; rewrite mxE].
Qed.
Print Assumptions C22_bodf_predicts_outage.

(* the denominator vanishes exactly for bridges *)
Theorem C22_denominator_zero_iff_bridge :
  forall (F : realFieldType) (n m : nat) (b0 b1 : 'I_m.+1 -> 'I_(1 + n)) (z : 'I_m.+1 -> F) (l : 'I_m.+1),
    (forall k, 0 < z k) -> connected b0 b1 ->
    (1 - branch_PTDF b0 b1 z l l = 0 <-> ~ connected (fun k => b0 (lift l k)) (fun k => b1 (lift l k))).
Proof.
move=> F n m b0 b1 z l zp C; split; last exact: bridge.
by move=> E R; have := not_bridge zp C R; rewrite E eqxx.
Qed.
Print Assumptions C22_denominator_zero_iff_bridge.

(* a triangle of lines 0-1, 1-2, 2-0 with reactances 1, 1 and 2; one unit from bus 1 to bus 2.
   All hypotheses hold, also after the outage of line 2-0, and the flows are as computed by hand. *)
Example C19_C22_example :
  (forall l, 0 < triz l) /\ connected tri0 tri1 /\
  connected (fun k => tri0 (lift ord_max k)) (fun k => tri1 (lift ord_max k)) /\
  [seq branch_p0 tri0 tri1 triz (fun=> 0) trip (tr k) | k <- [:: 0; 1; 2]%N]
    = [:: - 4%:R^-1; 3%:R / 4%:R; - 4%:R^-1] /\
  [seq outage_flow tri0 tri1 triz (flows tri0 tri1 triz (fun=> 0) trip) ord_max (tr k) ord0 | k <- [:: 0; 1; 2]%N]
    = [:: 0; 1; 0].
Proof. exact: triangle. Qed.
