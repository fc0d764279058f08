From Coq Require Import ZArith List.
From Verif Require Import CyclesModel.
From mathcomp Require Import all_ssreflect all_algebra.
From Verif Require Import LinflowModel LinflowSpec LinflowProofs KvlModel KvlSpec KvlProofs.
Set Implicit Arguments. Unset Strict Implicit. Unset Printing Implicit Defensive.
Import Order.TTheory GRing.Theory Num.Theory.
Local Open Scope nat_scope.
Local Open Scope ring_scope.

(* C18: the voltage constraints of the optimisation hold for exactly the flows that come from bus angles *)
Theorem C18_kvl_iff_angles :
  forall (F : fieldType) (n m : nat) (b0 b1 : 'I_m -> 'I_(1 + n)) (z : 'I_m -> F) (s : F)
         (cycles : list (list nat)) (cols : list (list (nat * Z))) (f : 'I_m -> F),
    (forall l, b0 l != b1 l) -> s != 0 ->
    find_cycles (branch_list b0 b1) cycles = Some cols -> cycle_basis F b0 b1 cycles ->
    (kvl_constraints z xpredT s cols f <-> exists th, ohm b0 b1 z (fun=> 0) th f).
Proof. by move=> F n m b0 b1 z s cycles cols f ns sn; exact: kvl_iff. Qed.
Print Assumptions C18_kvl_iff_angles.

(* hence together with nodal balance they fix the flows to those of the linear power flow *)
Theorem C18_dispatch_flows_are_lpf :
  forall (F : realFieldType) (n m : nat) (b0 b1 : 'I_m -> 'I_(1 + n)) (z : 'I_m -> F) (s : F)
         (cycles : list (list nat)) (cols : list (list (nat * Z))) (p : 'cV[F]_(1 + n)) (f : 'I_m -> F),
    (forall l, b0 l != b1 l) -> s != 0 -> (forall l, 0 < z l) -> connected b0 b1 ->
    find_cycles (branch_list b0 b1) cycles = Some cols -> cycle_basis F b0 b1 cycles ->
    \sum_i p i ord0 = 0 ->
    (kvl_constraints z xpredT s cols f /\ balanced_at b0 b1 (fun i => p i ord0) f <->
     forall l, f l = branch_p0 b0 b1 z (fun=> 0) p l).
Proof. by move=> F n m b0 b1 z s cycles cols p f ns sn; exact: kvl_lpf. Qed.
Print Assumptions C18_dispatch_flows_are_lpf.

(* a triangle and its one cycle *)
Example C18_example :
  (forall l, tri0 l != tri1 l) /\ cycle_basis rat_fieldType tri0 tri1 [:: [:: 0; 1; 2]]%N /\
  exists cols, find_cycles (branch_list tri0 tri1) [:: [:: 0; 1; 2]]%N = Some cols /\ List.length cols = 1%N.
Proof. exact: triangle_basis. Qed.

(* A branch switched off keeps its place in the cycles although its flow variable does not exist: flows
   that obey Ohm's law on the remaining branches are then excluded. Here bus 0 - bus 1 - bus 2 is a path,
   the third line of the triangle is switched off. *)
Theorem C18_inactive_branch_refuted :
  exists (n m : nat) (b0 b1 : 'I_m -> 'I_(1 + n)) (z : 'I_m -> rat) (active : 'I_m -> bool)
         (cycles : list (list nat)) (cols : list (list (nat * Z))) (f : 'I_m -> rat) (th : 'I_(1 + n) -> rat),
    (forall l, b0 l != b1 l) /\ (forall l, 0 < z l) /\
    find_cycles (branch_list b0 b1) cycles = Some cols /\ cycle_basis rat_fieldType b0 b1 cycles /\
    (forall l, active l -> z l * f l = th (b0 l) - th (b1 l)) /\ (forall l, ~~ active l -> f l = 0) /\
    (forall s, s != 0 -> ~ kvl_constraints z active s cols f).
Proof. exact: kvl_inactive. Qed.
Print Assumptions C18_inactive_branch_refuted.

(* phase shifts are ignored: with a phase-shifting transformer the flows of the linear power flow violate
   the voltage constraints of the optimisation *)
Theorem C18_phase_shift_refuted :
  exists (n m : nat) (b0 b1 : 'I_m -> 'I_(1 + n)) (z shift : 'I_m -> rat)
         (cycles : list (list nat)) (cols : list (list (nat * Z))) (f : 'I_m -> rat) (th : 'I_(1 + n) -> rat),
    (forall l, b0 l != b1 l) /\ (forall l, 0 < z l) /\
    find_cycles (branch_list b0 b1) cycles = Some cols /\ cycle_basis rat_fieldType b0 b1 cycles /\
    ohm b0 b1 z shift th f /\ (forall s, s != 0 -> ~ kvl_constraints z xpredT s cols f).
Proof. exact: kvl_phase_shift. Qed.
Print Assumptions C18_phase_shift_refuted.
