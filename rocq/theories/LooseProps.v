From Coq Require Import List String Bool QArith ZArith Arith.
From Verif Require Import LinModel WholeModel IdleSpec LooseSpec LooseProofs LooseCases.
From Verif Require IdleProofs UnitProofs.
Import ListNotations.
Open Scope string_scope.
Open Scope list_scope.
Open Scope Q_scope.

(* what was a solution remains one with looser limits *)
Theorem C86_feasible kvl n n' x : looser kvl n n' -> feasible kvl n x -> feasible kvl n' x.
Proof. exact (feasible_looser kvl n n' x). Qed.
Print Assumptions C86_feasible.
(* at the same cost *)
Theorem C86_cost kvl n n' x : looser kvl n n' -> cost n' x = cost n x.
Proof. exact (cost_looser kvl n n' x). Qed.
Print Assumptions C86_cost.
(* the optimum is not more expensive than any solution before *)
Theorem C86_optimum kvl n n' x y q q' : looser kvl n n' -> feasible kvl n x -> cost n x = Some q -> optimal kvl n' y -> cost n' y = Some q' -> q' <= q.
Proof. exact (optimum_looser kvl n n' x y q q'). Qed.
Print Assumptions C86_optimum.
(* an optimum that keeps the tighter limits is the optimum under them *)
Theorem C86_still_optimal kvl n n' x : looser kvl n n' -> optimal kvl n' x -> feasible kvl n x -> optimal kvl n x.
Proof. exact (still_optimal kvl n n' x). Qed.
Print Assumptions C86_still_optimal.
(* a line of larger capacity and a looser emission limit *)
Example C86_ex : looser UnitProofs.loop UnitProofs.mesh_net wide_net /\ optimal UnitProofs.loop UnitProofs.mesh_net UnitProofs.mesh_x /\ optimal UnitProofs.loop wide_net wide_x /\
  cost UnitProofs.mesh_net UnitProofs.mesh_x = Some 4 /\ (exists q, cost wide_net wide_x = Some q /\ q == 3).
Proof. exact wide_case. Qed.

(* with transmission losses a line of larger capacity makes the optimum more expensive: the tangents move *)
Theorem C86_losses_refuted : exists x y p q, feasible IdleProofs.no_kvl (loss_net (3#16)) x /\ cost (loss_net (3#16)) x = Some p /\
  optimal IdleProofs.no_kvl (loss_net (1#4)) y /\ cost (loss_net (1#4)) y = Some q /\ p < q.
Proof. exact losses_refuted. Qed.
Print Assumptions C86_losses_refuted.
(* giving up the ramp limit of one generator makes the problem infeasible: the limit of the other, one, is now written *)
Theorem C86_ramps_refuted : looser_asset ramp_net ramp_h (unramped ramp_h) /\ feasible IdleProofs.no_kvl ramp_net ramp_x /\
  ~ exists y, feasible IdleProofs.no_kvl (with_assets ramp_net [ramp_g; unramped ramp_h]) y.
Proof. exact ramps_refuted. Qed.
Print Assumptions C86_ramps_refuted.
(* more capacity alone does not help a generator that has to run *)
Theorem C86_must_run_refuted : feasible IdleProofs.no_kvl run_net (fun _ => 1) /\
  ~ exists y, feasible IdleProofs.no_kvl (with_assets run_net [with_nom (must_run (with_nom IdleProofs.gen_ 2) (1#2)) 3]) y.
Proof. exact must_run_refuted. Qed.
Print Assumptions C86_must_run_refuted.
