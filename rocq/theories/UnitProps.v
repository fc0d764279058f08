From Coq Require Import List String Bool QArith ZArith Arith.
From Verif Require Import LinModel WholeModel IdleSpec UnitSpec UnitProofs.
Import ListNotations.
Open Scope string_scope.
Open Scope list_scope.
Open Scope Q_scope.

(* C80: a solution in one system of units is, in other numbers, a solution in the other *)
Theorem C80_feasible : forall k m kvl n x, 0 < k -> 0 < m -> kvl_homogeneous k m kvl -> known_classes n ->
  (feasible kvl n x <-> feasible kvl (scaled_net k m n) (rescale k m x)).
Proof. exact (fun k m kvl n x K M => feasible_scaled k m K M kvl n x). Qed.
Print Assumptions C80_feasible.

(* C80: and there are no others *)
Theorem C80_onto : forall k m kvl n y, 0 < k -> 0 < m -> kvl_homogeneous k m kvl -> known_classes n -> feasible kvl (scaled_net k m n) y ->
  exists x, feasible kvl n x /\ forall v, y v == rescale k m x v.
Proof. exact (fun k m kvl n y K M => feasible_from k m K M kvl n y). Qed.
Print Assumptions C80_onto.

(* C80: the costs of the solution are the same amount of money *)
Theorem C80_cost : forall k m n x q q', 0 < k -> 0 < m -> cost n x = Some q -> cost (scaled_net k m n) (rescale k m x) = Some q' -> q' == m * q.
Proof. exact (fun k m n x q q' K M => cost_scaled_some k m K M n x q q'). Qed.
Print Assumptions C80_cost.

(* C80: an objective is defined in both systems of units or in none *)
Theorem C80_defined : forall k m n x y, 0 < k -> 0 < m -> (cost n x = None <-> cost (scaled_net k m n) y = None).
Proof. exact (fun k m n x y K M => cost_scaled_def k m K M n x y). Qed.
Print Assumptions C80_defined.

(* C80: the cheapest solutions are the same *)
Theorem C80_optimal : forall k m kvl n x, 0 < k -> 0 < m -> kvl_homogeneous k m kvl -> known_classes n ->
  (optimal kvl n x <-> optimal kvl (scaled_net k m n) (rescale k m x)).
Proof. exact (fun k m kvl n x K M => optimal_scaled k m K M kvl n x). Qed.
Print Assumptions C80_optimal.

(* C80: rows over the flows on branches without a constant, as in C18, are homogeneous *)
Theorem C80_cycles : forall k m kvl, 0 < k -> cycle_rows k m kvl -> kvl_homogeneous k m kvl.
Proof. exact (fun k m kvl K => cycles_homogeneous k m K kvl). Qed.
Print Assumptions C80_cycles.

(* two lines in parallel, the narrow one full: megawatts to kilowatts, one currency to another worth half as much *)
Example C80_ex : known_classes mesh_net /\ (forall k m, cycle_rows k m loop) /\ optimal loop mesh_net mesh_x /\ cost mesh_net mesh_x = Some 4 /\
  (exists q, cost (scaled_net 1000 2 mesh_net) (rescale 1000 2 mesh_x) = Some q /\ q == 8) /\ rescale 1000 2 mesh_x ("Line-s", O, "l") == 1000.
Proof. exact mesh_case. Qed.
Example C80_ex_optimal : optimal loop (scaled_net 1000 2 mesh_net) (rescale 1000 2 mesh_x).
Proof. apply C80_optimal; [reflexivity|reflexivity|apply C80_cycles; [reflexivity|apply mesh_case]|apply mesh_case|apply mesh_case]. Qed.
