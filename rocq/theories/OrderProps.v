From Coq Require Import List String Bool QArith.
From Verif Require Import LinModel WholeModel IdleSpec OrderSpec OrderProofs.
From Verif Require UnitProofs.
Import ListNotations.
Open Scope string_scope.
Open Scope Q_scope.

(* C82: the order in which components, loads, buses, carriers and global constraints were added has no effect: on what may be a solution, *)
Theorem C82_feasible : forall kvl n n' x, kvl_unordered kvl -> reordered n n' -> (feasible kvl n x <-> feasible kvl n' x).
Proof. exact feasible_same. Qed.
Print Assumptions C82_feasible.
(* C82: what it costs, *)
Theorem C82_cost : forall n n' x, reordered n n' -> same_value (cost n x) (cost n' x).
Proof. exact (fun n n' x R => cost_same n n' R x). Qed.
Print Assumptions C82_cost.
(* C82: which solutions are optimal, *)
Theorem C82_optimal : forall kvl n n' x, kvl_unordered kvl -> reordered n n' -> (optimal kvl n x <-> optimal kvl n' x).
Proof. exact optimal_same. Qed.
Print Assumptions C82_optimal.
(* C82: and whether the problem can be built at all *)
Theorem C82_defined : forall kvl n n', reordered n n' -> (create_model kvl n = None <-> create_model kvl n' = None).
Proof. exact defined_same. Qed.
Print Assumptions C82_defined.

(* the rows themselves differ *)
Example C82_ex : kvl_unordered UnitProofs.loop /\ reordered UnitProofs.mesh_net turned /\ create_model UnitProofs.loop turned <> create_model UnitProofs.loop UnitProofs.mesh_net.
Proof. exact turned_case. Qed.
Example C82_ex_optimal : optimal UnitProofs.loop turned UnitProofs.mesh_x.
Proof. apply (C82_optimal UnitProofs.loop UnitProofs.mesh_net turned); [apply turned_case|apply turned_case|apply UnitProofs.mesh_case]. Qed.
