From Coq Require Import List String Bool QArith.
From Verif Require Import LinModel WholeModel IdleSpec OrderSpec StretchSpec StretchProofs StretchParts StretchWhole StretchCases.
From Verif Require UnitProofs.
Import ListNotations.
Open Scope string_scope.
Open Scope Q_scope.

(* C83: in a network without anything connecting snapshots, snapshots of equal data can be merged into one that carries their weights:
   the operation found for it can be repeated, *)
Theorem C83_repeat : forall rep T wo wg ws n cycles y, groups rep T wo wg n -> decoupled n -> cycles_ok rep cycles ->
  feasible (kirchhoff cycles (nsnaps n)) n y -> feasible (kirchhoff cycles T) (stretched rep T wo wg ws n) (repeated rep y).
Proof. exact (fun rep T wo wg ws n cycles y G D C => feasible_rep rep T wo wg ws n G D cycles C y). Qed.
Print Assumptions C83_repeat.
(* C83: any operation can be averaged over the merged snapshots, *)
Theorem C83_average : forall rep T wo wg ws n cycles x, groups rep T wo wg n -> decoupled n -> cycles_ok rep cycles ->
  feasible (kirchhoff cycles T) (stretched rep T wo wg ws n) x -> feasible (kirchhoff cycles (nsnaps n)) n (averaged rep T wo x).
Proof. exact (fun rep T wo wg ws n cycles x G D C => feasible_avg rep T wo wg ws n G D cycles C x). Qed.
Print Assumptions C83_average.
(* C83: repeating costs nothing, averaging does not cost more, *)
Theorem C83_cost_repeat : forall rep T wo wg ws n y, groups rep T wo wg n -> decoupled n -> same_value (cost (stretched rep T wo wg ws n) (repeated rep y)) (cost n y).
Proof. exact (fun rep T wo wg ws n y G D => cost_rep rep T wo wg ws n G D y). Qed.
Print Assumptions C83_cost_repeat.
Theorem C83_cost_average : forall rep T wo wg ws n x, groups rep T wo wg n -> decoupled n -> convex n ->
  match cost n (averaged rep T wo x), cost (stretched rep T wo wg ws n) x with Some q, Some q' => q <= q' | None, None => True | _, _ => False end.
Proof. exact (fun rep T wo wg ws n x G D => cost_avg rep T wo wg ws n G D x). Qed.
Print Assumptions C83_cost_average.
(* C83: so that both problems have the same optima *)
Theorem C83_optimal : forall rep T wo wg ws n cycles, groups rep T wo wg n -> decoupled n -> cycles_ok rep cycles -> convex n ->
  (forall y, optimal (kirchhoff cycles (nsnaps n)) n y -> optimal (kirchhoff cycles T) (stretched rep T wo wg ws n) (repeated rep y)) /\
  (forall x, optimal (kirchhoff cycles T) (stretched rep T wo wg ws n) x -> optimal (kirchhoff cycles (nsnaps n)) n (averaged rep T wo x)).
Proof. exact (fun rep T wo wg ws n cycles G D C CV => conj (fun y => optimal_rep rep T wo wg ws n G D cycles C y CV) (fun x => optimal_avg rep T wo wg ws n G D cycles C x CV)). Qed.
Print Assumptions C83_optimal.
(* C83: and neither is rejected alone *)
Theorem C83_defined : forall rep T wo wg ws n cycles, groups rep T wo wg n -> decoupled n -> cycles_ok rep cycles ->
  (create_model (kirchhoff cycles T) (stretched rep T wo wg ws n) = None <-> create_model (kirchhoff cycles (nsnaps n)) n = None).
Proof. exact (fun rep T wo wg ws n cycles G D C => defined_same rep T wo wg ws n G D cycles C). Qed.
Print Assumptions C83_defined.

(* C83: with a store the merged problem may have no solution though the original one has: a store for one night of two *)
Theorem C83_storage_refuted : exists n rep wo cycles x, groups rep 4 wo wo n /\ (forall s, (s < nsnaps n)%nat -> w_sto n s == sum wo (group rep 4 s)) /\
  (forall a t, In a (assets n) -> committable a = false /\ up a t = None /\ down a t = None) /\ cycles_ok rep cycles /\
  feasible (kirchhoff cycles 4) (stretched rep 4 wo wo wo n) x /\ ~ exists y, feasible (kirchhoff cycles (nsnaps n)) n y.
Proof. exact (ex_intro _ night_net (ex_intro _ days (ex_intro _ half (ex_intro _ no_cycles (ex_intro _ night_x storage_refuted))))). Qed.
Print Assumptions C83_storage_refuted.
(* C83: with ramp limits the original problem may have no solution though the merged one has *)
Theorem C83_ramps_refuted : exists n rep wo cycles y, groups rep 6 wo wo n /\ (forall a, In a (assets n) -> cls a = "Generator" /\ committable a = false) /\ cycles_ok rep cycles /\
  feasible (kirchhoff cycles (nsnaps n)) n y /\ ~ exists x, feasible (kirchhoff cycles 6) (stretched rep 6 wo wo wo n) x.
Proof. exact (ex_intro _ rising_net (ex_intro _ again_ (ex_intro _ half (ex_intro _ no_cycles (ex_intro _ rising_y ramps_refuted))))). Qed.
Print Assumptions C83_ramps_refuted.

(* three snapshots for one, two parallel lines *)
Example C83_ex : groups (fun _ => O) 3 sixths sixths UnitProofs.mesh_net /\ decoupled UnitProofs.mesh_net /\ cycles_ok (fun _ => O) mesh_cycles /\ convex UnitProofs.mesh_net.
Proof. exact (conj mesh_groups (conj mesh_decoupled (conj (mesh_cycles_ok _) mesh_convex))). Qed.
Example C83_ex_optimal : optimal (kirchhoff mesh_cycles 3) thrice (repeated (fun _ => O) UnitProofs.mesh_x) /\ optimal (kirchhoff mesh_cycles 1) UnitProofs.mesh_net UnitProofs.mesh_x.
Proof. exact (conj mesh_stretch (proj1 (proj2 (proj2 UnitProofs.mesh_case)))). Qed.
