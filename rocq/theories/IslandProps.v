From Coq Require Import List String Bool QArith ZArith Arith.
From Verif Require Import LinModel WholeModel IdleSpec IslandSpec IslandProofs IslandCases.
From Verif Require IdleProofs.
Import ListNotations.
Open Scope string_scope.
Open Scope list_scope.
Open Scope Q_scope.

(* C84: between buses S and the others there is no branch: a solution of the network is a solution of each part, *)
Theorem C84_split : forall S n kvl z, separated S n -> uncoupled S n -> cycles_apart kvl S n -> feasible kvl n z ->
  exists x y, feasible kvl (island S n) x /\ carries (island S n) x z /\ feasible kvl (island (other S) n) y /\ carries (island (other S) n) y z.
Proof. exact (fun S n kvl z SE UC KV => split_solution S n SE UC kvl KV z). Qed.
Print Assumptions C84_split.
(* C84: any two solutions of the parts make one of the network, *)
Theorem C84_join : forall S n kvl x y, separated S n -> uncoupled S n -> cycles_apart kvl S n -> feasible kvl (island S n) x -> feasible kvl (island (other S) n) y ->
  exists z, feasible kvl n z /\ carries (island S n) x z /\ carries (island (other S) n) y z.
Proof. exact (fun S n kvl x y SE UC KV => join_solution S n SE UC kvl KV x y). Qed.
Print Assumptions C84_join.
(* C84: its cost is the sum, *)
Theorem C84_cost : forall S n kvl x y z p q, separated S n -> costs_sane n ->
  feasible kvl (island S n) x -> feasible kvl (island (other S) n) y -> feasible kvl n z -> carries (island S n) x z -> carries (island (other S) n) y z ->
  cost (island S n) x = Some p -> cost (island (other S) n) y = Some q -> exists r, cost n z = Some r /\ r == p + q.
Proof. exact (fun S n kvl x y z p q SE CS => cost_both S n SE kvl CS x y z p q). Qed.
Print Assumptions C84_cost.
(* C84: it is optimal if both are, *)
Theorem C84_optimal_join : forall S n kvl x y, separated S n -> uncoupled S n -> cycles_apart kvl S n -> costs_sane n ->
  optimal kvl (island S n) x -> optimal kvl (island (other S) n) y -> exists z, optimal kvl n z /\ carries (island S n) x z /\ carries (island (other S) n) y z.
Proof. exact (fun S n kvl x y SE UC KV CS => optimal_join S n SE UC kvl KV CS x y). Qed.
Print Assumptions C84_optimal_join.
(* C84: and only then, *)
Theorem C84_optimal_split : forall S n kvl z x y, separated S n -> uncoupled S n -> cycles_apart kvl S n -> costs_sane n ->
  define_objective (island S n) <> None -> define_objective (island (other S) n) <> None -> optimal kvl n z ->
  feasible kvl (island S n) x -> feasible kvl (island (other S) n) y -> carries (island S n) x z -> carries (island (other S) n) y z ->
  optimal kvl (island S n) x /\ optimal kvl (island (other S) n) y.
Proof. exact (fun S n kvl z x y SE UC KV CS => optimal_split S n SE UC kvl KV CS z x y). Qed.
Print Assumptions C84_optimal_split.
(* C84: and the problem can be built if those of both parts can. *)
Theorem C84_defined : forall S n kvl, separated S n -> uncoupled S n -> cycles_apart kvl S n ->
  (create_model kvl n = None <-> create_model kvl (island S n) = None \/ create_model kvl (island (other S) n) = None).
Proof. exact (fun S n kvl SE UC KV => defined_both S n SE UC kvl KV). Qed.
Print Assumptions C84_defined.
(* C84: not with a limit of the whole network, *)
Theorem C84_limits_refuted : exists S n kvl x y, separated S n /\ cycles_apart kvl S n /\ ramps_alike n (island S n) /\ ramps_alike n (island (other S) n) /\
  feasible kvl (island S n) x /\ feasible kvl (island (other S) n) y /\ ~ exists z, feasible kvl n z.
Proof. exact (ex_intro _ left_ (ex_intro _ _ (ex_intro _ _ (ex_intro _ isle_x (ex_intro _ isle_x limit_couples))))). Qed.
Print Assumptions C84_limits_refuted.
(* C84: nor, without any limit, where a ramp limit of one is dropped or kept for the sake of assets elsewhere *)
Theorem C84_ramps_refuted : exists S n kvl x y, separated S n /\ cycles_apart kvl S n /\ limits n = [] /\
  feasible kvl (island S n) x /\ feasible kvl (island (other S) n) y /\ ~ exists z, feasible kvl n z.
Proof. exact (ex_intro _ left_ (ex_intro _ _ (ex_intro _ _ (ex_intro _ steep_x (ex_intro _ steep_x ramps_couple))))). Qed.
Print Assumptions C84_ramps_refuted.

(* a generator and a load at one bus; a generator, a link and a load at two others *)
Example C84_ex : separated left_ (isles []) /\ uncoupled left_ (isles []) /\ cycles_apart IdleProofs.no_kvl left_ (isles []) /\ costs_sane (isles []) /\
  define_objective (island left_ (isles [])) <> None /\ define_objective (island (other left_) (isles [])) <> None.
Proof. exact isle_ok. Qed.
Example C84_ex_optimal : optimal IdleProofs.no_kvl (island left_ (isles [])) isle_x /\ optimal IdleProofs.no_kvl (island (other left_) (isles [])) isle_x /\
  cost (island left_ (isles [])) isle_x = Some 1 /\ cost (island (other left_) (isles [])) isle_x = Some 4 /\ cost (isles []) isle_x = Some 5.
Proof. exact isle_optimal. Qed.
