From Coq Require Import List String Bool QArith ZArith Arith.
From Verif Require Import LinModel WholeModel IdleSpec MixSpec MixProofs.
From Verif Require IdleProofs.
Import ListNotations.
Open Scope Q_scope.

(* C85: without integer variables a mixture of two solutions is a solution, *)
Theorem C85_feasible : forall kvl n s x y, 0 <= s -> s <= 1 -> no_integers n -> feasible kvl n x -> feasible kvl n y -> feasible kvl n (mix s x y).
Proof. exact (fun kvl n s x y S0 S1 => feasible_mix s x y S0 S1 n kvl). Qed.
Print Assumptions C85_feasible.
(* C85: which costs no more than the mixture of their costs, *)
Theorem C85_cost : forall n s x y p q, 0 <= s -> s <= 1 -> convex_costs n -> cost n x = Some p -> cost n y = Some q -> exists r, cost n (mix s x y) = Some r /\ r <= s * p + (1 - s) * q.
Proof. exact (fun n s x y => cost_mix s x y n). Qed.
Print Assumptions C85_cost.
(* C85: and exactly that without quadratic costs, *)
Theorem C85_cost_linear : forall n s x y p q, linear_costs n -> cost n x = Some p -> cost n y = Some q -> exists r, cost n (mix s x y) = Some r /\ r == s * p + (1 - s) * q.
Proof. exact (fun n s x y => cost_linear s x y n). Qed.
Print Assumptions C85_cost_linear.
(* C85: mixtures of optimal solutions are optimal, *)
Theorem C85_optimal : forall kvl n s x y, 0 <= s -> s <= 1 -> no_integers n -> convex_costs n -> optimal kvl n x -> optimal kvl n y -> optimal kvl n (mix s x y).
Proof. exact (fun kvl n s x y => optimal_mix kvl s x y n). Qed.
Print Assumptions C85_optimal.
(* C85: and a solution that is not optimal can be improved by arbitrarily small changes *)
Theorem C85_improve : forall kvl n s x y p q, 0 < s -> s <= 1 -> no_integers n -> convex_costs n -> feasible kvl n x -> feasible kvl n y -> cost n x = Some p -> cost n y = Some q -> q < p ->
  feasible kvl n (mix s y x) /\ exists r, cost n (mix s y x) = Some r /\ r < p.
Proof. exact (fun kvl n s x y => improve kvl s x y n). Qed.
Print Assumptions C85_improve.
(* C85: not with units that are on or off, nor with modules *)
Theorem C85_units_refuted : exists kvl n s x y, 0 <= s /\ s <= 1 /\ (forall a, In a (assets n) -> nom_mod a <= 0) /\ feasible kvl n x /\ feasible kvl n y /\ ~ feasible kvl n (mix s x y).
Proof. exists IdleProofs.no_kvl, unit_net, (1#2), on_x, off_x. split; [discriminate|]. split; [discriminate|]. split; [intros a [<-|[<-|[]]]; discriminate|]. exact units_refuted. Qed.
Print Assumptions C85_units_refuted.
Theorem C85_modules_refuted : exists kvl n s x y, 0 <= s /\ s <= 1 /\ (forall a, In a (assets n) -> committable a = false) /\ feasible kvl n x /\ feasible kvl n y /\ ~ feasible kvl n (mix s x y).
Proof. exists IdleProofs.no_kvl, module_net, (1#2), two_x, zero_x. split; [discriminate|]. split; [discriminate|]. split; [intros a [<-|[<-|[]]]; reflexivity|]. exact modules_refuted. Qed.
Print Assumptions C85_modules_refuted.

(* quadratic costs: half from either generator is cheaper than all from one *)
Example C85_ex : no_integers curve_net /\ convex_costs curve_net /\ feasible IdleProofs.no_kvl curve_net g_x /\ feasible IdleProofs.no_kvl curve_net h_x /\
  (exists p, cost curve_net g_x = Some p /\ p == 6) /\ (exists p, cost curve_net h_x = Some p /\ p == 6) /\ (exists p, cost curve_net (mix (1#2) g_x h_x) = Some p /\ p == 4).
Proof. exact curve_case. Qed.
