From Coq Require Import List String Bool QArith ZArith Arith.
From Verif Require Import LinModel ObjectiveModel ObjectiveSpec ObjectiveProofs OpexModel OpexSpec OpexProofs.
From Verif Require Import BalanceSpec.
Import ListNotations.
Open Scope string_scope.
Open Scope list_scope.
Open Scope Q_scope.

(* C44: statistics' operational expenditure and the objective. *)

(* without links and with equal weightings the reported opex is the operating-cost part of the objective *)
Theorem C44_opex : forall n ws x, single n -> alike n ws -> no_links n -> sum_series (opex n ws x) == operating n x (weighting n) + switching_cost n x.
Proof. exact opex_operating. Qed.
Print Assumptions C44_opex.

(* so the optimum is the cost of expansion plus the reported opex *)
Theorem C44_objective : forall n ws x ps, single n -> alike n ws -> no_links n -> const_fixed n x -> proper n a_start -> proper n a_shut -> objective n = Some ps ->
  value_of x ps == expansion n x (annual n) + sum_series (opex n ws x).
Proof. exact opex_objective. Qed.
Print Assumptions C44_objective.

(* capex + opex = objective + constant + the cost of what cannot be extended *)
Theorem C44_system_cost : forall n ws x ps, single n -> alike n ws -> no_links n -> const_fixed n x -> proper n a_start -> proper n a_shut -> objective n = Some ps ->
  sum_series (capex n x) + sum_series (opex n ws x) ==
  value_of x ps + constant n + total (fun a => if a_flag a && negb (a_ext a) then a_nom a * a_capital a else 0) (assets n).
Proof. exact system_cost. Qed.
Print Assumptions C44_system_cost.

(* a link's operating costs never appear *)
Theorem C44_link_refuted : exists n ws x ps, single n /\ alike n ws /\ const_fixed n x /\ proper n a_start /\ proper n a_shut /\ objective n = Some ps /\
  expansion n x (annual n) == 0 /\ value_of x ps == 100 /\ opex n ws x = [].
Proof. exact links_left_out. Qed.
Print Assumptions C44_link_refuted.

(* the objective weights generators with the objective weighting, statistics with the generators weighting *)
Theorem C44_weightings_refuted : exists n ws x ps, single n /\ no_links n /\ (forall t, w_objective ws t == w_snap n t) /\ const_fixed n x /\ proper n a_start /\ proper n a_shut /\ objective n = Some ps /\
  ~ value_of x ps == expansion n x (annual n) + sum_series (opex n ws x).
Proof. exact generator_weighting. Qed.
Print Assumptions C44_weightings_refuted.

(* non-vacuity *)
Definition example : net := of_assets [with_cap 10 2 (with_marginal 5 (plain "Generator" "g")); with_start 7 (plain "Generator" "h"); with_marginal 3 (plain "Store" "s")] None.
Example example_single : single example.
Proof. split; [reflexivity|]. split; [intros a [<-|[<-|[<-|[]]]]; reflexivity|intros a t [<-|[<-|[<-|[]]]]; reflexivity]. Qed.
Example example_alike : alike example (weigh 1 1 1) /\ no_links example.
Proof. split; [intros t; repeat split; reflexivity|intros a [<-|[<-|[<-|[]]]]; discriminate]. Qed.
Example example_opex : sum_series (opex example (weigh 1 1 1) (fun v => if String.eqb (fst (fst v)) "Generator-start_up" then 1 else 4)) == 78.
Proof. vm_compute. reflexivity. Qed.
