From Coq Require Import List String Bool QArith ZArith Arith Lia.
From Verif Require Import LinModel LinProofs ObjectiveModel ObjectiveSpec ObjectiveProofs.
Import ListNotations.
Open Scope string_scope.
Open Scope list_scope.
Open Scope Q_scope.

(* the objective is the cost of expansion, operation and switching of all assets *)
Theorem C38_objective : forall n x ps, known n -> const_fixed n x -> proper n a_start -> proper n a_shut -> objective n = Some ps ->
  value_of x ps == expansion n x (annual n) + operating n x (weighting n) + switching_cost n x.
Proof. exact objective_value. Qed.
Print Assumptions C38_objective.

(* adding n.objective_constant gives the total system cost of extendable assets *)
Theorem C38_total : forall n x ps, known n -> const_fixed n x -> proper n a_start -> proper n a_shut -> objective n = Some ps ->
  value_of x ps + constant n == total (fun a => if a_ext a then annual n a * capacity x a else 0) (assets n) + operating n x (weighting n) + switching_cost n x.
Proof. exact objective_total. Qed.
Print Assumptions C38_total.

(* without investment periods: capital costs of the added capacity of assets in service, snapshots weighted, switching costs unweighted *)
Theorem C38_single : forall n x ps, known n -> const_fixed n x -> proper n a_start -> proper n a_shut -> multi n = None -> objective n = Some ps ->
  value_of x ps == total (fun a => if a_flag a then a_capital a * (capacity x a - a_nom a) else 0) (assets n) +
    total (fun t => w_snap n t * total (fun a => running x a t) (assets n)) (days n) + total (fun t => total (fun a => starts x a t) (assets n)) (days n).
Proof. exact single_horizon. Qed.
Print Assumptions C38_single.

(* several investment periods: weighted sum of the costs of each period *)
Theorem C38_periods : forall n x ps ww, multi n = Some (ps, ww) -> NoDup ps -> (forall t, (t < nsnaps n)%nat -> In (per n t) ps) ->
  expansion n x (annual n) + operating n x (weighting n) == total (fun p => ww p * of_period n x (fun a t => w_snap n t * running x a t) p) ps.
Proof. exact period_sum. Qed.
Print Assumptions C38_periods.

Theorem C38_defined : forall n, (forall a, In a (assets n) -> a_class a = "StorageUnit" -> has_cost n (a_spill a) -> exists b, In b (assets n) /\ a_class b = "StorageUnit" /\ has_inflow n b) ->
  (exists a, In a (assets n) /\ ((is a ["Generator"; "Line"; "Transformer"; "Link"; "Store"; "StorageUnit"] = true /\ a_ext a = true) \/
                                 (is a ["Generator"; "Link"; "Store"; "StorageUnit"] = true /\ has_cost n (a_marginal a)))) ->
  exists ps, objective n = Some ps.
Proof. exact defined. Qed.
Print Assumptions C38_defined.

(* a spill cost without any inflow: the variable does not exist and building the objective fails *)
Theorem C38_spill_refuted : exists n, known n /\ (exists a t, In a (assets n) /\ a_class a = "Generator" /\ ~ a_marginal a t == 0) /\ objective n = None.
Proof. exact spill_without_inflow. Qed.
Print Assumptions C38_spill_refuted.
(* start-up costs are not weighted with the investment period *)
Theorem C38_start_up_weight_refuted : exists n x ps ww obj, known n /\ multi n = Some (ps, ww) /\ NoDup ps /\ (forall t, (t < nsnaps n)%nat -> In (per n t) ps) /\
  proper n a_start /\ proper n a_shut /\ const_fixed n x /\ objective n = Some obj /\
  ~ value_of x obj == total (fun p => ww p * of_period n x (fun a t => w_snap n t * running x a t + starts x a t) p) ps.
Proof. exact start_up_not_weighted. Qed.
Print Assumptions C38_start_up_weight_refuted.
(* start-up costs that sum up to zero are left out altogether *)
Theorem C38_cancel_refuted : exists n x obj, known n /\ const_fixed n x /\ objective n = Some obj /\ switching_cost n x == 4 /\
  ~ value_of x obj == expansion n x (annual n) + operating n x (weighting n) + switching_cost n x.
Proof. exact costs_cancel. Qed.
Print Assumptions C38_cancel_refuted.

(* a committable generator, an extendable line that exists in the second period only, two periods *)
Definition ex_line : asset := {| a_class := "Line"; a_name := "l"; a_flag := true; a_in := fun p => Z.eqb p 1; a_on := fun t => Nat.eqb t 1; a_ext := true; a_com := false;
  a_nom := 2; a_capital := 3; a_marginal := fun _ => 7; a_storage := fun _ => 7; a_spill := fun _ => 7; a_quadratic := fun _ => 7; a_standby := fun _ => 7;
  a_start := 7; a_shut := 7; a_inflow := fun _ => 7 |}.
Definition ex_n : net := of_assets [with_start 4 (with_marginal 5 (plain "Generator" "g")); ex_line] (Some ([0; 1]%Z, fun p => if Z.eqb p 0 then 1 else 1 # 2)).
Definition ex_x : sol := fun v => let '(w, t, _) := v in
  if String.eqb w "Generator-p" then 10 else if String.eqb w "Generator-start_up" then nth t [1; 0] 0 else if String.eqb w "Line-s_nom" then 6 else if String.eqb w "objective_constant" then 3 else 100.
Example C38_ex : exists ps, known ex_n /\ const_fixed ex_n ex_x /\ proper ex_n a_start /\ proper ex_n a_shut /\ objective ex_n = Some ps /\ constant ex_n == 3 /\
  value_of ex_x ps == (1 # 2) * 3 * (6 - 2) + (50 + (1 # 2) * 50) + 4.
Proof.
  eexists. split; [intros a [<-|[<-|[]]]; reflexivity|]. split; [intros _; reflexivity|]. split; [intros a [<-|[<-|[]]]; discriminate|]. split; [intros a [<-|[<-|[]]]; discriminate|].
  split; [reflexivity|]. split; reflexivity.
Qed.

(* the same assets without periods *)
Example C38_single_ex : exists ps, let n := of_assets [with_start 4 (with_marginal 5 (plain "Generator" "g")); ex_line] None in
  multi n = None /\ known n /\ const_fixed n (fun v => let '(w, _, _) := v in if String.eqb w "objective_constant" then 6 else ex_x v) /\ objective n = Some ps /\
  value_of (fun v => let '(w, _, _) := v in if String.eqb w "objective_constant" then 6 else ex_x v) ps == 3 * (6 - 2) + 100 + 4.
Proof. eexists. split; [reflexivity|]. split; [intros a [<-|[<-|[]]]; reflexivity|]. split; [intros _; reflexivity|]. split; [reflexivity|]. reflexivity. Qed.
