From Coq Require Import List String Bool QArith Qabs Qminmax Arith Lia.
From Verif Require Import LinModel StatsModel StatsSpec MarketModel MarketProofs CapfacModel CapfacSpec CapfacProofs ExprsModel ExprsSpec ExprsProofs.
Import ListNotations.
Open Scope string_scope.
Open Scope list_scope.
Open Scope Q_scope.

(* C72: n.optimize.expressions at the solution against n.statistics *)

(* the energy balance agrees for all classes but stores, where each port has a bus *)
Theorem C72_balance : forall x nt wg ws wo p_set efficiency_t r cs c k, a_round r = None -> a_across r = false -> a_dir r = Balance -> c <> "Store" -> powers_written x nt p_set efficiency_t cs -> connected r cs c k ->
  reported c k (at_solution x (x_energy_balance nt wg ws wo p_set efficiency_t r cs)) == reported c k (energy_balance nt wg ws wo r cs).
Proof. exact energy_value. Qed.
Print Assumptions C72_balance.
Example C72_balance_ex : powers_written solved 2 demand unit_eff system /\ connected (energy_args Balance) system "Link" "chp" /\
  reported "Link" "chp" (at_solution solved (x_energy_balance 2 ones ones ones demand unit_eff (energy_args Balance) system)) == 0 /\
  reported "Load" "load" (at_solution solved (x_energy_balance 2 ones ones ones demand unit_eff (energy_args Balance) system)) == -(15).
Proof.
  split; [exact system_powers|]. split; [|split; reflexivity]. intros cl a p I E Ia Lp _. simpl in I. repeat (destruct I as [<-|I]); try discriminate E; try contradiction. destruct Ia as [<-|[]]. simpl in Lp.
  destruct p as [|[|[|p]]]; [discriminate|discriminate|discriminate|lia].
Qed.
(* for stores the expression takes the energy level *)
Theorem C72_store_refuted : exists x nt wg ws wo p_set eff r cs k, a_round r = None /\ a_across r = false /\ a_dir r = Balance /\ powers_written x nt p_set eff cs /\ connected r cs "Store" k /\
  reported "Store" k (energy_balance nt wg ws wo r cs) == 3 /\ reported "Store" k (at_solution x (x_energy_balance nt wg ws wo p_set eff r cs)) == 5.
Proof. exact store_level. Qed.
Print Assumptions C72_store_refuted.
(* and it counts output at ports a link does not have *)
Theorem C72_port_refuted : exists x nt wg ws wo p_set eff r cs k, a_round r = None /\ a_across r = false /\ a_dir r = Balance /\ powers_written x nt p_set eff cs /\
  reported "Link" k (energy_balance nt wg ws wo r cs) == -(5) /\ reported "Link" k (at_solution x (x_energy_balance nt wg ws wo p_set eff r cs)) == 0.
Proof. exact phantom_port. Qed.
Print Assumptions C72_port_refuted.

(* supply less withdrawal is the balance *)
Theorem C72_split : forall x nt wg ws wo p_set efficiency_t r cs c k, a_across r = false ->
  reported c k (at_solution x (x_energy_balance nt wg ws wo p_set efficiency_t (with_dir Supply r) cs)) - reported c k (at_solution x (x_energy_balance nt wg ws wo p_set efficiency_t (with_dir Withdrawal r) cs)) ==
  reported c k (at_solution x (x_energy_balance nt wg ws wo p_set efficiency_t (with_dir Balance r) cs)).
Proof. exact energy_split. Qed.
Print Assumptions C72_split.
(* each agrees with the statistic where nothing runs backwards *)
Theorem C72_directed : forall x nt wg ws wo p_set efficiency_t r cs c k, a_round r = None -> a_across r = false -> c <> "Store" -> powers_written x nt p_set efficiency_t cs -> connected r cs c k ->
  (forall cl a t, In cl cs -> k_name cl = c -> In a (k_comps cl) -> (t < nt)%nat -> 0 <= s_p a 0 t) ->
  reported c k (at_solution x (x_energy_balance nt wg ws wo p_set efficiency_t r cs)) == reported c k (energy_balance nt wg ws wo r cs).
Proof. exact directed_value. Qed.
Print Assumptions C72_directed.
Example C72_directed_ex : (forall cl a t, In cl system -> k_name cl = "Link" -> In a (k_comps cl) -> (t < 2)%nat -> 0 <= s_p a 0 t) /\
  reported "Link" "chp" (at_solution solved (x_energy_balance 2 ones ones ones demand unit_eff (energy_args Supply) system)) == 10 /\
  reported "Link" "chp" (at_solution solved (x_energy_balance 2 ones ones ones demand unit_eff (energy_args Withdrawal) system)) == 10.
Proof.
  split; [|split; reflexivity]. intros cl a t I E Ia Lt. simpl in I. repeat (destruct I as [<-|I]); try discriminate E; try contradiction. destruct Ia as [<-|[]]. destruct t as [|[|t]]; [vm_compute; discriminate|vm_compute; discriminate|lia].
Qed.
(* a storage unit which charges has a negative supply, and no withdrawal *)
Theorem C72_supply_refuted : exists x nt wg ws wo p_set eff r cs k, a_round r = None /\ a_across r = false /\ a_dir r = Supply /\ powers_written x nt p_set eff cs /\ connected r cs "StorageUnit" k /\
  reported "StorageUnit" k (energy_balance nt wg ws wo r cs) == 2 /\ reported "StorageUnit" k (at_solution x (x_energy_balance nt wg ws wo p_set eff r cs)) == -(3) /\
  reported "StorageUnit" k (energy_balance nt wg ws wo (with_dir Withdrawal r) cs) == 5 /\ reported "StorageUnit" k (at_solution x (x_energy_balance nt wg ws wo p_set eff (with_dir Withdrawal r) cs)) == 0.
Proof. exact storage_supply. Qed.
Print Assumptions C72_supply_refuted.

(* capacities agree for classes with an extendable asset *)
Theorem C72_capacity : forall x extendable nom nom_opt max_hours efficiency storage r cs c k, a_round r = None -> a_across r = false -> sized c -> sizes_written x extendable nom nom_opt -> some_extendable extendable cs c ->
  reported c k (at_solution x (x_capacity extendable nom max_hours efficiency true storage r cs)) == reported c k (optimal_capacity nom_opt max_hours efficiency storage r cs).
Proof. exact x_capacity_value. Qed.
Print Assumptions C72_capacity.
(* other classes are left out *)
Theorem C72_capacity_dropped : forall x extendable nom max_hours efficiency storage r cs c k, a_across r = false -> none_extendable extendable cs c ->
  reported c k (at_solution x (x_capacity extendable nom max_hours efficiency true storage r cs)) == 0.
Proof. exact x_capacity_dropped. Qed.
Print Assumptions C72_capacity_dropped.
Theorem C72_capacity_refuted : exists x ext nom nom_opt hours eff r cs k, a_round r = None /\ a_across r = false /\ sizes_written x ext nom nom_opt /\
  reported "Generator" k (optimal_capacity nom_opt hours eff false r cs) == 4 /\ reported "Generator" k (at_solution x (x_capacity ext nom hours eff true false r cs)) == 0.
Proof. exact fixed_dropped. Qed.
Print Assumptions C72_capacity_refuted.
Example C72_capacity_ex : sizes_written solved all_ext fixed_size (opt_size all_ext) /\ some_extendable all_ext system "Link" /\
  reported "Link" "chp" (at_solution solved (x_capacity all_ext fixed_size (fun _ => 1) static_eff true false (args_at false Sum None) system)) == 8 /\
  reported "Link" "chp" (at_solution solved (x_capacity all_ext fixed_size (fun _ => 1) static_eff true false (args_at true Sum None) system)) == 0 /\
  reported "StorageUnit" "phs" (at_solution solved (x_capacity all_ext fixed_size (fun _ => 5) static_eff true true (args_at false Sum None) storing)) == 30.
Proof.
  split; [apply opt_written|]. split; [|split; [|split]; reflexivity]. intros cl I E. simpl in I. repeat (destruct I as [<-|I]); try discriminate E; try contradiction. eexists. split; [left; reflexivity|reflexivity].
Qed.

(* so do investment costs, for classes whose capacity is p_nom *)
Theorem C72_capex : forall x extendable nom nom_opt cost r cs c k, a_round r = None -> a_across r = false -> In c ["Generator"; "Link"; "StorageUnit"] -> sizes_written x extendable nom nom_opt -> some_extendable extendable cs c ->
  reported c k (at_solution x (x_capex extendable nom cost true r cs)) == reported c k (capex nom_opt cost r cs).
Proof. exact x_capex_value. Qed.
Print Assumptions C72_capex.
(* all other classes are left out, with include_non_extendable *)
Theorem C72_capex_dropped : forall x extendable nom cost r cs c k, a_across r = false -> (~ In c ["Generator"; "Link"; "StorageUnit"] \/ none_extendable extendable cs c) ->
  reported c k (at_solution x (x_capex extendable nom cost true r cs)) == 0.
Proof. exact x_capex_dropped. Qed.
Print Assumptions C72_capex_dropped.
Theorem C72_capex_refuted : exists x ext nom nom_opt cost r cs k, a_round r = None /\ a_across r = false /\ sizes_written x ext nom nom_opt /\ some_extendable ext cs "Line" /\
  reported "Line" k (capex nom_opt cost r cs) == 14 /\ reported "Line" k (at_solution x (x_capex ext nom cost true r cs)) == 0 /\ reported "Line" k (at_solution x (x_capex ext nom cost false r cs)) == 14.
Proof. exact lines_dropped. Qed.
Print Assumptions C72_capex_refuted.
(* without non-extendable assets: the cost of what is extendable, for every class *)
Theorem C72_capex_extendable : forall x extendable nom cost r cs c k, a_across r = false -> sized c -> reported c k (at_solution x (x_capex extendable nom cost false r cs)) ==
  group_total r cs (fun cl a p => if extendable (k_name cl) (s_name a) then cost c (s_name a) * x (size_name c, O, s_name a) else 0) c k.
Proof. exact x_capex_extendable. Qed.
Print Assumptions C72_capex_extendable.
Example C72_capex_ex : reported "Generator" "wind" (at_solution solved (x_capex all_ext fixed_size (fun _ _ => 2) true (args_at false Sum None) system)) == 20.
Proof. reflexivity. Qed.

(* operating costs: the marginal cost of the dispatch, of links too *)
Theorem C72_opex : forall x nt wg ws wo marginal_cost r cs c k, a_across r = false -> In c ["Generator"; "Link"; "Store"; "StorageUnit"] -> reported c k (at_solution x (x_opex nt wg ws wo marginal_cost r cs)) ==
  group_total r cs (fun cl a p => total (fun t => per_time nt (a_time r) (class_weight wg ws wo c) t * (marginal_cost c (s_name a) t * x (dispatch_name c, t, s_name a))) (seq 0 nt)) c k.
Proof. exact x_opex_value. Qed.
Print Assumptions C72_opex.
Theorem C72_opex_only : forall x nt wg ws wo marginal_cost r cs c k, a_across r = false -> ~ In c ["Generator"; "Link"; "Store"; "StorageUnit"] -> reported c k (at_solution x (x_opex nt wg ws wo marginal_cost r cs)) == 0.
Proof. exact x_opex_only. Qed.
Print Assumptions C72_opex_only.
Example C72_opex_ex : reported "Link" "chp" (at_solution solved (x_opex 2 ones ones ones (fun _ _ _ => 3) (args_at false Sum None) system)) == 30 /\
  reported "StorageUnit" "phs" (at_solution solved (x_opex 2 ones ones ones (fun _ _ _ => 3) (args_at false Sum None) storing)) == 6.
Proof. split; reflexivity. Qed.

(* operation: power at the first port; energy of stores *)
Theorem C72_operation : forall x nt wg ws wo p_set efficiency_t r cs c k, a_across r = false -> c <> "Store" -> powers_written x nt p_set efficiency_t cs -> reported c k (at_solution x (x_operation nt wg ws wo p_set r cs)) ==
  group_total r cs (fun cl a p => total (fun t => per_time nt (a_time r) (class_weight wg ws wo c) t * s_p a 0 t) (seq 0 nt)) c k.
Proof. exact x_operation_value. Qed.
Print Assumptions C72_operation.
Theorem C72_operation_stores : forall x nt wg ws wo p_set r cs k, a_across r = false -> reported "Store" k (at_solution x (x_operation nt wg ws wo p_set r cs)) ==
  group_total r cs (fun cl a p => total (fun t => per_time nt (a_time r) (class_weight wg ws wo "Store") t * x ("Store-e", t, s_name a)) (seq 0 nt)) "Store" k.
Proof. exact x_operation_stores. Qed.
Print Assumptions C72_operation_stores.
Example C72_operation_ex : reported "StorageUnit" "phs" (at_solution solved (x_operation 2 ones ones ones demand (args_at false Mean None) storing)) == -(3 # 2) /\
  reported "Store" "tank" (at_solution solved (x_operation 2 ones ones ones demand (args_at false Mean None) keeping)) == 5 # 2.
Proof. split; reflexivity. Qed.

(* curtailment agrees for generators and storage units, if one of the class is extendable and operation stays within the potential *)
Theorem C72_curtailment : forall x nt wg ws wo extendable nom nom_opt p_max_pu p_set efficiency_t r cs c k, a_round r = None -> a_across r = false -> In c ["Generator"; "StorageUnit"] ->
  sizes_written x extendable nom nom_opt -> powers_written x nt p_set efficiency_t cs -> some_extendable extendable cs c ->
  (forall cl a t, In cl cs -> k_name cl = c -> In a (k_comps cl) -> (t < nt)%nat -> s_p a 0 t <= p_max_pu c (s_name a) t * nom_opt c (s_name a) /\ (p_max_pu c (s_name a) t == 0 -> s_p a 0 t == 0)) ->
  reported c k (at_solution x (x_curtailment nt wg ws wo extendable nom p_max_pu p_set r cs)) == reported c k (curtailment nt wg ws wo nom_opt p_max_pu r cs).
Proof. exact x_curtailment_value. Qed.
Print Assumptions C72_curtailment.
Example C72_curtailment_ex : (forall cl a t, In cl system -> k_name cl = "Generator" -> In a (k_comps cl) -> (t < 2)%nat -> s_p a 0 t <= nth t [1 # 2; 1 # 10] 0 * 10 /\ (nth t [1 # 2; 1 # 10] 0 == 0 -> s_p a 0 t == 0)) /\
  reported "Generator" "wind" (at_solution solved (x_curtailment 2 ones ones ones all_ext fixed_size (fun _ _ t => nth t [1 # 2; 1 # 10] 0) demand (args_at false Sum None) system)) == 2.
Proof.
  split; [|reflexivity]. intros cl a t I E Ia Lt. simpl in I. repeat (destruct I as [<-|I]); try discriminate E; try contradiction. destruct Ia as [<-|[]]. destruct t as [|[|t]]; [| |lia]; (split; [vm_compute; discriminate|intros Z; discriminate Z]).
Qed.
(* the expression has the unused capacity of links as well, the statistic does not *)
Theorem C72_curtailment_refuted : exists x nt wg ws wo ext nom nom_opt pmax p_set eff r cs k, a_round r = None /\ a_across r = false /\ sizes_written x ext nom nom_opt /\ powers_written x nt p_set eff cs /\ some_extendable ext cs "Link" /\
  reported "Link" k (curtailment nt wg ws wo nom_opt pmax r cs) == 0 /\ reported "Link" k (at_solution x (x_curtailment nt wg ws wo ext nom pmax p_set r cs)) == 6.
Proof. exact link_curtailed. Qed.
Print Assumptions C72_curtailment_refuted.

(* transmission: the flow at the ports of the branches with two buses of one wanted carrier *)
Theorem C72_transmission : forall nt wg ws wo carrier_of wanted sel r cs c k, a_round r = None -> a_across r = false -> (forall cl a, sel cl a = true <-> links_carrier carrier_of wanted cl a) ->
  reported c k (transmission nt wg ws wo carrier_of wanted r cs) ==
  group_total r cs (fun cl a p => if k_branch cl && sel cl a then total (fun t => per_time nt (a_time r) (class_weight wg ws wo c) t * s_p a p t) (seq 0 nt) else 0) c k.
Proof. exact transmission_is. Qed.
Print Assumptions C72_transmission.
(* the expression is the statistic with the opposite sign *)
Theorem C72_transmission_opposite : forall x nt wg ws wo p_set efficiency_t carrier_of wanted r cs c k, a_round r = None -> a_across r = false -> powers_written x nt p_set efficiency_t cs -> connected r cs c k ->
  reported c k (at_solution x (x_transmission nt wg ws wo p_set efficiency_t carrier_of wanted r cs)) == - reported c k (transmission nt wg ws wo carrier_of wanted r cs).
Proof. exact x_transmission_value. Qed.
Print Assumptions C72_transmission_opposite.
Theorem C72_transmission_refuted : exists x nt wg ws wo p_set eff carrier_of wanted r cs k, a_round r = None /\ a_across r = false /\ powers_written x nt p_set eff cs /\ connected r cs "Line" k /\
  reported "Line" k (transmission nt wg ws wo carrier_of wanted r cs) == 3 /\ reported "Line" k (at_solution x (x_transmission nt wg ws wo p_set eff carrier_of wanted r cs)) == -(3).
Proof. exact transmission_sign. Qed.
Print Assumptions C72_transmission_refuted.
Example C72_transmission_ex : reported "Link" "chp" (transmission 2 ones ones ones (fun b => if String.eqb b "a" then Some "heat" else Some "gas") ["heat"] (args_at false Sum None) system) == 10 /\
  transmission 2 ones ones ones (fun b => if String.eqb b "a" then Some "heat" else Some "gas") ["gas"] (args_at false Sum None) system = [].
Proof. split; reflexivity. Qed.

(* over classes: the sum of the entries by class *)
Theorem C72_across : forall x func r cs k, a_across r = true -> NoDup (map k_name cs) ->
  reported "" k (at_solution x (expressions func r cs)) == total (fun c => reported c k (at_solution x (all_exprs func r cs))) (map k_name cs).
Proof. exact across_classes. Qed.
Print Assumptions C72_across.
