From Coq Require Import List String Bool QArith Qabs Qminmax Arith Lia.
From Verif Require Import StatsModel StatsSpec MarketModel MarketSpec MarketProofs CapfacModel CapfacSpec CapfacProofs.
Import ListNotations.
Open Scope string_scope.
Open Scope list_scope.
Open Scope Q_scope.

(* C71: capacities, curtailment and capacity factors *)

(* capacities: each component once, or at each port times what a unit of capacity gives to the bus there *)
Theorem C71_optimal : forall nom_opt max_hours efficiency r cs c k, sized c -> a_round r = None -> a_across r = false ->
  reported c k (optimal_capacity nom_opt max_hours efficiency false r cs) == group_total r cs (counted efficiency nom_opt r) c k.
Proof. exact optimal_value. Qed.
Print Assumptions C71_optimal.
Theorem C71_installed : forall nom max_hours efficiency r cs c k, sized c -> a_round r = None -> a_across r = false ->
  reported c k (installed_capacity nom max_hours efficiency false r cs) == group_total r cs (counted efficiency nom r) c k.
Proof. exact installed_value. Qed.
Print Assumptions C71_installed.
(* energy capacities: stores, and storage units with their hours; nothing else *)
Theorem C71_storage : forall nom_opt max_hours efficiency r cs c k, a_round r = None -> a_across r = false ->
  reported c k (optimal_capacity nom_opt max_hours efficiency true r cs) ==
  (if String.eqb c "Store" then group_total r cs (counted efficiency nom_opt r) c k else if String.eqb c "StorageUnit" then group_total r cs (fun cl a p => counted efficiency nom_opt r cl a p * max_hours (s_name a)) c k else 0).
Proof. exact storage_value. Qed.
Print Assumptions C71_storage.
Example C71_capacity_ex : sized "Link" /\ reported "Link" "dc" (optimal_capacity size10 (fun _ => 6) half_eff false (args_at false Sum None) plant) == 10 /\
  reported "Link" "dc" (optimal_capacity size10 (fun _ => 6) half_eff false (args_at true Sum None) plant) == -(5) /\
  optimal_capacity size10 (fun _ => 6) half_eff true (args_at false Sum None) plant = [(("StorageUnit", "phs"), 10 * 1 * 6 + 0)].
Proof. split; [unfold sized; simpl; tauto|]. split; [reflexivity|]. split; reflexivity. Qed.

(* expansion is the difference of optimal and installed capacity where that is larger in size *)
Theorem C71_expanded : forall nom nom_opt max_hours efficiency r cs c k x, sized c -> a_round r = None -> a_across r = false -> NoDup (map k_name cs) ->
  In ((c, k), x) (expanded_capacity nom nom_opt max_hours efficiency r cs) ->
  x == let o := group_total r cs (counted efficiency nom_opt r) c k in let i := group_total r cs (counted efficiency nom r) c k in if Qlt_le_dec (Qabs i) (Qabs o) then o - i else 0.
Proof. exact expanded_value. Qed.
Print Assumptions C71_expanded.
Theorem C71_expanded_there : forall nom nom_opt max_hours efficiency r cs c k, sized c -> a_round r = None -> a_across r = false -> NoDup (map k_name cs) ->
  ~ group_total r cs (counted efficiency nom_opt r) c k == 0 -> exists x, In ((c, k), x) (expanded_capacity nom nom_opt max_hours efficiency r cs).
Proof. exact expanded_there. Qed.
Print Assumptions C71_expanded_there.
Example C71_expanded_ex : reported "Generator" "gas" (expanded_capacity size4 size10 (fun _ => 1) half_eff (args_at false Sum None) plant) == 6 /\
  reported "Link" "dc" (expanded_capacity size4 size10 (fun _ => 1) half_eff (args_at true Sum None) plant) == -(3).
Proof. split; reflexivity. Qed.
(* the cost of expansion is that of the additional capacity, also where it is negative *)
Theorem C71_expanded_capex : forall nom nom_opt cost r cs c k, sized c -> a_round r = None -> a_across r = false -> NoDup (map k_name cs) ->
  reported c k (expanded_capex nom nom_opt cost r cs) == group_total r cs (fun cl a p => (nom_opt (k_name cl) (s_name a) - nom (k_name cl) (s_name a)) * cost (k_name cl) (s_name a)) c k.
Proof. exact expanded_capex_value. Qed.
Print Assumptions C71_expanded_capex.
Example C71_expanded_capex_ex : reported "Generator" "gas" (expanded_capex size10 size4 (fun _ _ => 2) (args_at false Sum None) plant) == -(12).
Proof. reflexivity. Qed.

(* curtailment is the energy which was available but not taken; of generators and storage units only *)
Theorem C71_curtailment : forall nt wg ws wo nom_opt p_max_pu r cs c k, a_round r = None -> a_across r = false -> In c ["Generator"; "StorageUnit"] ->
  reported c k (curtailment nt wg ws wo nom_opt p_max_pu r cs) == group_total r cs (lost nt wg ws wo nom_opt p_max_pu (a_time r)) c k.
Proof. exact curtailment_value. Qed.
Print Assumptions C71_curtailment.
Theorem C71_curtailment_only : forall nt wg ws wo nom_opt p_max_pu r cs c k x, a_across r = false -> In ((c, k), x) (curtailment nt wg ws wo nom_opt p_max_pu r cs) -> In c ["Generator"; "StorageUnit"].
Proof. exact curtailment_only. Qed.
Print Assumptions C71_curtailment_only.
(* curtailment plus energy produced is the energy available *)
Theorem C71_available : forall nt wg ws wo nom_opt p_max_pu r cs c k, a_round r = None -> a_across r = false -> In c ["Generator"; "StorageUnit"] ->
  (forall cl a t, In cl cs -> k_name cl = c -> In a (k_comps cl) -> (t < nt)%nat -> s_p a 0 t <= p_max_pu c (s_name a) t * nom_opt c (s_name a)) ->
  reported c k (curtailment nt wg ws wo nom_opt p_max_pu r cs) + group_total r cs (fun cl a p => total (fun t => per_time nt (a_time r) (class_weight wg ws wo c) t * s_p a 0 t) (seq 0 nt)) c k ==
  group_total r cs (fun cl a p => potential nt (per_time nt (a_time r) (class_weight wg ws wo c)) p_max_pu nom_opt cl a) c k.
Proof. exact curtailment_balance. Qed.
Print Assumptions C71_available.
Theorem C71_nonnegative : forall nt wg ws wo nom_opt p_max_pu r cs c k, a_round r = None -> a_across r = false -> In c ["Generator"; "StorageUnit"] -> (forall t, 0 <= wg t /\ 0 <= ws t /\ 0 <= wo t) ->
  0 <= reported c k (curtailment nt wg ws wo nom_opt p_max_pu r cs).
Proof. exact curtailment_nonneg. Qed.
Print Assumptions C71_nonnegative.
Example C71_curtailment_ex : reported "Generator" "wind" (curtailment 2 ones ones ones size10 (fun _ _ t => nth t [1 # 2; 1 # 10] 0) (args_at false Sum None) plant) == 2 /\
  forall t, (t < 2)%nat -> nth t [3; 1] 0 <= nth t [1 # 2; 1 # 10] 0 * 10.
Proof. split; [reflexivity|]. intros [|[|t]] L; [vm_compute; discriminate|vm_compute; discriminate|lia]. Qed.
(* assets without a series for p_max_pu are counted too, storage units among them *)
Theorem C71_series_refuted : exists nt wg ws wo nom_opt pmax r cs, (forall c nm t t', pmax c nm t = pmax c nm t') /\ a_round r = None /\ a_across r = false /\
  reported "Generator" "gas" (curtailment nt wg ws wo nom_opt pmax r cs) == 10 /\ reported "StorageUnit" "phs" (curtailment nt wg ws wo nom_opt pmax r cs) == 20.
Proof. exact constant_counted. Qed.
Print Assumptions C71_series_refuted.

(* the capacity factor is the use of the group over its capacity, each rounded *)
Theorem C71_factor : forall nt wg ws wo nom_opt max_hours efficiency energy_of r cs c k q, sized c -> a_across r = false -> NoDup (map k_name cs) ->
  In ((c, k), Some q) (capacity_factor nt wg ws wo nom_opt max_hours efficiency energy_of r cs) ->
  ~ rounded r (group_total r cs (counted efficiency nom_opt r) c k) == 0 /\
  q == rounded r (group_total r cs (use nt wg ws wo energy_of (a_time r)) c k) / rounded r (group_total r cs (counted efficiency nom_opt r) c k).
Proof. exact factor_is. Qed.
Print Assumptions C71_factor.
(* it lies between 0 and 1 if operation stays within capacity, for any rounding *)
Theorem C71_range : forall nt wg ws wo nom_opt max_hours efficiency energy_of r cs c k q, sized c -> a_across r = false -> a_at_port r = false -> a_time r = Mean -> NoDup (map k_name cs) ->
  (forall t, 0 <= wg t /\ 0 <= ws t /\ 0 <= wo t) -> 0 < total (class_weight wg ws wo c) (seq 0 nt) -> within_capacity nt nom_opt energy_of r cs c k ->
  In ((c, k), Some q) (capacity_factor nt wg ws wo nom_opt max_hours efficiency energy_of r cs) -> 0 <= q <= 1.
Proof. exact factor_range. Qed.
Print Assumptions C71_range.
Example C71_range_ex : within_capacity 2 size10 no_energy (args_at false Mean (Some 5%nat)) plant "Link" "dc" /\
  exists q, In (("Link", "dc"), Some q) (capacity_factor 2 ones ones ones size10 (fun _ => 1) half_eff no_energy (args_at false Mean (Some 5%nat)) plant) /\ q == 3 # 10.
Proof.
  split.
  - intros cl a t [<-|[<-|[<-|[]]]] E; try discriminate E. intros [<-|[]] _ L. destruct t as [|[|t]]; [vm_compute; discriminate|vm_compute; discriminate|lia].
  - eexists. split; [right; right; right; left; reflexivity|]. vm_compute. reflexivity.
Qed.
(* which capacities are read: optimal ones for optimal capacities, curtailment and capacity factors, given ones for installed capacities *)
Theorem C71_columns : forall nt n r cs c k, sized c -> a_round r = None -> a_across r = false ->
  reported c k (net_optimal n r cs) == group_total r cs (counted (col_efficiency n) (col_nom_opt n) r) c k /\
  reported c k (net_installed n r cs) == group_total r cs (counted (col_efficiency n) (col_nom n) r) c k /\
  (In c ["Generator"; "StorageUnit"] ->
    reported c k (net_curtailment nt n r cs) == group_total r cs (lost nt (col_generators n) (col_stores n) (col_objective n) (col_nom_opt n) (col_p_max_pu n) (a_time r)) c k) /\
  (NoDup (map k_name cs) -> forall q, In ((c, k), Some q) (net_factor nt n r cs) ->
    q == group_total r cs (use nt (col_generators n) (col_stores n) (col_objective n) (col_energy n) (a_time r)) c k / group_total r cs (counted (col_efficiency n) (col_nom_opt n) r) c k).
Proof. exact columns_read. Qed.
Print Assumptions C71_columns.
(* not so when it is asked for at all ports: the input side counts as negative capacity *)
Theorem C71_ports_refuted : exists nt wg ws wo nom_opt hours eff energy_of r cs q, a_round r = None /\ a_across r = false /\ a_at_port r = true /\ a_time r = Mean /\ (forall t, 0 <= wg t /\ 0 <= ws t /\ 0 <= wo t) /\
  within_capacity nt nom_opt energy_of r cs "Link" "dc" /\ In (("Link", "dc"), Some q) (capacity_factor nt wg ws wo nom_opt hours eff energy_of r cs) /\ q < 0.
Proof. exact factor_ports. Qed.
Print Assumptions C71_ports_refuted.
