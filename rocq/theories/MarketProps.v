From Coq Require Import List String Bool QArith Arith Lia.
From Verif Require Import StatsModel StatsSpec StatsProps MarketModel MarketSpec MarketProofs.
Import ListNotations.
Open Scope string_scope.
Open Scope list_scope.
Open Scope Q_scope.

(* C70: revenue and market value *)

(* every entry is the weighted sum (or mean) of power given to the bus times the price there, over the group's components and ports *)
Theorem C70_revenue : forall nt wg ws wo prices r d cs c k, a_round r = None -> a_across r = false ->
  reported c k (revenue nt wg ws wo prices r d cs) == earned nt wg ws wo prices d r cs c k.
Proof. exact revenue_value. Qed.
Print Assumptions C70_revenue.
(* the network of StatsProps at prices 10, 30 and 20, 30 *)
Example C70_ex : let rev := revenue 2 w2 w2 w2 dear (args_of by_carrier Sum) Any ex in
  reported "Link" "dc" rev == 40 /\ reported "Generator" "gas" rev == 660 /\ reported "Load" "" rev == -(700) /\
  market_value 2 w2 w2 w2 dear (args_of by_carrier Sum) ex = [(("Link", "dc"), Some (40 / 8)); (("Generator", "gas"), Some (660 / 25)); (("Load", ""), None)].
Proof. vm_compute. repeat split; reflexivity. Qed.

(* purchases and sales add up to the revenue *)
Theorem C70_split : forall nt wg ws wo prices r cs c k, a_round r = None -> a_across r = false ->
  reported c k (revenue nt wg ws wo prices r Input cs) + reported c k (revenue nt wg ws wo prices r Output cs) == reported c k (revenue nt wg ws wo prices r Any cs).
Proof. exact revenue_split. Qed.
Print Assumptions C70_split.

(* if power is balanced at every bus and all classes are weighted alike, all revenues add up to zero, whatever the prices and groups *)
Theorem C70_settlement : forall nt wg ws wo prices r cs, a_round r = None -> everything r -> (forall t, wg t == wo t /\ ws t == wo t) -> (forall b t, (t < nt)%nat -> inflow_at cs b t == 0) ->
  total snd (revenue nt wg ws wo prices r Any cs) == 0.
Proof. exact settlement. Qed.
Print Assumptions C70_settlement.
Example C70_settlement_ex : everything (args_of by_carrier Sum) /\ (forall b t, (t < 2)%nat -> inflow_at ex b t == 0) /\ List.length (revenue 2 w2 w2 w2 dear (args_of by_carrier Sum) Any ex) = 3%nat.
Proof.
  split; [repeat split; intros; try reflexivity; injection H as <-; discriminate|]. split; [|reflexivity].
  intros b t L. unfold inflow_at, injected, ex. cbn [k_branch k_comps k_ports BalanceSpec.total fold_right seq s_active s_bus s_sign s_p andb nth].
  destruct t as [|[|t]]; [| |lia]; unfold ser; cbn [nth]; destruct (String.eqb "a" b), (String.eqb "b" b); reflexivity.
Qed.
(* with different weightings they do not *)
Theorem C70_settlement_refuted : exists r cs nt wg ws wo prices, a_round r = None /\ everything r /\ (forall b t, (t < nt)%nat -> inflow_at cs b t == 0) /\
  ~ total snd (revenue nt wg ws wo prices r Any cs) == 0.
Proof. exact unsettled. Qed.
Print Assumptions C70_settlement_refuted.

(* a branch earns its flow times the price difference between what it delivers and what it takes *)
Theorem C70_branch : forall nt wg ws wo prices r cs cl a eff, a_round r = None -> a_across r = false -> everything r -> a_key r = None -> NoDup (map k_name cs) -> In cl cs ->
  NoDup (map s_name (k_comps cl)) -> In a (k_comps cl) -> s_active a = true -> k_branch cl = true -> k_ports cl = 2%nat -> (forall t, (t < nt)%nat -> s_p a 1 t == - (eff t * s_p a 0 t)) ->
  reported (k_name cl) (s_name a) (revenue nt wg ws wo prices r Any cs) ==
  total (fun t => per_time nt (a_time r) (class_weight wg ws wo (k_name cl)) t * (s_p a 0 t * (eff t * price_at prices (s_bus a 1) t - price_at prices (s_bus a 0) t))) (seq 0 nt).
Proof. exact branch_rent. Qed.
Print Assumptions C70_branch.
Example C70_branch_ex : reported "Link" "k" (revenue 2 w2 w2 w2 dear (args_of None Sum) Any ex) == 40 /\
  total (fun t => w2 t * (ser [4; -(2)] t * (1 * price_at dear "b" t - price_at dear "a" t))) (seq 0 2) == 40.
Proof. split; reflexivity. Qed.

(* the market value of a group is its revenue per unit of energy it supplies *)
Theorem C70_market_value : forall nt wg ws wo prices r cs c k, a_round r = None -> a_across r = false -> NoDup (map k_name cs) ->
  ~ earned nt wg ws wo prices Any r cs c k == 0 -> ~ sold nt wg ws wo r cs c k == 0 ->
  exists q, In ((c, k), Some q) (market_value nt wg ws wo prices r cs) /\ q == earned nt wg ws wo prices Any r cs c k / sold nt wg ws wo r cs c k /\
  forall v, In ((c, k), v) (market_value nt wg ws wo prices r cs) -> v = Some q.
Proof. exact market_value_entry. Qed.
Print Assumptions C70_market_value.
Theorem C70_quotient : forall nt wg ws wo prices r cs c k q, a_round r = None -> a_across r = false -> NoDup (map k_name cs) -> In ((c, k), Some q) (market_value nt wg ws wo prices r cs) ->
  ~ sold nt wg ws wo r cs c k == 0 /\ q == earned nt wg ws wo prices Any r cs c k / sold nt wg ws wo r cs c k.
Proof. exact market_value_is. Qed.
Print Assumptions C70_quotient.

(* for a group which only sells, it lies between the lowest and the highest price *)
Theorem C70_range : forall nt wg ws wo prices r cs c k lo hi q, a_round r = None -> a_across r = false -> NoDup (map k_name cs) -> (forall t, 0 <= wg t /\ 0 <= ws t /\ 0 <= wo t) ->
  sells_only nt prices r cs c k lo hi -> In ((c, k), Some q) (market_value nt wg ws wo prices r cs) -> lo <= q <= hi.
Proof. exact market_value_range. Qed.
Print Assumptions C70_range.
Example C70_range_ex : sells_only 2 dear (args_of by_carrier Sum) ex "Generator" "gas" 10 30.
Proof.
  intros cl a p t [<-|[<-|[<-|[]]]] E; try discriminate E. intros [<-|[<-|[]]] _ _ L; cbn [k_branch injected s_sign s_p s_bus]; (destruct t as [|[|t]]; [| |lia]); vm_compute; repeat split; discriminate.
Qed.
(* not so for storage, whose purchases are subtracted while its sales alone are counted as energy *)
Theorem C70_storage_refuted : exists r cs nt wg ws wo prices q, a_round r = None /\ a_across r = false /\ NoDup (map k_name cs) /\ (forall t, 0 <= wg t /\ 0 <= ws t /\ 0 <= wo t) /\
  (forall b t, (t < nt)%nat -> 10 <= price_at prices b t <= 20) /\ In (("StorageUnit", "phs"), Some q) (market_value nt wg ws wo prices r cs) /\ q < 10.
Proof. exact storage_value. Qed.
Print Assumptions C70_storage_refuted.

(* time aggregation by sum or by mean gives the same market value *)
Theorem C70_time : forall nt wg ws wo prices r cs c k q q', a_round r = None -> a_across r = false -> NoDup (map k_name cs) -> 0 < total (class_weight wg ws wo c) (seq 0 nt) ->
  In ((c, k), Some q) (market_value nt wg ws wo prices (with_time Sum r) cs) -> In ((c, k), Some q') (market_value nt wg ws wo prices (with_time Mean r) cs) -> q == q'.
Proof. exact market_value_time. Qed.
Print Assumptions C70_time.
Example C70_time_ex : exists q', In (("Generator", "gas"), Some q') (market_value 2 w2 w2 w2 dear (args_of by_carrier Mean) ex) /\ q' == 660 / 25.
Proof. eexists. split; [right; left; reflexivity|]. vm_compute. reflexivity. Qed.

(* a market value of zero is reported as missing *)
Theorem C70_worthless_refuted : exists r cs nt wg ws wo prices, a_round r = None /\ a_across r = false /\ a_drop r = Some true /\ NoDup (map k_name cs) /\ 
  sold nt wg ws wo r cs "Generator" "wind" == 10 /\ earned nt wg ws wo prices Any r cs "Generator" "wind" == 0 /\
  market_value nt wg ws wo prices r cs = [(("Generator", "wind"), None)].
Proof. exact worthless. Qed.
Print Assumptions C70_worthless_refuted.
