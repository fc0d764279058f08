From Coq Require Import List String Bool QArith Arith.
From Verif Require Import StatsModel StatsSpec StatsProofs.
Import ListNotations.
Open Scope string_scope.
Open Scope list_scope.
Open Scope Q_scope.

(* two generators and a link at two buses, two snapshots *)
Definition ser (l : list Q) (t : nat) : Q := nth t l 0.
Definition ex : list class :=
  [{| k_name := "Link"; k_branch := true; k_ports := 2; k_comps := [{| s_name := "k"; s_carrier := "dc"; s_bus := fun k => nth k ["a"; "b"] ""; s_sign := 0; s_active := true; s_p := fun k => ser (nth k [[4; -(2)]; [-(4); 2]] []) |}] |};
   {| k_name := "Generator"; k_branch := false; k_ports := 1; k_comps := [
     {| s_name := "g"; s_carrier := "gas"; s_bus := fun _ => "a"; s_sign := 1; s_active := true; s_p := fun _ => ser [4; 3] |};
     {| s_name := "h"; s_carrier := "gas"; s_bus := fun _ => "b"; s_sign := 1; s_active := true; s_p := fun _ => ser [1; 7] |}] |};
   {| k_name := "Load"; k_branch := false; k_ports := 1; k_comps := [
     {| s_name := "d"; s_carrier := ""; s_bus := fun _ => "a"; s_sign := -(1); s_active := true; s_p := fun _ => ser [0; 5] |};
     {| s_name := "e"; s_carrier := ""; s_bus := fun _ => "b"; s_sign := -(1); s_active := true; s_p := fun _ => ser [5; 5] |}] |}].
Definition ex_args (d : direction) : args :=
  {| a_dir := d; a_time := Sum; a_at_port := true; a_bus_ok := fun _ => true; a_carrier_ok := fun _ => true; a_key := Some (fun a _ => Some (s_carrier a)); a_across := false; a_round := None; a_drop := Some true |}.
Definition w2 (t : nat) : Q := ser [1; 2] t.

(* C43: every entry is the weighted energy (or weighted mean power) of the components of its class and group, over all ports, counted in the direction asked for *)
Theorem C43_value : forall nt wg ws wo r cs c k, a_round r = None -> a_across r = false ->
  reported c k (energy_balance nt wg ws wo r cs) == total (fun cl => if String.eqb c (k_name cl) then energy nt (per_time nt (a_time r) (class_weight wg ws wo c)) r k cl else 0) cs.
Proof. exact reported_energy. Qed.
Print Assumptions C43_value.
Example C43_ex : map fst (energy_balance 2 w2 w2 w2 (ex_args Supply) ex) = [("Link", "dc"); ("Generator", "gas")] /\
  reported "Link" "dc" (energy_balance 2 w2 w2 w2 (ex_args Supply) ex) == 8 /\ reported "Link" "dc" (energy_balance 2 w2 w2 w2 (ex_args Withdrawal) ex) == 8 /\
  reported "Generator" "gas" (energy_balance 2 w2 w2 w2 (ex_args Supply) ex) == 25 /\ reported "Load" "" (energy_balance 2 w2 w2 w2 (ex_args Balance) ex) == -(25).
Proof. vm_compute. repeat split; reflexivity. Qed.

(* C43: supply minus withdrawal is the energy balance, for every grouping, filter and time aggregation *)
Theorem C43_difference : forall nt wg ws wo r cs c k, a_round r = None ->
  reported c k (energy_balance nt wg ws wo (with_dir Supply r) cs) - reported c k (energy_balance nt wg ws wo (with_dir Withdrawal r) cs) == reported c k (energy_balance nt wg ws wo (with_dir Balance r) cs).
Proof. exact difference. Qed.
Print Assumptions C43_difference.

(* C43: and with values rounded to n digits up to three half units of the last *)
Theorem C43_rounded : forall nt wg ws wo r cs c k n, NoDup (map k_name cs) -> a_across r = false -> a_round r = Some n ->
  within (3 * half_unit n) (reported c k (energy_balance nt wg ws wo (with_dir Supply r) cs) - reported c k (energy_balance nt wg ws wo (with_dir Withdrawal r) cs))
    (reported c k (energy_balance nt wg ws wo (with_dir Balance r) cs)).
Proof. exact rounded_difference. Qed.
Print Assumptions C43_rounded.
Example C43_rounded_ex : round_to 1 (1 # 4) == 2 # 10 /\ round_to 1 (35 # 100) == 4 # 10 /\ round_to 0 (-(5 # 2)) == -(2) /\ NoDup (map k_name ex).
Proof. repeat split; try reflexivity. repeat constructor; simpl; intuition discriminate. Qed.

(* C43: supply and withdrawal are not negative *)
Theorem C43_nonnegative : forall nt wg ws wo r cs, a_dir r <> Balance -> (forall t, 0 <= wg t /\ 0 <= ws t /\ 0 <= wo t) ->
  forall e, In e (energy_balance nt wg ws wo r cs) -> 0 <= snd e.
Proof. exact nonneg. Qed.
Print Assumptions C43_nonnegative.

(* C43: weighted means lie between the extreme values, and sums are means times the total weight *)
Theorem C43_mean : forall nt w f lo hi, (forall t, 0 <= w t) -> 0 < sumt w nt -> (forall t, (t < nt)%nat -> lo <= f t <= hi) -> lo <= aggregate_time nt Mean w f <= hi.
Proof. exact mean_bounds. Qed.
Print Assumptions C43_mean.
Theorem C43_sum_of_mean : forall nt w f, 0 < sumt w nt -> aggregate_time nt Sum w f == sumt w nt * aggregate_time nt Mean w f.
Proof. exact sum_is_mean. Qed.
Print Assumptions C43_sum_of_mean.
Example C43_mean_ex : 0 < sumt w2 2 /\ aggregate_time 2 Mean w2 (ser [4; 1]) == 2.
Proof. split; reflexivity. Qed.

(* C43: if power is balanced at a bus in every snapshot, the energy balance of the bus is zero, provided all classes are weighted alike *)
Theorem C43_conservation : forall nt wg ws wo agg cs b, (forall t, wg t == wo t /\ ws t == wo t) -> (forall t, (t < nt)%nat -> inflow_at cs b t == 0) ->
  total (fun e => if String.eqb b (snd (fst e)) then snd e else 0) (energy_balance nt wg ws wo (by_bus agg) cs) == 0.
Proof. exact conservation. Qed.
Print Assumptions C43_conservation.
Example C43_conservation_ex : (forall t, (t < 2)%nat -> inflow_at ex "a" t == 0 /\ inflow_at ex "b" t == 0) /\ List.length (energy_balance 2 w2 w2 w2 (by_bus Sum) ex) = 4%nat.
Proof. split; [|reflexivity]. intros t L. destruct t as [|[|t]]; [split; reflexivity|split; reflexivity|]. exfalso. do 2 apply le_S_n in L. inversion L. Qed.
(* C43: with different weightings of generators and loads it need not be *)
Theorem C43_weightings_refuted : exists cs wg ws wo, (forall t, (t < 1)%nat -> inflow_at cs "b" t == 0) /\
  ~ total (fun e => if String.eqb "b" (snd (fst e)) then snd e else 0) (energy_balance 1 wg ws wo (by_bus Sum) cs) == 0.
Proof. exact weightings_differ. Qed.
Print Assumptions C43_weightings_refuted.

(* C45: whenever drop_zero is set, to True or to False, exactly the non-zero entries are returned *)
Theorem C45_dropped : forall K r (l : list (K * Q)) b, a_round r = None -> a_drop r = Some b -> forall e, In e (apply_options r l) <-> In e l /\ ~ snd e == 0.
Proof. exact @dropped. Qed.
Print Assumptions C45_dropped.
(* C45: only if argument and option are both None everything is *)
Theorem C45_kept : forall K r (l : list (K * Q)), a_round r = None -> a_drop r = None -> apply_options r l = l.
Proof. exact @kept. Qed.
Print Assumptions C45_kept.
Example C45_ex : apply_options (ex_args Balance) [("x", 0); ("y", 3)] = [("y", 3)].
Proof. reflexivity. Qed.
(* C45: hence drop_zero=False drops zero entries *)
Theorem C45_drop_false_refuted : exists cs r e, a_round r = None /\ a_drop r = effective (Some false) (Some true) /\
  In e (all_series 1 (fun _ => 1) (fun _ => 1) (fun _ => 1) r cs) /\ ~ In e (energy_balance 1 (fun _ => 1) (fun _ => 1) (fun _ => 1) r cs).
Proof. exact drop_false. Qed.
Print Assumptions C45_drop_false_refuted.
