From Coq Require Import List String Bool QArith Arith Lia.
From Verif Require Import LinModel LinProofs BalanceModel BalanceSpec BalanceProofs AssignModel AssignSpec AssignProofs.
Import ListNotations.
Open Scope string_scope.
Open Scope list_scope.
Open Scope Q_scope.

(* transformers, and lines without losses: p1 = -p0 *)
Theorem C39_branch : forall x sns v b prev t, sns t = true ->
  exists q, reports (fst (assign_branch x sns v b prev)) t q /\ reports (snd (assign_branch x sns v b prev)) t (- q) /\ q == value x (b_active b) v (b_name b) t.
Proof. exact branch_opposite. Qed.
Print Assumptions C39_branch.
(* with losses: p0 + p1 is the loss and the flow is in the middle *)
Theorem C39_line : forall x sns losses b prev t, sns t = true -> b_active b t = true ->
  exists p0 p1, reports (fst (line_flows x sns losses b prev)) t p0 /\ reports (snd (line_flows x sns losses b prev)) t p1 /\
    p0 + p1 == (if losses then value x (b_active b) "Line-loss" (b_name b) t else 0) /\
    p0 - p1 == 2 * value x (b_active b) "Line-s" (b_name b) t.
Proof. exact line_opposite. Qed.
Print Assumptions C39_line.
Theorem C39_link : forall x sns l bus eff prev0 prev t, sns t = true ->
  exists p0, reports (link_p0 x sns l prev0) t p0 /\ p0 == value x (l_active l) "Link-p" (l_name l) t /\
    reports (link_port x sns l bus eff prev) t (if String.eqb bus "" then 0 else - eff t * p0).
Proof. exact link_ports. Qed.
Print Assumptions C39_link.
Theorem C39_storage_unit : forall x sns c pd ps t, sns t = true ->
  reports (unit_power x sns c pd ps) t (value x (c_active c) "StorageUnit-p_dispatch" (c_name c) t - value x (c_active c) "StorageUnit-p_store" (c_name c) t).
Proof. exact unit_net. Qed.
Print Assumptions C39_storage_unit.

(* reported injection of a bus = reported flows leaving it, for every solution of the nodal balances *)
Theorem C39_injection : forall n losses x T cols thr cs sns t b, nodal_balance n losses T cols thr = Some cs -> (forall b, In b (meshed cols thr) -> In b (buses n)) -> sat x cs ->
  (t < T)%nat -> sns t = true -> In b (buses n) -> b <> "" ->
  (losses = true -> forall c, In c (trafos n) -> value x (b_active c) "Transformer-loss" (b_name c) t == 0) ->
  (forall d, In d (loads n) -> d_active d = false -> d_p d t == 0) ->
  bus_power x sns n b t == outflow n (fun c => line_flows x sns losses c (none, none)) (fun c => trafo_flows x sns c (none, none)) b t.
Proof. exact injection_opt. Qed.
Print Assumptions C39_injection.

(* rolling horizon without losses: later windows keep the flows of earlier ones *)
Theorem C39_rolling : forall b ws prev t x sns, (forall w, In w ws -> snd w t = false) -> sns t = true -> b_active b t = true ->
  reports (fst (roll_line false b ws (line_flows x sns false b prev))) t (x ("Line-s", t, b_name b)) /\
  reports (snd (roll_line false b ws (line_flows x sns false b prev))) t (- x ("Line-s", t, b_name b)).
Proof. exact rolling_keeps. Qed.
Print Assumptions C39_rolling.

(* with losses the flows of all but the last window are lost *)
Theorem C39_rolling_losses_refuted : exists b x, (forall t, b_active b t = true) /\ (forall t, 0 < x ("Line-s", t, b_name b)) /\
  forall prev, fst (roll_line true b [(x, fun t => Nat.ltb t 2); (x, fun t => Nat.leb 2 t)] prev) 0%nat = None.
Proof. exact rolling_loses. Qed.
Print Assumptions C39_rolling_losses_refuted.
(* with losses an inactive line reports NaN, not 0 *)
Theorem C39_inactive_line_refuted : forall b x sns t prev, b_active b t = false -> fst (line_flows x sns true b prev) t = None.
Proof. exact inactive_nan. Qed.
Print Assumptions C39_inactive_line_refuted.
(* losses of transformers are missing in their reported flows *)
Theorem C39_trafo_losses_refuted : exists n x cs b, nodal_balance n true 1 [] 45 = Some cs /\ sat x cs /\ In b (buses n) /\ (forall d, In d (loads n) -> d_active d = true) /\
  ~ bus_power x (fun _ => true) n b 0 == outflow n (fun c => line_flows x (fun _ => true) true c (none, none)) (fun c => trafo_flows x (fun _ => true) c (none, none)) b 0.
Proof. exact trafo_losses. Qed.
Print Assumptions C39_trafo_losses_refuted.
(* inactive loads count in the reported injection though nothing serves them *)
Theorem C39_inactive_load_refuted : exists n x cs b, nodal_balance n false 1 [] 45 = Some cs /\ sat x cs /\ In b (buses n) /\
  ~ bus_power x (fun _ => true) n b 0 == outflow n (fun c => line_flows x (fun _ => true) false c (none, none)) (fun c => trafo_flows x (fun _ => true) c (none, none)) b 0.
Proof. exact inactive_load. Qed.
Print Assumptions C39_inactive_load_refuted.

(* generator at A, a lossy line A-B, a transformer A-B, a link from B to C with efficiency 1/2, loads at B and C *)
Definition ex_n : net := {| buses := ["A"; "B"; "C"]; gens := [{| c_name := "g"; c_bus := "A"; c_sign := 1; c_active := fun _ => true |}]; stores := []; units := [];
  lines := [{| b_name := "l"; b_bus0 := "A"; b_bus1 := "B"; b_active := fun _ => true |}]; trafos := [{| b_name := "t"; b_bus0 := "A"; b_bus1 := "B"; b_active := fun _ => true |}];
  links := [{| l_name := "k"; l_bus0 := "B"; l_bus1 := "C"; l_eff1 := fun _ => 1 # 2; l_ports := [("", fun _ => 3)]; l_active := fun _ => true |}];
  loads := [{| d_bus := "B"; d_sign := -(1); d_p := fun _ => 6; d_active := true |}; {| d_bus := "C"; d_sign := -(1); d_p := fun _ => 4; d_active := true |}] |}.
Definition ex_x : sol := fun v => let w := fst (fst v) in
  if String.eqb w "Generator-p" then 16 else if String.eqb w "Line-s" then 10 else if String.eqb w "Line-loss" then 2 else if String.eqb w "Transformer-s" then 5 else if String.eqb w "Link-p" then 8 else 0.
Example C39_ex : exists cs, nodal_balance ex_n true 1 [] 45 = Some cs /\ sat ex_x cs /\
  (forall c, In c (trafos ex_n) -> value ex_x (b_active c) "Transformer-loss" (b_name c) 0 == 0) /\ (forall d, In d (loads ex_n) -> d_active d = true) /\
  bus_power ex_x (fun _ => true) ex_n "B" 0 == -(14) /\
  outflow ex_n (fun c => line_flows ex_x (fun _ => true) true c (none, none)) (fun c => trafo_flows ex_x (fun _ => true) c (none, none)) "B" 0 == -(14).
Proof.
  eexists. split; [reflexivity|]. split; [apply satb_iff; reflexivity|]. split; [intros c [<-|[]]; reflexivity|]. split; [intros d [<-|[<-|[]]]; reflexivity|]. split; reflexivity.
Qed.
