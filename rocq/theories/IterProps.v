From Coq Require Import List Bool QArith ZArith Arith Lqa Lia.
From Verif Require Import IterModel IterSpec IterProofs.
Import ListNotations.
Open Scope list_scope.
Open Scope Q_scope.

Theorem C35_shape : forall u, 0 < u -> forall o mx th fr, 0 <= o ->
  (multiple_of u (discretized_capacity o mx u th fr) /\ 0 <= discretized_capacity o mx u th fr) \/
  (exists m, mx = Some m /\ discretized_capacity o mx u th fr = m).
Proof. exact shape. Qed.
Print Assumptions C35_shape.

Theorem C35_near : forall u, 0 < u -> forall o mx th fr, match mx with Some m => o <= m | None => True end ->
  o - u < discretized_capacity o mx u th fr /\ discretized_capacity o mx u th fr <= o + u.
Proof. exact near. Qed.
Print Assumptions C35_near.

Theorem C35_at_most : forall u, 0 < u -> forall o mx th fr, match mx with Some m => o <= m | None => True end ->
  forall m, mx = Some m -> 0 < th -> discretized_capacity o mx u th fr <= m.
Proof. exact at_most. Qed.
Print Assumptions C35_at_most.

(* rounding follows the threshold if the limit is infinite, a multiple of the unit, or a whole unit away *)
Theorem C35_rule : forall u, 0 < u -> forall o mx th fr, match mx with None => True | Some m => multiple_of u m \/ o + u <= m end ->
  exists k : Z, inject_Z k * u <= o /\ o < (inject_Z k + 1) * u /\
    (th * u <= o - inject_Z k * u -> discretized_capacity o mx u th fr == (inject_Z k + 1) * u) /\
    (o - inject_Z k * u < th * u -> discretized_capacity o mx u th fr == inject_Z k * u).
Proof. exact rule. Qed.
Print Assumptions C35_rule.

Theorem C35_threshold_zero_refuted : discretized_capacity 10 (Some 10) 5 0 false == 15.
Proof. reflexivity. Qed.
Print Assumptions C35_threshold_zero_refuted.

(* otherwise the next multiple may be refused although it is below the limit, and more demand gives less capacity *)
Theorem C35_rounds_up_refuted : 5 <= 8 /\ 3 # 10 <= (49 # 10) / 5 /\ discretized_capacity (49 # 10) (Some 8) 5 (3 # 10) false == 0.
Proof. split; [lra|]. split; [discriminate|reflexivity]. Qed.
Print Assumptions C35_rounds_up_refuted.
Theorem C35_monotone_refuted : discretized_capacity (19 # 10) (Some 7) 5 (3 # 10) false == 5 /\ discretized_capacity (25 # 10) (Some 7) 5 (3 # 10) false == 0.
Proof. split; reflexivity. Qed.
Print Assumptions C35_monotone_refuted.

Example C35_ex : discretized_capacity 7 (Some 25) 5 (1 # 10) false == 10 /\ discretized_capacity 7 (Some 8) 5 (1 # 10) false == 5 /\
  discretized_capacity 7 (Some 8) 5 (1 # 10) true == 8 /\ discretized_capacity 3 (Some 4) 5 (1 # 10) false == 4 /\ discretized_capacity 7 None 5 (1 # 2) true == 5.
Proof. repeat split; reflexivity. Qed.

(* impedance times capacity is kept; the number of optimisations is bounded *)
Theorem C36_scaling : forall optimize diff_ge mn mx th fr ls ls' k,
  (forall i ls os, optimize i ls = Some os -> List.length os = List.length ls /\ forall o, In o os -> 0 < o) ->
  (forall l, In l ls -> l_ext l = true -> 0 < l_opt l) ->
  expand optimize diff_ge mn mx None th fr ls = Some (ls', k) ->
  Forall2 (fun l l' => scaled l l' k) ls ls' /\ (k <= mx)%nat /\ ((k < mx)%nat -> (mn <= S k)%nat) /\ ((0 < mx)%nat -> (1 <= k)%nat).
Proof. exact expand_scaled. Qed.
Print Assumptions C36_scaling.

Theorem C36_restored : forall us th fr l, l_ext l = true -> l_nom (finish us th fr l) = l_nom l /\ l_ext (finish us th fr l) = true.
Proof. exact finish_restores. Qed.
Print Assumptions C36_restored.
Theorem C36_final_capacity : forall us th fr l, l_ext l = true ->
  l_opt (finish us th fr l) = match us with Some u => discretized_capacity (l_opt l) (l_max l) u th fr | None => l_opt l end.
Proof. exact finish_opt. Qed.
Print Assumptions C36_final_capacity.

Definition ex_l (e : bool) (nom opt : Q) : line := {| l_ext := e; l_typed := false; l_ac := true; l_dc := false; l_x := Fin 6; l_r := Fin 1; l_b := Fin 0;
  l_par := Fin 1; l_base := 1; l_nom := nom; l_opt := opt; l_max := None |}.
Definition const_opt (q : Q) : nat -> list line -> option (list Q) := fun _ ls => Some (map (fun _ => q) ls).
Definition seq_opt (f : nat -> Q) : nat -> list line -> option (list Q) := fun i ls => Some (map (fun _ => f i) ls).
Definition never : list Q -> list line -> bool := fun _ _ => false.

(* an ordinary first run (s_nom_opt still at its default 0) makes the reactance of expanded lines 0 *)
Theorem C36_first_iteration_refuted : exists l', expand (const_opt 20) never 1 100 None (3 # 10) false [ex_l true 10 0] = Some ([l'], 1%nat) /\
  l_x (ex_l true 10 0) = Fin 6 /\ l_opt l' == 20 /\ l_x l' = Fin 0.
Proof. eexists. split; [reflexivity|]. split; [reflexivity|]. split; reflexivity. Qed.
Print Assumptions C36_first_iteration_refuted.
(* a line left out in one iteration and chosen in the next has no reactance (NaN) *)
Theorem C36_zero_capacity_refuted : exists l', expand (seq_opt (fun i => if (i =? 1)%nat then 0 else 20)) never 3 100 None (3 # 10) false [ex_l true 10 10] = Some ([l'], 2%nat) /\
  l_opt l' == 20 /\ l_x l' = NaN.
Proof. eexists. split; [reflexivity|]. split; reflexivity. Qed.
Print Assumptions C36_zero_capacity_refuted.
(* min_iterations = 3: two iterations *)
Theorem C36_min_iterations_refuted : exists ls', expand (const_opt 20) never 3 100 None (3 # 10) false [ex_l true 10 10] = Some (ls', 2%nat).
Proof. eexists. reflexivity. Qed.
Print Assumptions C36_min_iterations_refuted.
(* discretising changes the capacity of lines that are not extendable, for good *)
Theorem C36_fixed_lines_refuted : exists l', expand (const_opt 20) never 1 100 (Some 5) (3 # 10) false [ex_l false 7 0] = Some ([l'], 1%nat) /\
  l_nom (ex_l false 7 0) == 7 /\ l_nom l' == 10.
Proof. eexists. split; [reflexivity|]. split; reflexivity. Qed.
Print Assumptions C36_fixed_lines_refuted.

Example C36_ex : exists l', expand (seq_opt (fun i => if (i =? 1)%nat then 15 else 20)) never 3 100 None (3 # 10) false [ex_l true 10 10] = Some ([l'], 2%nat) /\
  0 < l_opt (ex_l true 10 10) /\ l_opt l' == 20 /\ (exists q, l_x l' = Fin q /\ q == 3).
Proof. eexists. split; [reflexivity|]. split; [reflexivity|]. split; [reflexivity|]. eexists. split; [reflexivity|]. reflexivity. Qed.
