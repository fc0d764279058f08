From Coq Require Import List String Bool QArith ZArith Arith.
From Verif Require Import LinModel DispatchModel RampModel RampSpec CommitModel CommitSpec CommitProofs RollingModel RolluModel RolluSpec RolluProofs.
Import ListNotations.
Open Scope string_scope.
Open Scope list_scope.
Open Scope Q_scope.

(* whatever feasible solutions the windows get, the statuses stored after all of them form one schedule that keeps the
   minimum up and down times and the state inherited from before the horizon, and the stored start-ups and shut-downs
   count at least its transitions *)
Theorem C77_schedule : forall len horizon overlap cls u optimize n ws,
  (0 <= overlap < horizon)%Z -> windows len horizon overlap = Windows ws -> (forall t, u_active u t = true) -> (0 < min_up u)%nat ->
  run_ok optimize (commits cls u) 0 ws n ->
  let r := res (loop optimize 0 ws n) in let before := Nat.ltb 0 (up_before u) in
  exists on, shows r cls u len on /\ respects_up u len before on (min_up u) /\ respects_down u len before on (min_down u) /\
    keeps_initial u len on /\ pays r cls u len before on.
Proof. exact schedule. Qed.
Print Assumptions C77_schedule.

(* it is feasible for one optimisation of the whole horizon, where it costs no more start-ups and shut-downs *)
Theorem C77_whole_horizon : forall len horizon overlap cls u optimize n ws,
  (0 <= overlap < horizon)%Z -> windows len horizon overlap = Windows ws -> (forall t, u_active u t = true) -> (0 < min_up u)%nat ->
  run_ok optimize (commits cls u) 0 ws n ->
  let r := res (loop optimize 0 ws n) in
  exists x, sat x (commitment cls u len false) /\ binary cls u len x /\
    forall t, (t < len)%nat -> val x (status cls u t) == r (cls ++ "-status", t, u_name u)%string /\
      val x (start_up cls u t) <= r (cls ++ "-start_up", t, u_name u)%string /\
      val x (shut_down cls u t) <= r (cls ++ "-shut_down", t, u_name u)%string.
Proof. exact whole. Qed.
Print Assumptions C77_whole_horizon.

(* ramp limits of assets with given capacity hold across the borders of the windows: the stored dispatch is feasible for the
   ramp constraints of the whole horizon *)
Theorem C77_ramps : forall cls nattr assets,
  (forall a : rasset, In a assets -> ext a = false) -> (forall (a : rasset) t, In a assets -> active a t = true) -> limited assets ->
  forall len horizon overlap optimize n ws,
  (0 <= overlap < horizon)%Z -> windows len horizon overlap = Windows ws -> run_ok optimize (ramp_ok cls nattr assets) 0 ws n ->
  let r := res (loop optimize 0 ws n) in
  (forall (a : rasset) k, In a assets -> (S k < len)%nat ->
    (com a = false -> ramps_within cls r a (S k) (nom a)) /\ (com a = true -> com_within cls r a (S k))) /\
  sat r (ramps cls nattr len false assets).
Proof. exact ramps_run. Qed.
Print Assumptions C77_ramps.

(* without a minimum up time the minimum down time is broken at a border, and the shut-down goes unnoticed *)
Theorem C77_min_up_zero_refuted : exists u optimize, min_down u = 3%nat /\ min_up u = 0%nat /\ up_before u = 1%nat /\ (forall t, u_active u t = true) /\
  windows 4 2 0 = Windows [(0, 2); (2, 4)]%nat /\ run_ok optimize (commits "Generator" u) 0 [(0, 2); (2, 4)]%nat net0 /\
  let r := res (loop optimize 0 [(0, 2); (2, 4)]%nat net0) in
  map (fun t => r ("Generator-status", t, u_name u)%nat) [0; 1; 2; 3]%nat = [1; 1; 0; 1] /\
  map (fun t => r ("Generator-shut_down", t, u_name u)%nat) [0; 1; 2; 3]%nat = [0; 0; 0; 0].
Proof. exact min_up_zero. Qed.
Print Assumptions C77_min_up_zero_refuted.

(* later windows forget how long the unit had been running before the horizon: a stop that one optimisation of the whole
   horizon allows is impossible *)
Theorem C77_time_before_refuted : windows 2 1 0 = Windows [(0, 1); (1, 2)]%nat /\
  (exists x, sat x (commitment "Generator" veteran 2 false) /\ binary "Generator" veteran 2 x /\
     val x (status "Generator" veteran 0) == 1 /\ val x (status "Generator" veteran 1) == 0) /\
  forall optimize n, run_ok optimize (commits "Generator" veteran) 0 [(0, 1); (1, 2)]%nat n ->
    let r := res (loop optimize 0 [(0, 1); (1, 2)]%nat n) in
    r ("Generator-status", 0%nat, "g") == 1 -> r ("Generator-status", 1%nat, "g") == 1.
Proof. exact forgets_before. Qed.
Print Assumptions C77_time_before_refuted.

(* three overlapping windows: on, off for three snapshots, on *)
Example C77_ex : windows 6 3 1 = Windows [(0, 3); (2, 5); (4, 6)]%nat /\
  run_ok (planned plan1) (commits "Generator" (ex_u 2 3 [])) 0 [(0, 3); (2, 5); (4, 6)]%nat net0.
Proof. exact ex_run. Qed.
(* a fixed and a committed generator in two windows *)
Example C77_ex_ramps : limited r_assets /\ (forall a : rasset, In a r_assets -> ext a = false /\ forall t, active a t = true) /\
  windows 4 2 0 = Windows [(0, 2); (2, 4)]%nat /\ run_ok (planned r_plan) (ramp_ok "Generator" "p_nom" r_assets) 0 [(0, 2); (2, 4)]%nat net0.
Proof. exact ex_ramps. Qed.
