From Coq Require Import List String Bool QArith ZArith Arith Lqa Lia.
From Verif Require Import LinModel LinProofs CommitModel CommitSpec CommitProofs.
Import ListNotations.
Open Scope string_scope.
Open Scope list_scope.
Open Scope Q_scope.

(* every feasible on/off schedule respects minimum up and down times, pays for its transitions and honours the state
   before the horizon *)
Theorem C28_sound cls u T rolling x on :
  sat x (commitment cls u T rolling) -> binary cls u T x -> runs cls u T x on ->
  respects_up u T (initially_up u rolling) on (min_up u) /\
  respects_down u T (initially_up u rolling) on (min_down u) /\
  (forall t, (t < T)%nat -> u_active u t = true ->
     (starts (initially_up u rolling) on t = true -> val x (start_up cls u t) == 1) /\
     (stops (initially_up u rolling) on t = true -> val x (shut_down cls u t) == 1)) /\
  (forall t, (t < T)%nat -> u_active u t = true ->
     (initially_up u rolling = true -> (t < min_up u - up_before_set u rolling)%nat -> on t = true) /\
     (initially_down u rolling = true -> (t < min_down u - down_before_set u rolling)%nat -> on t = false)).
Proof.
  exact (fun S B R => conj (sound_up cls u T rolling x on S B R) (conj (sound_down cls u T rolling x on S B R)
    (conj (sound_transitions cls u T rolling x on S B R) (sound_initial cls u T rolling x on S R)))).
Qed.
Print Assumptions C28_sound.

(* and every such schedule is feasible, with start-up and shut-down variables set only at actual transitions *)
Theorem C28_complete cls u T rolling on :
  (forall t, (t < T)%nat -> u_active u t = true) ->
  respects_up u T (initially_up u rolling) on (min_up u) ->
  respects_down u T (initially_up u rolling) on (min_down u) ->
  (initially_up u rolling = true -> forall t, (t < T)%nat -> (t < min_up u - up_before_set u rolling)%nat -> on t = true) ->
  (initially_down u rolling = true -> forall t, (t < T)%nat -> (t < min_down u - down_before_set u rolling)%nat -> on t = false) ->
  exists x, runs cls u T x on /\ binary cls u T x /\ sat x (commitment cls u T rolling) /\
    forall t, (t < T)%nat -> val x (start_up cls u t) = b2q (starts (initially_up u rolling) on t) /\
                             val x (shut_down cls u t) = b2q (stops (initially_up u rolling) on t).
Proof. exact (complete_ex cls u T rolling on). Qed.
Print Assumptions C28_complete.

(* in a later optimisation window the remaining run lengths are those of the solved past *)
Theorem C28_rolling_state cls u T x on :
  is_01 (hist u) -> sat x (commitment cls u T true) -> runs cls u T x on ->
  forall t, (t < T)%nat -> u_active u t = true ->
    ((0 < lead true (hist u))%nat -> (0 < min_up u)%nat -> (t + lead true (hist u) < min_up u)%nat -> on t = true) /\
    ((0 < lead false (hist u))%nat -> (0 < min_down u)%nat -> (t + lead false (hist u) < min_down u)%nat -> on t = false).
Proof. exact (rolling_run cls u T x on). Qed.
Print Assumptions C28_rolling_state.

Theorem C28_rolling_before u : is_01 (hist u) -> (0 < min_up u)%nat ->
  initially_up u true = Nat.ltb 0 (lead true (hist u)).
Proof. exact (rolling_before u). Qed.
Print Assumptions C28_rolling_before.

(* a unit without minimum up time that has been running is taken for stopped at the start of a later window: staying on
   costs a start-up *)
Theorem C28_rolling_spurious_start_refuted :
  exists u, hist u = [1; 1; 1]%Z /\ (forall t, u_active u t = true) /\
    forall x, sat x (commitment "Generator" u 2 true) -> val x (status "Generator" u 0) == 1 ->
      1 <= val x (start_up "Generator" u 0).
Proof. exact spurious_start. Qed.
Print Assumptions C28_rolling_spurious_start_refuted.

(* and it may stop and start again at once, whatever its minimum down time *)
Theorem C28_rolling_min_down_refuted :
  exists u x on, hist u = [1; 1; 1]%Z /\ (forall t, u_active u t = true) /\ min_down u = 3%nat /\
    binary "Generator" u 2 x /\ sat x (commitment "Generator" u 2 true) /\ runs "Generator" u 2 x on /\
    on 0%nat = false /\ on 1%nat = true.
Proof. exact rolling_min_down. Qed.
Print Assumptions C28_rolling_min_down_refuted.

(* linearised unit commitment: the additional constraints keep every operation with whole units, provided the limits are
   constant and the shut-down ramp is at most the ramp-down limit plus the minimum output *)
Theorem C50_keeps_schedules cls u T rolling x on p :
  (forall t, (t < T)%nat -> u_active u t = true) ->
  (forall t, (t < T)%nat -> lower_p u t == lower_p u 0%nat /\ upper_p u t == upper_p u 0%nat) ->
  r_shut u <= r_down u + lower_p u 0%nat ->
  operates u T (initially_up u rolling) on p -> follows u T (initially_up u rolling) on p cls x ->
  sat x (tighten cls u T).
Proof. exact (tighten_keeps cls u T rolling x on p). Qed.
Print Assumptions C50_keeps_schedules.

(* otherwise they can forbid starting the unit at all: minimum output 2 of 10, ramp-down limit 1, default shut-down limit *)
Theorem C50_can_never_start_refuted :
  exists u on p, operates u 2 (initially_up u false) on p /\ starts (initially_up u false) on 1 = true /\
    (forall t, u_active u t = true) /\
    forall x, relaxed "Generator" u 2 x ->
      sat x (commitment "Generator" u 2 false ++ limits "Generator" u 2 ++ tighten "Generator" u 2) ->
      val x (status "Generator" u 0) == 0 -> val x (status "Generator" u 1) == 0.
Proof. exact never_start. Qed.
Print Assumptions C50_can_never_start_refuted.

(* and with a falling availability they forbid staying on *)
Theorem C50_falling_availability_refuted :
  exists u on p, operates u 2 (initially_up u false) on p /\ (forall t, u_active u t = true) /\
    r_shut u <= r_down u + lower_p u 0 /\
    forall x, follows u 2 (initially_up u false) on p "Generator" x -> ~ sat x (tighten "Generator" u 2).
Proof. exact falling. Qed.
Print Assumptions C50_falling_availability_refuted.

(* minimum up time 2, minimum down time 3, running for one snapshot before: on, off three times, on, on *)
Example C28_ex :
  let u := ex_u 2 3 [] in
  exists x, binary "Generator" u 6 x /\ runs "Generator" u 6 x ex_on /\ sat x (commitment "Generator" u 6 false) /\
    val x (start_up "Generator" u 4) == 1 /\ val x (shut_down "Generator" u 1) == 1.
Proof. exact ex_feasible. Qed.
Example C28_ex_rolling : let u := ex_u 3 2 [1; 1; 0; 1]%Z in is_01 (hist u) /\ lead true (hist u) = 2%nat /\
  exists x, sat x (commitment "Generator" u 3 true) /\ runs "Generator" u 3 x (fun t => Nat.eqb t 0).
Proof. exact ex_rolling. Qed.
Example C50_ex :
  let u := ex_u 2 3 [] in
  exists x, operates u 6 (initially_up u false) ex_on ex_p /\ follows u 6 (initially_up u false) ex_on ex_p "Generator" x /\
    r_shut u <= r_down u + lower_p u 0.
Proof. exact ex_tighten. Qed.
