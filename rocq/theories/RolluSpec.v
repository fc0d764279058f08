From Coq Require Import List String Bool QArith ZArith Arith.
From Verif Require Import LinModel DispatchModel RampModel CommitModel CommitSpec RollingModel RolluModel.
Import ListNotations.
Open Scope string_scope.
Open Scope list_scope.
Open Scope Q_scope.

(* the run is solved throughout: each window it meets returns a solution, and ok holds of it *)
Fixpoint run_ok (optimize : nat -> nat * nat -> net -> option sol) (ok : nat * nat -> net -> sol -> Prop)
  (i : nat) (ws : list (nat * nat)) (n : net) : Prop :=
  match ws with
  | [] => True
  | w :: r => let n1 := match i with O => n | S _ => hand_over (fst w) n end in
      exists x, optimize i w n1 = Some x /\ ok w n1 x /\ run_ok optimize ok (S i) r (assign w x n1)
  end.

(* feasible for the unit commitment of the window *)
Definition commits (cls : string) (u : unit_) (w : nat * nat) (n : net) (x : sol) : Prop :=
  sat x (window_commitment cls u w n) /\ window_binary cls u w n x.

(* feasible for the ramp limits of the window, committed units being on or off and off units at zero *)
Definition ramp_ok (cls nattr : string) (assets : list rasset) (w : nat * nat) (n : net) (x : sol) : Prop :=
  sat x (window_ramps cls nattr assets w n) /\
  forall (a : rasset) j, In a assets -> com a = true -> (fst w + j < snd w)%nat ->
    (x (cls ++ "-status", j, name a)%string == 0 /\ x (cls ++ "-p", j, name a)%string == 0) \/ x (cls ++ "-status", j, name a)%string == 1.

(* the stored statuses follow the schedule *)
Definition shows (r : sol) (cls : string) (u : unit_) (len : nat) (on : nat -> bool) : Prop :=
  forall t, (t < len)%nat -> r (cls ++ "-status", t, u_name u)%string == b2q (on t).
(* the state inherited from before the horizon is kept for the rest of the minimum time *)
Definition keeps_initial (u : unit_) (len : nat) (on : nat -> bool) : Prop :=
  forall t, (t < len)%nat ->
    ((0 < up_before u)%nat -> (t + up_before u < min_up u)%nat -> on t = true) /\
    ((0 < down_before u)%nat -> (t + down_before u < min_down u)%nat -> on t = false).
(* the stored start-ups and shut-downs are at least those of the schedule *)
Definition pays (r : sol) (cls : string) (u : unit_) (len : nat) (before : bool) (on : nat -> bool) : Prop :=
  forall t, (t < len)%nat ->
    b2q (starts before on t) <= r (cls ++ "-start_up", t, u_name u)%string /\
    b2q (stops before on t) <= r (cls ++ "-shut_down", t, u_name u)%string.

(* some asset of the class has an upward limit other than 1 throughout *)
Definition limited (assets : list rasset) : Prop :=
  exists a, In a assets /\ forall t, exists l, up a t = Some l /\ ~ l == 1.
