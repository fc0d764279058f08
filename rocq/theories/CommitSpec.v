From Coq Require Import List String Bool QArith ZArith Arith.
From Verif Require Import LinModel CommitModel.
Import ListNotations.
Open Scope Q_scope.

(* a schedule: on/off per snapshot, with the state before the horizon *)
Section S.
Variable u : unit_.
Variable T : nat.
Variable before : bool.        (* on just before the horizon *)
Variable on : nat -> bool.

Definition was (t : nat) : bool := match t with O => before | S k => on k end.
Definition starts (t : nat) : bool := negb (was t) && on t.
Definition stops (t : nat) : bool := was t && negb (on t).

(* started at t, it stays on for k snapshots; inactive snapshots aside *)
Definition respects_up (k : nat) : Prop :=
  forall t s, (s < T)%nat -> (t <= s < t + k)%nat -> u_active u t = true -> u_active u s = true ->
    starts t = true -> on s = true.
Definition respects_down (k : nat) : Prop :=
  forall t s, (s < T)%nat -> (t <= s < t + k)%nat -> u_active u t = true -> u_active u s = true ->
    stops t = true -> on s = false.
End S.

Definition b2q (b : bool) : Q := if b then 1 else 0.
(* the solution x runs the unit according to the schedule *)
Definition runs (cls : string) (u : unit_) (T : nat) (x : sol) (on : nat -> bool) : Prop :=
  forall t, (t < T)%nat -> val x (status cls u t) == b2q (on t).

(* how long the unit has been in state b before the horizon *)
Fixpoint lead (b : bool) (h : list Z) : nat :=
  match h with
  | x :: r => if Bool.eqb (Z.eqb x 1) b then S (lead b r) else O
  | [] => O
  end.
Definition is_01 (h : list Z) : Prop := forall x, In x h -> x = 0%Z \/ x = 1%Z.

(* a generator running as scheduled: between its limits when on, at zero when off, ramping within its limits *)
Section Operation.
Variable u : unit_.
Variable T : nat.
Variable before : bool.
Variable on : nat -> bool.
Variable p : nat -> Q.
Definition operates : Prop :=
  (forall t, (t < T)%nat -> if on t then lower_p u t <= p t /\ p t <= upper_p u t else p t == 0) /\
  (forall t, (S t < T)%nat ->
     (on t = true -> on (S t) = true -> p (S t) - p t <= r_up u /\ p t - p (S t) <= r_down u) /\
     (starts before on (S t) = true -> p (S t) <= r_start u) /\
     (stops before on (S t) = true -> p t <= r_shut u)).
(* x says the same *)
Definition follows (cls : string) (x : sol) : Prop :=
  forall t, (t < T)%nat -> val x (status cls u t) == b2q (on t) /\ val x (start_up cls u t) == b2q (starts before on t) /\
    val x (shut_down cls u t) == b2q (stops before on t) /\ val x (power cls u t) == p t.
End Operation.
