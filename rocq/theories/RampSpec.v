From Coq Require Import List String Bool QArith Arith.
From Verif Require Import LinModel DispatchModel RampModel.
Import ListNotations.
Open Scope string_scope.
Open Scope Q_scope.

(* dispatch and status one snapshot earlier, from the solved past at the beginning of a later window *)
Definition p_of (cls : string) (x : sol) (a : rasset) (t : nat) : Q := reported cls x "p" a t.
Definition s_of (cls : string) (x : sol) (a : rasset) (t : nat) : Q := reported cls x "status" a t.
Definition p_prev (cls : string) (x : sol) (a : rasset) (t : nat) : Q :=
  match t with O => p_start a | S k => p_of cls x a k end.
Definition s_prev (cls : string) (x : sol) (a : rasset) (t : nat) : Q :=
  match t with O => status_start a | S k => s_of cls x a k end.

(* snapshots with a predecessor *)
Definition has_prev (rolling : bool) (T t : nat) : Prop := (t < T)%nat /\ (rolling = true \/ (0 < t)%nat).

(* the change of dispatch is within the given limits *)
Definition ramps_within (cls : string) (x : sol) (a : rasset) (t : nat) (c : Q) : Prop :=
  (forall l, up a t = Some l -> p_of cls x a t - p_prev cls x a t <= l * c) /\
  (forall l, down a t = Some l -> p_prev cls x a t - p_of cls x a t <= l * c).

(* the constraints generated for a committable unit, by transition; b = before, a = after *)
Definition com_within (cls : string) (x : sol) (a : rasset) (t : nat) : Prop :=
  (forall l, up_static a = Some l ->
     (s_prev cls x a t == 1 -> s_of cls x a t == 1 -> p_of cls x a t - p_prev cls x a t <= l * nom a) /\
     (s_prev cls x a t == 0 -> s_of cls x a t == 1 -> p_of cls x a t <= start_lim a * nom a) /\
     (s_prev cls x a t == 1 -> s_of cls x a t == 0 -> (start_lim a - l) * nom a <= p_prev cls x a t)) /\
  (forall l, down_static a = Some l ->
     (s_prev cls x a t == 1 -> s_of cls x a t == 1 -> p_prev cls x a t - p_of cls x a t <= l * nom a) /\
     (s_prev cls x a t == 1 -> s_of cls x a t == 0 -> p_prev cls x a t <= shut_lim a * nom a) /\
     (s_prev cls x a t == 0 -> s_of cls x a t == 1 -> (shut_lim a - l) * nom a <= p_of cls x a t)).

(* a unit is on or off and produces nothing when off *)
Definition on_off (cls : string) (x : sol) (a : rasset) (t : nat) : Prop :=
  (s_of cls x a t == 0 \/ s_of cls x a t == 1) /\ (s_prev cls x a t == 0 \/ s_prev cls x a t == 1) /\
  (s_of cls x a t == 0 -> p_of cls x a t == 0) /\ (s_prev cls x a t == 0 -> p_prev cls x a t == 0).

(* some limit of the class is set, and some limit is not 1 *)
Definition has_limit (T : nat) (assets : list rasset) : Prop :=
  exists a t l, In a assets /\ (t < T)%nat /\ (up a t = Some l \/ down a t = Some l).
Definition has_limit_not_one (T : nat) (assets : list rasset) : Prop :=
  exists a t, In a assets /\ (t < T)%nat /\
    ((forall l, up a t = Some l -> ~ l == 1) \/ (forall l, down a t = Some l -> ~ l == 1)).
