From Coq Require Import List String Bool QArith ZArith Arith.
From Verif Require Import LinModel StorageModel.
Import ListNotations.
Open Scope string_scope.
Open Scope Q_scope.

(* value of a variable of the store, 0 while inactive *)
Definition value (x : sol) (a : storage) (v : string) (t : nat) : Q := if s_active a t then x (v, t, s_name a) else 0.

Section S.
Variable T : nat.
Variable periods : option (nat -> Z).
Variable a : storage.

(* s is the last snapshot before t at which the store is active; t is the first one; s is the last one *)
Definition precedes (s t : nat) : Prop :=
  (s < t)%nat /\ s_active a s = true /\ forall r, (s < r < t)%nat -> s_active a r = false.
Definition is_first (t : nat) : Prop := forall r, (r < t)%nat -> s_active a r = false.
Definition is_last (s : nat) : Prop := (s < T)%nat /\ s_active a s = true /\ forall r, (s < r < T)%nat -> s_active a r = false.

(* the same within the investment period of t *)
Definition begins_period (per : nat -> Z) (t : nat) : Prop := forall r, (r < t)%nat -> per r <> per t.
Definition ends_period (per : nat -> Z) (t s : nat) : Prop :=
  (s < T)%nat /\ per s = per t /\ forall r, (s < r < T)%nat -> per r <> per t.

(* where the energy at the beginning of snapshot t comes from *)
Inductive source := Initial | From (s : nat).
Definition separate_periods : bool := match periods with None => false | _ => s_cyclic_pp a || s_init_pp a end.
Definition comes_from (t : nat) (src : source) : Prop :=
  match periods, separate_periods with
  | Some per, true =>
      match src with
      | Initial => s_cyclic a = false /\ begins_period per t
      | From s => (S s = t /\ per s = per t) \/ (s_cyclic a = true /\ begins_period per t /\ ends_period per t s)
      end
  | _, _ =>
      match src with
      | Initial => s_cyclic a = false /\ is_first t
      | From s => precedes s t \/ (s_cyclic a = true /\ is_first t /\ is_last s)
      end
  end.

(* the snapshots of a period are consecutive *)
Definition regular : Prop :=
  match periods with
  | None => True
  | Some per => forall s r t, (s < r < t)%nat -> per s = per t -> per r = per t
  end.
End S.

(* energy charged minus energy discharged at t *)
Definition unit_gain (x : sol) (a : storage) (d : unit_data) (t : nat) : Q :=
  eh d t * (eff_store d t * value x a "StorageUnit-p_store" t - value x a "StorageUnit-p_dispatch" t / eff_dispatch d t
            + inflow d t - val x (spill_label a d t)).
Definition store_gain (x : sol) (a : storage) (hours : nat -> Q) (t : nat) : Q := - (hours t * value x a "Store-p" t).

(* the level follows from the source, standing losses and the gain; the initial level is not subject to losses *)
Definition follows (T : nat) (periods : option (nat -> Z)) (a : storage) (lvl gain : nat -> Q) : Prop :=
  forall t src, (t < T)%nat -> s_active a t = true -> comes_from T periods a t src ->
    lvl t == match src with Initial => s_init a | From s => s_stand a t * lvl s end + gain t.

Definition sumto (f : nat -> Q) (l : list nat) : Q := fold_right (fun t s => f t + s) 0 l.
Fixpoint decay (stand : nat -> Q) (s k : nat) : Q :=   (* product of the factors of s+1, ..., s+k *)
  match k with O => 1 | S k => decay stand s k * stand (s + S k)%nat end.

(* a cycle: the whole horizon, or one period *)
Definition cycle (T : nat) (periods : option (nat -> Z)) (a : storage) (l : list nat) : Prop :=
  match periods, separate_periods periods a with
  | Some per, true => exists t0, (t0 < T)%nat /\ l = filter (fun s => Z.eqb (per s) (per t0)) (seq 0 T) /\ forall t, In t l -> s_active a t = true
  | _, _ => l = filter (s_active a) (seq 0 T)
  end.

