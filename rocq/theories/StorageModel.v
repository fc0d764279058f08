From Coq Require Import List String Bool QArith ZArith Arith.
From Verif Require Import LinModel.
Import ListNotations.
Open Scope string_scope.
Open Scope list_scope.
Open Scope Q_scope.

(* Storage: pypsa/optimization/constraints.py 815-975 (storage units 815-900, stores 903-975), variables.py 130-143.
   One store at a time. The factor (1 - standing_loss) ** hours is a parameter: the power function is not modelled. *)
Record storage := {
  s_name : string;
  s_active : nat -> bool;                  (* get_activity_mask *)
  s_stand : nat -> Q;                      (* (1 - standing_loss) ** snapshot weighting *)
  s_init : Q;                              (* state_of_charge_initial / e_initial *)
  s_cyclic : bool;                         (* cyclic_state_of_charge / e_cyclic *)
  s_cyclic_pp : bool;                      (* ..._per_period *)
  s_init_pp : bool                         (* state_of_charge_initial_per_period / e_initial_per_period *)
}.

Section Ops.
Variable T : nat.
(* linopy Variable.ffill along the snapshots *)
Fixpoint ffill (f : nat -> label) (t : nat) : label :=
  match f t with Some v => Some v | None => match t with O => None | S k => ffill f k end end.
(* Variable.roll(snapshot=1) *)
Definition roll (f : nat -> label) (t : nat) : label := match t with O => f (T - 1)%nat | S k => f k end.
Definition where_ (f : nat -> label) (c : nat -> bool) (t : nat) : label := if c t then f t else None.

(* active.cumsum() *)
Fixpoint cumsum (a : nat -> bool) (t : nat) : nat :=
  ((if a t then 1 else 0) + match t with O => 0 | S k => cumsum a k end)%nat.

(* the entry before t in a list, d for the first: rolling the rows of one period *)
Fixpoint pred_in (d : nat) (l : list nat) (t : nat) : nat :=
  match l with [] => d | a :: r => if Nat.eqb a t then d else pred_in a r t end.
End Ops.

Section Storage.
Variable T : nat.
Variable periods : option (nat -> Z).   (* first level of a MultiIndex *)
Variable lev : string.                  (* StorageUnit-state_of_charge / Store-e *)
Variable a : storage.

Definition var_of (v : string) (t : nat) : label := if s_active a t then Some (v, t, s_name a) else None.
Definition level : nat -> label := var_of lev.

(* 846-855 / 928-935 *)
Definition include_previous (t : nat) : bool := if s_cyclic a then true else negb (Nat.eqb (cumsum (s_active a) t) 1).
Definition previous : nat -> label :=
  where_ (ffill (roll T (ffill (where_ level (s_active a))))) include_previous.

Definition same_period (per : nat -> Z) (t s : nat) : bool := Z.eqb (per s) (per t).
Definition block (per : nat -> Z) (t : nat) : list nat := filter (same_period per t) (seq 0 T).
(* 866-892 / 944-966 *)
Definition per_period : bool := s_cyclic_pp a || s_init_pp a.
Definition include_pp (per : nat -> Z) (t : nat) : bool :=
  if s_cyclic a then true else s_active a t && match t with O => false | S k => Z.eqb (per t) (per k) end.
Definition previous_pp (per : nat -> Z) (t : nat) : label :=
  if include_pp per t then level (pred_in (last (block per t) O) (block per t) t) else None.

Definition prev_label (t : nat) : label :=
  match periods with Some per => if per_period then previous_pp per t else previous t | None => previous t end.
Definition included (t : nat) : bool :=
  match periods with Some per => if per_period then include_pp per t else include_previous t | None => include_previous t end.

(* 897-900 / 969-975 *)
Definition energy_balance (flows : nat -> lin) (inflow : nat -> Q) : list con :=
  add_constraints (seq 0 T) [a] (fun t a => s_active a t)
    (fun t _ => {| lhs := (-(1), level t) :: flows t ++ [(s_stand a t, prev_label t)]; sns := Eq;
                   rhs := - inflow t - (if included t then 0 else s_init a) |}).
End Storage.

(* storage units: 833-845, 859 *)
Record unit_data := { eh : nat -> Q; eff_dispatch : nat -> Q; eff_store : nat -> Q; inflow : nat -> Q }.
(* variables.py 138-143 *)
Definition spill_label (a : storage) (d : unit_data) (t : nat) : label :=
  if negb (Qle_bool (inflow d t) 0) then var_of a "StorageUnit-spill" t else None.
Definition spill_bounds (T : nat) (a : storage) (d : unit_data) (x : sol) : Prop :=
  forall t v, (t < T)%nat -> spill_label a d t = Some v -> 0 <= x v /\ x v <= inflow d t.
Definition unit_flows (a : storage) (d : unit_data) (t : nat) : lin :=
  [ (-(1) / eff_dispatch d t * eh d t, var_of a "StorageUnit-p_dispatch" t);
    (eff_store d t * eh d t, var_of a "StorageUnit-p_store" t);
    (- eh d t, spill_label a d t) ].
Definition unit_balance (T : nat) (periods : option (nat -> Z)) (a : storage) (d : unit_data) : list con :=
  energy_balance T periods "StorageUnit-state_of_charge" a (unit_flows a d) (fun t => inflow d t * eh d t).

(* stores: 921-927 *)
Definition store_balance (T : nat) (periods : option (nat -> Z)) (a : storage) (hours : nat -> Q) : list con :=
  energy_balance T periods "Store-e" a (fun t => [(- hours t, var_of a "Store-p" t)]) (fun _ => 0).
