From Coq Require Import List String Bool QArith ZArith Arith.
From Verif Require Import LinModel ObjectiveModel.
From Verif Require BalanceSpec.
Import ListNotations.
Open Scope string_scope.
Open Scope list_scope.
Open Scope Q_scope.
Notation total := BalanceSpec.total.

(* values of the variables of an asset, 0 where it is inactive or has none *)
Definition is (a : asset) (l : list string) : bool := existsb (String.eqb (a_class a)) l.
Definition at_ (x : sol) (a : asset) (v : string) (t : nat) : Q := if a_on a t then x (v, t, a_name a) else 0.
Definition dispatch (x : sol) (a : asset) (t : nat) : Q :=
  if is a ["StorageUnit"] then at_ x a "StorageUnit-p_dispatch" t
  else if is a ["Generator"] then at_ x a "Generator-p" t else if is a ["Link"] then at_ x a "Link-p" t
  else if is a ["Store"] then at_ x a "Store-p" t else 0.
Definition stored (x : sol) (a : asset) (t : nat) : Q :=
  if is a ["StorageUnit"] then at_ x a "StorageUnit-state_of_charge" t else if is a ["Store"] then at_ x a "Store-e" t else 0.
Definition spilled (x : sol) (a : asset) (t : nat) : Q :=
  if is a ["StorageUnit"] && positive (a_inflow a t) then at_ x a "StorageUnit-spill" t else 0.
Definition unit_value (x : sol) (what : string) (a : asset) (t : nat) : Q :=
  if a_com a then
    if is a ["Generator"] then at_ x a ("Generator-" ++ what) t else if is a ["Link"] then at_ x a ("Link-" ++ what) t else 0
  else 0.
Definition capacity (x : sol) (a : asset) : Q :=
  if a_ext a then
    x (if is a ["Generator"] then "Generator-p_nom" else if is a ["Line"] then "Line-s_nom" else if is a ["Transformer"] then "Transformer-s_nom"
       else if is a ["Link"] then "Link-p_nom" else if is a ["Store"] then "Store-e_nom" else "StorageUnit-p_nom", O, a_name a)
  else a_nom a.

(* costs of running an asset for a snapshot *)
Definition running (x : sol) (a : asset) (t : nat) : Q :=
  a_marginal a t * dispatch x a t + a_quadratic a t * (dispatch x a t * dispatch x a t) +
  a_storage a t * stored x a t + a_spill a t * spilled x a t + a_standby a t * unit_value x "status" a t.
Definition starts (x : sol) (a : asset) (t : nat) : Q := a_start a * unit_value x "start_up" a t + a_shut a * unit_value x "shut_down" a t.

Definition known (n : net) : Prop := forall a, In a (assets n) -> is a ["Generator"; "Line"; "Transformer"; "Link"; "Store"; "StorageUnit"] = true.
Definition days (n : net) : list nat := seq 0 (nsnaps n).

(* costs beyond those of the existing capacities *)
Definition expansion (n : net) (x : sol) (price : asset -> Q) : Q := total (fun a => price a * (capacity x a - a_nom a)) (assets n).
Definition operating (n : net) (x : sol) (weight : nat -> Q) : Q := total (fun t => weight t * total (fun a => running x a t) (assets n)) (days n).
Definition switching_cost (n : net) (x : sol) : Q := total (fun t => total (fun a => starts x a t) (assets n)) (days n).

(* the costs of switching of a class do not cancel out *)
Definition proper (n : net) (f : asset -> Q) : Prop := forall a, In a (assets n) -> 0 <= f a.

(* costs of one investment period: what is active in it, and its snapshots *)
Definition of_period (n : net) (x : sol) (per_snapshot : asset -> nat -> Q) (p : Z) : Q :=
  total (fun a => if a_in a p then a_capital a * (capacity x a - a_nom a) else 0) (assets n) +
  total (fun t => if Z.eqb (per n t) p then total (fun a => per_snapshot a t) (assets n) else 0) (days n).
Definition has_inflow (n : net) (a : asset) : Prop := exists t, (t < nsnaps n)%nat /\ 0 < a_inflow a t.
Definition has_cost (n : net) (f : nat -> Q) : Prop := exists t, (t < nsnaps n)%nat /\ ~ f t == 0.
