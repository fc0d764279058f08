From Coq Require Import List String Bool QArith Arith.
From Verif Require Import StatsModel.
From Verif Require BalanceSpec.
Import ListNotations.
Open Scope string_scope.
Open Scope list_scope.
Open Scope Q_scope.
Notation total := BalanceSpec.total.

(* the value reported for a class and key, 0 if there is none *)
Definition reported (c k : string) (l : list ((string * string) * Q)) : Q :=
  total (fun e => if pair_eqb (c, k) (fst e) then snd e else 0) l.
Definition within (e q p : Q) : Prop := - e <= q - p /\ q - p <= e.
Definition half_unit (k : nat) : Q := (1 # 2) / ten k.
Definition with_dir (d : direction) (r : args) : args :=
  {| a_dir := d; a_time := a_time r; a_at_port := a_at_port r; a_bus_ok := a_bus_ok r; a_carrier_ok := a_carrier_ok r; a_key := a_key r; a_across := a_across r; a_round := a_round r; a_drop := a_drop r |}.

(* power given to the bus of a port: branches withdraw p *)
Definition injected (c : class) (a : comp) (k t : nat) : Q := if k_branch c then - s_p a k t else s_sign a * s_p a k t.
(* what flows into a bus at a snapshot *)
Definition inflow_at (cs : list class) (b : string) (t : nat) : Q :=
  total (fun c => total (fun a => total (fun k => if s_active a && String.eqb (s_bus a k) b then injected c a k t else 0) (seq 0 (k_ports c))) (k_comps c)) cs.
(* all components by bus *)
Definition by_bus (agg : time) : args :=
  {| a_dir := Balance; a_time := agg; a_at_port := true; a_bus_ok := fun _ => true; a_carrier_ok := fun _ => true; a_key := Some (fun a k => Some (s_bus a k)); a_across := false; a_round := None; a_drop := Some true |}.

From Coq Require Import Qminmax.
(* power counted in each direction *)
Definition share (d : direction) (p : Q) : Q := match d with Balance => p | Supply => Qmax 0 p | Withdrawal => Qmax 0 (- p) end.
Definition chosen (r : args) (k : string) (a : comp) (port : nat) : bool :=
  s_active a && a_bus_ok r (s_bus a port) && a_carrier_ok r (s_carrier a) &&
  match a_key r with None => String.eqb k (s_name a) | Some key => match key a port with Some k' => String.eqb k k' | None => false end end.
(* weighted energy of the chosen components of a class at the chosen ports *)
Definition energy (nt : nat) (w : nat -> Q) (r : args) (k : string) (c : class) : Q :=
  total (fun a => total (fun port => if chosen r k a port then total (fun t => w t * share (a_dir r) (injected c a port t)) (seq 0 nt) else 0)
    (if a_at_port r then seq 0 (k_ports c) else [O])) (k_comps c).
(* the snapshot weighting of a class *)
Definition class_weight (wg ws wo : nat -> Q) (c : string) (t : nat) : Q :=
  if string_dec c "Generator" then wg t else if string_dec c "StorageUnit" then ws t else if string_dec c "Store" then ws t else wo t.
(* the same divided by the total weight, for means *)
Definition per_time (nt : nat) (agg : time) (w : nat -> Q) (t : nat) : Q := match agg with Sum => w t | Mean => w t / total w (seq 0 nt) end.
