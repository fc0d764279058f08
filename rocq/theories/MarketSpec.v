From Coq Require Import List String Bool QArith Qminmax Arith.
From Verif Require Import StatsModel StatsSpec MarketModel.
Import ListNotations.
Open Scope string_scope.
Open Scope list_scope.
Open Scope Q_scope.

(* the price at a bus, 0 if none is known *)
Definition price_at (prices : string -> option (nat -> Q)) (b : string) (t : nat) : Q := match prices b with Some f => f t | None => 0 end.
(* all power, what is bought, what is sold *)
Definition traded (d : flow) (p : Q) : Q := match d with Any => p | Input => Qmin 0 p | Output => Qmax 0 p end.
(* what the chosen components of a class earn at the chosen ports *)
Definition money (nt : nat) (w : nat -> Q) (prices : string -> option (nat -> Q)) (d : flow) (r : args) (k : string) (c : class) : Q :=
  total (fun a => total (fun port => if chosen r k a port then total (fun t => w t * (traded d (injected c a port t) * price_at prices (s_bus a port) t)) (seq 0 nt) else 0)
    (if a_at_port r then seq 0 (k_ports c) else [O])) (k_comps c).
Definition earned (nt : nat) (wg ws wo : nat -> Q) (prices : string -> option (nat -> Q)) (d : flow) (r : args) (cs : list class) (c k : string) : Q :=
  total (fun cl => if String.eqb c (k_name cl) then money nt (per_time nt (a_time r) (class_weight wg ws wo c)) prices d r k cl else 0) cs.
Definition sold (nt : nat) (wg ws wo : nat -> Q) (r : args) (cs : list class) (c k : string) : Q :=
  total (fun cl => if String.eqb c (k_name cl) then energy nt (per_time nt (a_time r) (class_weight wg ws wo c)) (with_dir Supply r) k cl else 0) cs.
Definition with_time (agg : time) (r : args) : args :=
  {| a_dir := a_dir r; a_time := agg; a_at_port := a_at_port r; a_bus_ok := a_bus_ok r; a_carrier_ok := a_carrier_ok r; a_key := a_key r; a_across := a_across r; a_round := a_round r; a_drop := a_drop r |}.
(* every component, at every port, in some group *)
Definition everything (r : args) : Prop :=
  a_at_port r = true /\ (forall b, a_bus_ok r b = true) /\ (forall c, a_carrier_ok r c = true) /\ forall key, a_key r = Some key -> forall a p, key a p <> None.
(* a group which never takes power, at prices between lo and hi *)
Definition sells_only (nt : nat) (prices : string -> option (nat -> Q)) (r : args) (cs : list class) (c k : string) (lo hi : Q) : Prop :=
  forall cl a p t, In cl cs -> k_name cl = c -> In a (k_comps cl) -> In p (if a_at_port r then seq 0 (k_ports cl) else [O]) -> chosen r k a p = true -> (t < nt)%nat ->
  0 <= injected cl a p t /\ lo <= price_at prices (s_bus a p) t <= hi.
