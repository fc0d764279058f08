From Coq Require Import List String Bool QArith Qminmax Qabs Arith.
From Verif Require Import StatsModel StatsSpec MarketModel CapfacModel.
Import ListNotations.
Open Scope string_scope.
Open Scope list_scope.
Open Scope Q_scope.

(* classes with a capacity *)
Definition sized (c : string) : Prop := In c ["Generator"; "Line"; "Transformer"; "Link"; "Store"; "StorageUnit"].
(* a quantity by component and port, over a group *)
Definition group_total (r : args) (cs : list class) (f : class -> comp -> nat -> Q) (c k : string) : Q :=
  total (fun cl => if String.eqb c (k_name cl) then total (fun a => total (fun p => if chosen r k a p then f cl a p else 0) (if a_at_port r then seq 0 (k_ports cl) else [O])) (k_comps cl) else 0) cs.
(* what a unit of capacity gives to the bus of a port: -1 where power is taken, the efficiency where it is delivered *)
Definition at_bus (efficiency : string -> nat -> option (string -> Q)) (cl : class) (a : comp) (p : nat) : Q :=
  if k_branch cl then if Nat.eqb p 0 then -(1) else match efficiency (k_name cl) p with Some f => f (s_name a) | None => 1 end else 1.
Definition rounded (r : args) (q : Q) : Q := match a_round r with Some n => round_to n q | None => q end.
(* available energy, energy delivered, and use of capacity of a component *)
Definition potential (nt : nat) (w : nat -> Q) (pmax nom_opt : string -> string -> _) (cl : class) (a : comp) : Q :=
  total (fun t => w t * (pmax (k_name cl) (s_name a) t * nom_opt (k_name cl) (s_name a))) (seq 0 nt).
Definition used (energy_of : string -> nat -> Q) (cl : class) (a : comp) (t : nat) : Q :=
  Qabs (if String.eqb (k_name cl) "Store" && negb (k_branch cl) then energy_of (s_name a) t else s_p a 0 t).
(* the operation of every component of a group stays within its capacity *)
Definition within_capacity (nt : nat) (nom_opt : string -> string -> Q) (energy_of : string -> nat -> Q) (r : args) (cs : list class) (c k : string) : Prop :=
  forall cl a t, In cl cs -> k_name cl = c -> In a (k_comps cl) -> chosen r k a 0 = true -> (t < nt)%nat -> used energy_of cl a t <= nom_opt c (s_name a).
(* capacity counted at the ports, or once *)
Definition counted (efficiency : string -> nat -> option (string -> Q)) (tab : string -> string -> Q) (r : args) (cl : class) (a : comp) (p : nat) : Q :=
  tab (k_name cl) (s_name a) * (if a_at_port r then at_bus efficiency cl a p else 1).
Definition priced (cost tab : string -> string -> Q) (cl : class) (a : comp) (p : nat) : Q := tab (k_name cl) (s_name a) * cost (k_name cl) (s_name a).
(* energy that was available but not taken *)
Definition lost (nt : nat) (wg ws wo : nat -> Q) (nom_opt : string -> string -> Q) (p_max_pu : string -> string -> nat -> Q) (agg : time) (cl : class) (a : comp) (p : nat) : Q :=
  total (fun t => per_time nt agg (class_weight wg ws wo (k_name cl)) t * Qmax 0 (p_max_pu (k_name cl) (s_name a) t * nom_opt (k_name cl) (s_name a) - s_p a 0 t)) (seq 0 nt).
(* use of a component over time *)
Definition use (nt : nat) (wg ws wo : nat -> Q) (energy_of : string -> nat -> Q) (agg : time) (cl : class) (a : comp) (p : nat) : Q :=
  total (fun t => per_time nt agg (class_weight wg ws wo (k_name cl)) t * used energy_of cl a t) (seq 0 nt).
