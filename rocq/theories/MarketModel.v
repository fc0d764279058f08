From Coq Require Import List String Bool QArith ZArith Arith.
From Verif Require Import StatsModel.
Import ListNotations.
Open Scope string_scope.
Open Scope list_scope.
Open Scope Q_scope.

(* Revenue and market value: pypsa/statistics/expressions.py 2060-2097 (revenue), 2180-2196 (market_value), on the aggregation of
   pypsa/statistics/abstract.py 222-302 for any quantity. As in StatsModel: no investment periods, aggregate_groups = "sum", and tables
   have a column for every component. *)

(* abstract.py 222-302 with func(n, c, port); None: a KeyError or AttributeError, which gives an empty series (common.py 562-570) *)
Section A.
Variable func : class -> nat -> option (comp -> Q).
Definition port_values (r : args) (c : class) (port : nat) : list (string * Q) :=
  match func c port with
  | None => []
  | Some val =>
    let rows := filter (fun a => s_active a && a_bus_ok r (s_bus a port) && a_carrier_ok r (s_carrier a)) (k_comps c) in
    match a_key r with
    | None => map (fun a => (s_name a, val a)) rows
    | Some key => group_sum String.eqb (flat_map (fun a => match key a port with Some k => [(k, val a)] | None => [] end) rows)
    end
  end.
Definition class_values (r : args) (c : class) : option (list (string * Q)) :=
  let ports := if a_at_port r then seq 0 (k_ports c) else [O] in
  let values := filter (fun v => negb (empty v)) (map (port_values r c) ports) in
  if empty values then None
  else let df := List.concat values in Some (if unique String.eqb (map fst df) then df else group_sum String.eqb df).
Definition all_values (r : args) (cs : list class) : list ((string * string) * Q) :=
  flat_map (fun c => match class_values r c with Some l => map (fun e => ((k_name c, fst e), snd e)) l | None => [] end) cs.
Definition aggregate_components (r : args) (cs : list class) : list ((string * string) * Q) :=
  let l := apply_options r (all_values r cs) in
  if a_across r then group_sum pair_eqb (map (fun e => (("", snd (fst e)), snd e)) l) else l.
End A.

(* Series / Series: over the union of the keys; None: NaN or infinite *)
Definition find_key (k : string * string) (l : list ((string * string) * Q)) : option Q := option_map snd (find (fun e => pair_eqb k (fst e)) l).
Definition divide (x y : option Q) : option Q :=
  match x, y with Some x, Some y => if Qeq_bool y 0 then None else Some (x / y) | _, _ => None end.
Definition divide_series (l r : list ((string * string) * Q)) : list ((string * string) * option Q) :=
  map (fun k => (k, divide (find_key k l) (find_key k r))) (distinct pair_eqb (map fst l ++ map fst r)).

Inductive flow := Any | Input | Output.

Section N.
Variable nt : nat.
Variables w_generators w_stores w_objective : nat -> Q.
(* n.buses_t.marginal_price: None where there is no column *)
Variable marginal_price : string -> option (nat -> Q).

(* 2065-2067: reindex(columns=buses, fill_value=0) *)
Definition price (b : string) (t : nat) : Q := match marginal_price b with Some f => f t | None => 0 end.
(* 2068-2076 *)
Definition clipped (d : flow) (p : Q) : Q := match d with Any => p | Input => clip_up p | Output => clip_low p end.
(* 2061-2079 *)
Definition revenue_func (agg : time) (d : flow) (c : class) (port : nat) : option (comp -> Q) :=
  Some (fun a => aggregate_time nt agg (weights w_generators w_stores w_objective (k_name c)) (fun t => clipped d (power c a port t) * price (s_bus a port) t)).
Definition revenue (r : args) (d : flow) (cs : list class) : list ((string * string) * Q) := aggregate_components (revenue_func (a_time r) d) r cs.
(* 1395-1408: supply is the energy balance in the direction "supply" *)
Definition supply (r : args) (cs : list class) : list ((string * string) * Q) :=
  energy_balance nt w_generators w_stores w_objective
    {| a_dir := Supply; a_time := a_time r; a_at_port := a_at_port r; a_bus_ok := a_bus_ok r; a_carrier_ok := a_carrier_ok r; a_key := a_key r; a_across := a_across r; a_round := a_round r; a_drop := a_drop r |} cs.
(* 2180-2196 *)
Definition market_value (r : args) (cs : list class) : list ((string * string) * option Q) := divide_series (revenue r Any cs) (supply r cs).
End N.
