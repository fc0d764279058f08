From Coq Require Import List String Bool QArith Qabs Arith.
From Verif Require Import LinModel StatsModel MarketModel CapfacModel.
Import ListNotations.
Open Scope string_scope.
Open Scope list_scope.
Open Scope Q_scope.

(* n.optimize.expressions: pypsa/optimization/expressions.py 48-627 on pypsa/statistics/abstract.py 222-302; and the statistic transmission
   (pypsa/statistics/expressions.py 71-92, 1593-1622). As in StatsModel: no investment periods, aggregate_groups = "sum", and tables have a column for
   every component. linopy aligns what it adds and merges by label. A product with 1/0 followed by one with 0 is 0. *)

(* a linear expression: terms and a constant *)
Definition expr : Type := (lin * Q)%type.
Definition scale (q : Q) (e : expr) : expr := (map (fun t => (q * fst t, snd t)) (fst e), q * snd e).
Definition esum (l : list expr) : expr := (List.concat (map fst l), sumq (map snd l)).
Definition minus (a b : expr) : expr := esum [a; scale (-(1)) b].

Section G.
Context {K : Type}.
Variable eqb : K -> K -> bool.
(* groupby(...).sum() *)
Definition group_expr (l : list (K * expr)) : list (K * expr) :=
  map (fun k => (k, esum (map snd (filter (fun e => eqb k (fst e)) l)))) (distinct eqb (map fst l)).
End G.

(* abstract.py 222-302 with the methods of expressions.py 76-148; None: the KeyError or AttributeError of common.py 551-559, or nothing to add *)
Section A.
Variable func : class -> nat -> option (comp -> expr).
Definition port_exprs (r : args) (c : class) (port : nat) : list (string * expr) :=
  match func c port with
  | None => []
  | Some val =>
    let rows := filter (fun a => s_active a && a_bus_ok r (s_bus a port) && a_carrier_ok r (s_carrier a)) (k_comps c) in
    match a_key r with
    | None => map (fun a => (s_name a, val a)) rows
    | Some key => group_expr String.eqb (flat_map (fun a => match key a port with Some k => [(k, val a)] | None => [] end) rows)
    end
  end.
(* 107-117 *)
Definition class_exprs (r : args) (c : class) : list (string * expr) :=
  group_expr String.eqb (List.concat (map (port_exprs r c) (if a_at_port r then seq 0 (k_ports c) else [O]))).
(* 119-127 *)
Definition all_exprs (r : args) (cs : list class) : list ((string * string) * expr) :=
  flat_map (fun c => map (fun e => ((k_name c, fst e), snd e)) (class_exprs r c)) cs.
(* 129-149: options are not applied *)
Definition expressions (r : args) (cs : list class) : list ((string * string) * expr) :=
  let l := all_exprs r cs in
  if a_across r then group_expr pair_eqb (map (fun e => (("", snd (fst e)), snd e)) l) else l.
End A.

(* descriptors.py 215-222 *)
Definition nominal_of (c : string) : option string :=
  if existsb (String.eqb c) ["Generator"; "Link"; "StorageUnit"] then Some "p_nom"
  else if existsb (String.eqb c) ["Line"; "Transformer"] then Some "s_nom"
  else if String.eqb c "Store" then Some "e_nom" else None.
Definition variable (c attr : string) (t : nat) (nm : string) : label := Some (c ++ "-" ++ attr, t, nm)%string.

Section T.
Variable nt : nat.
Variables w_generators w_stores w_objective : nat -> Q.
(* columns by class and name *)
Variable extendable : string -> string -> bool.
Variables nom cost : string -> string -> Q.
Variables marginal_cost p_max_pu : string -> string -> nat -> Q.
Variable p_set : string -> nat -> Q.
Variable max_hours : string -> Q.
(* efficiencies of a port if there is such a column: the static column, and the dense table *)
Variable efficiency : string -> nat -> option (string -> Q).
Variable efficiency_t : string -> nat -> option (string -> nat -> Q).

(* 151-167 with data/variables.csv; of "e" and "p" of stores only the first is not handled separately *)
Definition operational (c : string) : option (string -> nat -> expr) :=
  if String.eqb c "Load" then Some (fun nm t => ([], p_set nm t))
  else if String.eqb c "StorageUnit" then Some (fun nm t => ([(1, variable c "p_dispatch" t nm); (-(1), variable c "p_store" t nm)], 0))
  else if existsb (String.eqb c) ["Generator"; "Link"] then Some (fun nm t => ([(1, variable c "p" t nm)], 0))
  else if existsb (String.eqb c) ["Line"; "Transformer"] then Some (fun nm t => ([(1, variable c "s" t nm)], 0))
  else if String.eqb c "Store" then Some (fun nm t => ([(1, variable c "e" t nm)], 0))
  else None.
(* abstract.py 172-187 with expressions.py 83-96 *)
Definition over_time (agg : time) (c : class) (f : nat -> expr) : expr :=
  let w := weights w_generators w_stores w_objective (k_name c) in
  esum (map (fun t => scale (match agg with Sum => w t | Mean => w t / sumt w nt end) (f t)) (seq 0 nt)).

(* variables.py 100-104: no array if nothing is extendable *)
Definition any_extendable (c : class) : bool := existsb (fun a => extendable (k_name c) (s_name a)) (k_comps c).
Definition extendables (c : class) : class := {| k_name := k_name c; k_branch := k_branch c; k_ports := k_ports c; k_comps := filter (fun a => extendable (k_name c) (s_name a)) (k_comps c) |}.
Definition capacity_of (attr : string) (c : class) (a : comp) : expr :=
  if extendable (k_name c) (s_name a) then ([(1, variable (k_name c) attr O (s_name a))], 0) else ([], nom (k_name c) (s_name a)).
Definition considered (include_non_extendable : bool) (cs : list class) : list class := if include_non_extendable then cs else map extendables cs.

(* 189-199: the column "p_nom" is read for every class *)
Definition x_capex_func (include_non_extendable : bool) (c : class) (port : nat) : option (comp -> expr) :=
  match nominal_of (k_name c) with
  | None => None
  | Some attr =>
    if negb (any_extendable c) then None
    else if include_non_extendable && negb (String.eqb attr "p_nom") then None
    else Some (fun a => scale (cost (k_name c) (s_name a)) (capacity_of attr c a))
  end.
Definition x_capex (include_non_extendable : bool) (r : args) (cs : list class) : list ((string * string) * expr) :=
  expressions (x_capex_func include_non_extendable) r (considered include_non_extendable cs).
(* 236-262 *)
Definition x_capacity_func (at_port storage : bool) (c : class) (port : nat) : option (comp -> expr) :=
  match nominal_of (k_name c) with
  | None => None
  | Some attr =>
    if negb (any_extendable c) then None
    else Some (fun a =>
      let eff := if at_port then port_efficiency efficiency c port a else Qabs (port_efficiency efficiency c port a) in
      let res := scale eff (capacity_of attr c a) in
      if storage && String.eqb (k_name c) "StorageUnit" then scale (max_hours (s_name a)) res else res)
  end.
Definition x_capacity (include_non_extendable storage : bool) (r : args) (cs : list class) : list ((string * string) * expr) :=
  expressions (x_capacity_func (a_at_port r) storage) r (considered include_non_extendable (of_storage storage cs)).
(* 301-309 *)
Definition x_opex_func (agg : time) (c : class) (port : nat) : option (comp -> expr) :=
  let attr := if existsb (String.eqb (k_name c)) ["Generator"; "Link"; "Store"] then Some "p" else if String.eqb (k_name c) "StorageUnit" then Some "p_dispatch" else None in
  option_map (fun attr a => over_time agg c (fun t => scale (marginal_cost (k_name c) (s_name a) t) ([(1, variable (k_name c) attr t (s_name a))], 0))) attr.
Definition x_opex (r : args) (cs : list class) : list ((string * string) * expr) := expressions (x_opex_func (a_time r)) r cs.

(* statistics/expressions.py 54-70, with dynamic=True *)
Definition port_efficiency_t (c : class) (port : nat) (a : comp) (t : nat) : Q :=
  if k_branch c then
    match port with
    | O => -(1)
    | S _ => match efficiency_t (k_name c) port with Some f => f (s_name a) t | None => 1 end
    end
  else 1.
(* statistics/expressions.py 71-92: more than one bus column with some carrier; buses without a carrier here: empty ports *)
Variable carrier_of : string -> option string.
Variable wanted : list string.
Definition carries (c : class) (a : comp) (ca : string) : nat :=
  List.length (filter (fun p => match carrier_of (s_bus a p) with Some ca' => String.eqb ca' ca | None => false end) (seq 0 (k_ports c))).
Definition transports (c : class) (a : comp) : bool := existsb (fun ca => Nat.ltb 1 (carries c a ca)) wanted.
Definition transmission_branches (cs : list class) : list class :=
  map (fun c => {| k_name := k_name c; k_branch := k_branch c; k_ports := k_ports c; k_comps := filter (transports c) (k_comps c) |}) (filter k_branch cs).
(* statistics/expressions.py 1593-1622 *)
Definition transmission_func (agg : time) (c : class) (port : nat) : option (comp -> Q) :=
  Some (fun a => aggregate_time nt agg (weights w_generators w_stores w_objective (k_name c)) (fun t => s_p a port t)).
Definition transmission (r : args) (cs : list class) : list ((string * string) * Q) := aggregate_components (transmission_func (a_time r)) r (transmission_branches cs).
(* 352-364 *)
Definition x_transmission_func (agg : time) (c : class) (port : nat) : option (comp -> expr) :=
  option_map (fun op a => over_time agg c (fun t => scale (port_efficiency_t c port a t) (op (s_name a) t))) (operational (k_name c)).
Definition x_transmission (r : args) (cs : list class) : list ((string * string) * expr) := expressions (x_transmission_func (a_time r)) r (transmission_branches cs).

(* 418-441: only one-port classes have a sign *)
Definition x_energy_func (d : direction) (agg : time) (c : class) (port : nat) : option (comp -> expr) :=
  option_map (fun op a => over_time agg c (fun t =>
    let coeff := port_efficiency_t c port a t * (if k_branch c then 1 else s_sign a) in
    scale (match d with Balance => coeff | Supply => clip_low coeff | Withdrawal => - clip_up coeff end) (op (s_name a) t))) (operational (k_name c)).
Definition x_energy_balance (r : args) (cs : list class) : list ((string * string) * expr) := expressions (x_energy_func (a_dir r) (a_time r)) r cs.

(* 554-571. Classes with p_max_pu *)
Definition x_curtailment_func (agg : time) (c : class) (port : nat) : option (comp -> expr) :=
  match nominal_of (k_name c), operational (k_name c) with
  | Some attr, Some op =>
    if negb (any_extendable c) then None
    else if existsb (String.eqb (k_name c)) ["Generator"; "Link"; "StorageUnit"] then
      Some (fun a => over_time agg c (fun t => let pm := p_max_pu (k_name c) (s_name a) t in
        scale pm (minus (capacity_of attr c a) (scale (1 / pm) (op (s_name a) t)))))
    else None
  | _, _ => None
  end.
Definition x_curtailment (r : args) (cs : list class) : list ((string * string) * expr) := expressions (x_curtailment_func (a_time r)) r cs.
(* 611-615 *)
Definition x_operation_func (agg : time) (c : class) (port : nat) : option (comp -> expr) :=
  option_map (fun op a => over_time agg c (fun t => op (s_name a) t)) (operational (k_name c)).
Definition x_operation (r : args) (cs : list class) : list ((string * string) * expr) := expressions (x_operation_func (a_time r)) r cs.
End T.
