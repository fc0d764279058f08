From Coq Require Import List String Bool QArith Qabs ZArith Arith.
From Verif Require Import StatsModel MarketModel.
Import ListNotations.
Open Scope string_scope.
Open Scope list_scope.
Open Scope Q_scope.

(* Capacities, curtailment and capacity factors: pypsa/statistics/expressions.py 33-41, 54-70, 467-471, 573-577, 674-705, 785-817, 905-934, 1007-1037,
   1841-1866, 1947-1971, on the aggregation of MarketModel. Simplifications as in StatsModel. *)

(* descriptors.py 215-222 *)
Definition nominal_attr (c : string) : bool := existsb (String.eqb c) ["Generator"; "Line"; "Transformer"; "Link"; "Store"; "StorageUnit"].

Section T.
Variable nt : nat.
Variables w_generators w_stores w_objective : nat -> Q.
(* columns by class and name: ..._nom, ..._nom_opt, the cost attribute, max_hours, and the efficiencies of a port if there is such a column *)
Variables nom nom_opt cost : string -> string -> Q.
Variable max_hours : string -> Q.
Variable efficiency : string -> nat -> option (string -> Q).
(* p_max_pu as a dense table, and the energy of stores *)
Variable p_max_pu : string -> string -> nat -> Q.
Variable energy_of : string -> nat -> Q.

(* 54-70, with dynamic=False. Ports of branches are "0", "1", ...; the port of other classes is "" *)
Definition port_efficiency (c : class) (port : nat) (a : comp) : Q :=
  if k_branch c then
    match port with
    | O => -(1)
    | S _ => match efficiency (k_name c) port with Some f => f (s_name a) | None => 1 end
    end
  else 1.
(* 791-798, 908-915 *)
Definition capacity_func (tab : string -> string -> Q) (at_port storage : bool) (c : class) (port : nat) : option (comp -> Q) :=
  if nominal_attr (k_name c) then
    Some (fun a =>
      let eff := if at_port then port_efficiency c port a else Qabs (port_efficiency c port a) in
      let col := tab (k_name c) (s_name a) * eff in
      if storage && String.eqb (k_name c) "StorageUnit" then col * max_hours (s_name a) else col)
  else None.
(* 786-787, 903-904 *)
Definition of_storage (storage : bool) (cs : list class) : list class :=
  if storage then flat_map (fun nm => filter (fun c => String.eqb (k_name c) nm) cs) ["Store"; "StorageUnit"] else cs.
Definition optimal_capacity (storage : bool) (r : args) (cs : list class) : list ((string * string) * Q) :=
  aggregate_components (capacity_func nom_opt (a_at_port r) storage) r (of_storage storage cs).
Definition installed_capacity (storage : bool) (r : args) (cs : list class) : list ((string * string) * Q) :=
  aggregate_components (capacity_func nom (a_at_port r) storage) r (of_storage storage cs).
(* 1033-1034: reindex(optimal.index, fill_value=0), sub, where *)
Definition expanded_capacity (r : args) (cs : list class) : list ((string * string) * Q) :=
  let installed := installed_capacity false r cs in
  map (fun e => let i := match find_key (fst e) installed with Some q => q | None => 0 end in
    (fst e, if negb (Qle_bool (Qabs (snd e)) (Qabs i)) then snd e - i else 0)) (optimal_capacity false r cs).

(* 467-471, 573-577 *)
Definition capex_func (tab : string -> string -> Q) (c : class) (port : nat) : option (comp -> Q) :=
  if nominal_attr (k_name c) then Some (fun a => tab (k_name c) (s_name a) * cost (k_name c) (s_name a)) else None.
Definition capex (r : args) (cs : list class) : list ((string * string) * Q) := aggregate_components (capex_func nom_opt) r cs.
Definition installed_capex (r : args) (cs : list class) : list ((string * string) * Q) := aggregate_components (capex_func nom) r cs.
(* 674-701: sub(..., fill_value=0) *)
Definition sub_series (l r : list ((string * string) * Q)) : list ((string * string) * Q) :=
  map (fun k => (k, match find_key k l with Some q => q | None => 0 end - match find_key k r with Some q => q | None => 0 end)) (distinct pair_eqb (map fst l ++ map fst r)).
Definition expanded_capex (r : args) (cs : list class) : list ((string * string) * Q) := sub_series (capex r cs) (installed_capex r cs).

(* 1841-1848. Classes with p_max_pu, p_nom_opt and a table p; others raise *)
Definition curtailment_func (agg : time) (c : class) (port : nat) : option (comp -> Q) :=
  if existsb (String.eqb (k_name c)) ["Generator"; "StorageUnit"] then
    Some (fun a => aggregate_time nt agg (weights w_generators w_stores w_objective (k_name c))
      (fun t => clip_low (p_max_pu (k_name c) (s_name a) t * nom_opt (k_name c) (s_name a) - s_p a 0 t)))
  else None.
Definition curtailment (r : args) (cs : list class) : list ((string * string) * Q) := aggregate_components (curtailment_func (a_time r)) r cs.

(* 33-41 *)
Definition get_operation (c : class) (a : comp) (t : nat) : Q :=
  if k_branch c then s_p a 0 t else if String.eqb (k_name c) "Store" then energy_of (s_name a) t else s_p a 0 t.
(* 1948-1952 *)
Definition operation_func (agg : time) (c : class) (port : nat) : option (comp -> Q) :=
  Some (fun a => aggregate_time nt agg (weights w_generators w_stores w_objective (k_name c)) (fun t => Qabs (get_operation c a t))).
(* 1954-1968: div(capacity.reindex(df.index)); None: NaN or infinite *)
Definition capacity_factor (r : args) (cs : list class) : list ((string * string) * option Q) :=
  let capacity := optimal_capacity false r cs in
  map (fun e => (fst e, divide (Some (snd e)) (find_key (fst e) capacity))) (aggregate_components (operation_func (a_time r)) r cs).
End T.

(* the statistics of a network: which columns they read, 467-471, 573-577, 791-798, 908-915, 1841-1848, 1954-1962 *)
Record columns := {
  col_nom : string -> string -> Q; col_nom_opt : string -> string -> Q; col_cost : string -> string -> Q; col_max_hours : string -> Q;
  col_efficiency : string -> nat -> option (string -> Q); col_p_max_pu : string -> string -> nat -> Q; col_energy : string -> nat -> Q;
  col_generators : nat -> Q; col_stores : nat -> Q; col_objective : nat -> Q }.
Section Net.
Variable nt : nat.
Variable n : columns.
Definition net_optimal := optimal_capacity (col_nom_opt n) (col_max_hours n) (col_efficiency n) false.
Definition net_installed := installed_capacity (col_nom n) (col_max_hours n) (col_efficiency n) false.
Definition net_capex := capex (col_nom_opt n) (col_cost n).
Definition net_installed_capex := installed_capex (col_nom n) (col_cost n).
Definition net_curtailment := curtailment nt (col_generators n) (col_stores n) (col_objective n) (col_nom_opt n) (col_p_max_pu n).
Definition net_factor := capacity_factor nt (col_generators n) (col_stores n) (col_objective n) (col_nom_opt n) (col_max_hours n) (col_efficiency n) (col_energy n).
End Net.
