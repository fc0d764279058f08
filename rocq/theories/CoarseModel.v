From Coq Require Import List String Bool QArith Arith DecimalString.
From Verif Require Import LinModel ClusterModel.
From Verif Require BalanceModel DispatchModel.
Import ListNotations.
Open Scope string_scope.
Open Scope list_scope.
Open Scope Q_scope.

(* Clustering of a whole network, with time series, and the dispatch problem before and after: pypsa/clustering/spatial.py
   200-292, 329-451, 470-596 on ClusterModel; constraints of the optimisation from DispatchModel and BalanceModel.
   Left out: transformers, storage, further ports of links (dropped or unmapped, C41), extendable, committable and inactive
   components, results of an earlier run among the series. *)
Record dev := Dev { d_name : string; d_bus : string; d_carrier : string; d_static : string -> Q; d_series : string -> option (nat -> Q) }.
Record wire := Wire { w_name : string; w_bus0 : string; w_bus1 : string; w_static : string -> Q; w_series : string -> option (nat -> Q);
                      w_length_factor : Q; w_voltage_factor : Q }.
Record system := System { s_buses : list string; s_gens : list dev; s_loads : list dev; s_lines : list wire; s_links : list wire }.

(* get_switchable_as_dense, at one snapshot *)
Definition dense (static : string -> Q) (series : string -> option (nat -> Q)) (a : string) (t : nat) : Q :=
  match series a with Some f => f t | None => static a end.
Definition d_at (d : dev) : string -> nat -> Q := dense (d_static d) (d_series d).
Definition w_at (w : wire) : string -> nat -> Q := dense (w_static w) (w_series w).

Section Cluster.
Variable busmap : string -> option string.
Variable T : nat.   (* number of snapshots *)

Definition port (d : dev) : oneport := {| o_name := d_name d; o_bus := d_bus d; o_carrier := d_carrier d; o_num := d_static d |}.
(* capacity_weights are those of the static table: 236-241 *)
Definition port_at (cap : string) (t : nat) (d : dev) : oneport :=
  {| o_name := d_name d; o_bus := d_bus d; o_carrier := d_carrier d; o_num := fun a => if String.eqb a cap then d_static d a else d_at d a t |}.

(* 261-262, 285-288: a table without series stays empty; columns equal to the static value throughout are dropped *)
Definition series_kept (some : bool) (static : Q) (f : nat -> Q) : option (nat -> Q) :=
  if some && negb (forallb (fun t => Qeq_bool (f t) static) (seq 0 T)) then Some f else None.
Definition value (o : option Q) : Q := match o with Some q => q | None => 0 end.
Definition is_some {A} (o : option A) : bool := match o with Some _ => true | None => false end.
Fixpoint all_some {A} (l : list (option A)) : option (list A) :=
  match l with [] => Some [] | Some a :: r => option_map (cons a) (all_some r) | None :: _ => None end.
Fixpoint numbered {A} (i : nat) (l : list A) : list (nat * A) := match l with [] => [] | a :: r => (i, a) :: numbered (S i) r end.

(* 165-292 *)
Definition aggregateoneport_t (cap : string) (strat : string -> strategy) (cols : list string) (sel : string -> string -> bool) (ds : list dev) : option (list dev) :=
  let agg := aggregateoneport busmap cap strat cols (fun r => sel (o_bus r) (o_carrier r)) in
  match agg (map port ds), all_some (map (fun t => agg (map (port_at cap t) ds)) (seq 0 T)) with
  | Some us, Some uss =>
      Some (flat_map (fun iu => match u_bus (snd iu) with
        | Some b => [Dev (u_name (snd iu)) b (u_carrier (snd iu)) (fun a => value (u_num (snd iu) a))
            (fun a => series_kept (existsb (fun d => is_some (d_series d a)) ds) (value (u_num (snd iu) a))
               (fun t => match nth_error uss t with
                         | Some vs => match nth_error vs (fst iu) with Some u => value (u_num u a) | None => 0 end
                         | None => 0
                         end))]
        | None => []
        end) (numbered 0 us))
  | _, _ => None
  end.
(* 554-563: components that are not aggregated *)
Definition moved (ds : list dev) : list dev :=
  flat_map (fun d => match busmap (d_bus d) with Some b => [Dev (d_name d) b (d_carrier d) (d_static d) (d_series d)] | None => [] end) ds.

Definition strand (w : wire) : line :=
  {| l_name := w_name w; l_bus0 := w_bus0 w; l_bus1 := w_bus1 w; l_num := w_static w; l_length_factor := w_length_factor w; l_voltage_factor := w_voltage_factor w |}.
Definition strand_at (t : nat) (w : wire) : line :=
  {| l_name := w_name w; l_bus0 := w_bus0 w; l_bus1 := w_bus1 w; l_num := fun a => if String.eqb a "s_nom" then w_static w a else w_at w a t;
     l_length_factor := w_length_factor w; l_voltage_factor := w_voltage_factor w |}.
(* 395-397: ngroup().astype(str) *)
Definition str (i : nat) : string := NilEmpty.string_of_uint (Nat.to_uint i).
(* 329-451 with the series of 429-449 *)
Definition aggregatelines_t (ws : list wire) : list wire :=
  map (fun iv => Wire (str (fst iv)) (v_bus0 (snd iv)) (v_bus1 (snd iv)) (v_num (snd iv))
        (fun a => series_kept (existsb (fun w => is_some (w_series w a)) ws) (v_num (snd iv) a)
           (fun t => match nth_error (aggregatelines busmap (map (strand_at t) ws)) (fst iv) with Some v => v_num v a | None => 0 end)) 1 1)
      (numbered 0 (aggregatelines busmap (map strand ws))).
(* 565-590; lengths and investment costs of links are left out *)
Definition links_t (ws : list wire) : list wire :=
  flat_map (fun w => match busmap (w_bus0 w), busmap (w_bus1 w) with
    | Some a, Some b => if String.eqb a b then [] else [Wire (w_name w) a b (w_static w) (w_series w) 1 1]
    | _, _ => [] end) ws.

(* 470-596; gens: which generators to aggregate, if any (aggregate_generators_weighted, or "Generator" among
   aggregate_one_ports); loads: whether "Load" is among aggregate_one_ports *)
Definition get_clustering_from_busmap (gens : option (string -> string -> bool)) (loads : bool) (gcols lcols : list string) (n : system) : option system :=
  match (match gens with Some sel => aggregateoneport_t "p_nom" default_strategy gcols sel (s_gens n) | None => Some (moved (s_gens n)) end),
        (if loads then aggregateoneport_t "p_nom" default_strategy lcols (fun _ _ => true) (s_loads n) else Some (moved (s_loads n))) with
  | Some gs, Some ds => Some (System (clustered_buses busmap (s_buses n)) gs ds (aggregatelines_t (s_lines n)) (links_t (s_links n)))
  | _, _ => None
  end.
End Cluster.

(* the dispatch problem of a system *)
Definition always (_ : nat) : bool := true.
Definition balance_net (n : system) : BalanceModel.net :=
  {| BalanceModel.buses := s_buses n;
     BalanceModel.gens := map (fun d => {| BalanceModel.c_name := d_name d; BalanceModel.c_bus := d_bus d; BalanceModel.c_sign := d_static d "sign"; BalanceModel.c_active := always |}) (s_gens n);
     BalanceModel.stores := []; BalanceModel.units := [];
     BalanceModel.lines := map (fun w => {| BalanceModel.b_name := w_name w; BalanceModel.b_bus0 := w_bus0 w; BalanceModel.b_bus1 := w_bus1 w; BalanceModel.b_active := always |}) (s_lines n);
     BalanceModel.trafos := [];
     BalanceModel.links := map (fun w => {| BalanceModel.l_name := w_name w; BalanceModel.l_bus0 := w_bus0 w; BalanceModel.l_bus1 := w_bus1 w; BalanceModel.l_eff1 := w_at w "efficiency";
                                            BalanceModel.l_ports := []; BalanceModel.l_active := always |}) (s_links n);
     BalanceModel.loads := map (fun d => {| BalanceModel.d_bus := d_bus d; BalanceModel.d_sign := d_static d "sign"; BalanceModel.d_p := d_at d "p_set"; BalanceModel.d_active := true |}) (s_loads n) |}.
(* the columns with "bus" in their name *)
Definition bus_columns (n : system) : list string :=
  map d_bus (s_gens n) ++ map d_bus (s_loads n) ++ map w_bus0 (s_lines n) ++ map w_bus1 (s_lines n) ++ map w_bus0 (s_links n) ++ map w_bus1 (s_links n).
Definition asset_of (nm : string) (nom : Q) (lo hi : nat -> Q) (fix_ : option (nat -> Q)) : DispatchModel.asset :=
  {| DispatchModel.name := nm; DispatchModel.nom := nom; DispatchModel.nom_min := 0; DispatchModel.nom_max := None; DispatchModel.nom_set := None; DispatchModel.nom_mod := 0;
     DispatchModel.ext := false; DispatchModel.com := false; DispatchModel.active := always; DispatchModel.min_pu := lo; DispatchModel.max_pu := hi;
     DispatchModel.max_hours := 0; DispatchModel.fix_set := fun t => option_map (fun f => f t) fix_ |}.
Definition gen_asset (d : dev) : DispatchModel.asset := asset_of (d_name d) (d_static d "p_nom") (d_at d "p_min_pu") (d_at d "p_max_pu") (d_series d "p_set").
Definition line_asset (w : wire) : DispatchModel.asset := asset_of (w_name w) (w_static w "s_nom") (fun _ => 0) (w_at w "s_max_pu") None.
Definition link_asset (w : wire) : DispatchModel.asset := asset_of (w_name w) (w_static w "p_nom") (w_at w "p_min_pu") (w_at w "p_max_pu") (w_series w "p_set").

Section Problem.
Variables (T threshold : nat) (n : system).
Definition bounds : list con :=
  DispatchModel.all_constraints "Generator" "p" "p_nom" DispatchModel.Other false T (map gen_asset (s_gens n)) ++
  DispatchModel.all_constraints "Line" "s" "s_nom" DispatchModel.Passive false T (map line_asset (s_lines n)) ++
  DispatchModel.all_constraints "Link" "p" "p_nom" DispatchModel.Other false T (map link_asset (s_links n)).
Definition problem : option (list con) :=
  option_map (fun cs => cs ++ bounds) (BalanceModel.nodal_balance (balance_net n) false T (bus_columns n) threshold).
End Problem.
