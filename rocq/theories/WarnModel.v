From Coq Require Import List String Bool QArith ZArith Arith.
From Verif Require Import LinModel WholeModel.
Import ListNotations.
Open Scope string_scope.
Open Scope list_scope.
Open Scope Q_scope.

(* The checks of pypsa/consistency.py that speak of infeasibility, over the records of WholeModel. A message with the names it
   lists; n.optimize() runs them first (optimization/optimize.py 250-251). The checks for nan and inf are left out: the data
   are numbers, an infinite limit is None. The order of classes is that of a set in the code and carries no meaning. *)
Inductive warning :=
  | Expansion_limits (c : string) (names : list string)                 (* 310-318 *)
  | Operational_limits (c name : string) (snapshots : list nat)         (* 419-429 *)
  | Both_kinds (c : string) (names : list string)                       (* 456-467 *)
  | Up_and_down (names : list string)                                   (* 501-512 *)
  | Energy_sums (names : list string).                                  (* 514-523 *)

Definition less (a b : Q) : bool := negb (Qle_bool b a).
Definition listed (f : list string -> warning) (l : list asset) : list warning :=
  match l with [] => [] | _ => [f (map nm l)] end.

Section N.
Variable n : net.
(* 305-318 *)
Definition bad_expansion (a : asset) : bool := match nom_max a with Some u => less u (nom_min a) | None => false end.
Definition check_static_power (c : string) : list warning := listed (Expansion_limits c) (filter bad_expansion (of_class n c)).
(* 360-369, 419-429: p_max_pu and e_max_pu; lines and transformers have s_max_pu instead *)
Definition has_pu (c : string) : bool := existsb (String.eqb c) ["Generator"; "Link"; "Store"; "StorageUnit"].
Definition bad_snapshots (a : asset) : list nat := filter (fun t => less (max_pu a t) (min_pu a t)) (seq 0 (nsnaps n)).
Definition check_series_power (c : string) : list warning :=
  if has_pu c then flat_map (fun a => match bad_snapshots a with [] => [] | ts => [Operational_limits c (nm a) ts] end) (of_class n c) else [].
(* 456-467 *)
Definition check_assets (c : string) : list warning :=
  if has_uc c then listed (Both_kinds c) (filter (fun a => committable a && ext a) (of_class n c)) else [].
(* 500-523 *)
Definition bad_sums (a : asset) : bool := match e_min a, e_max a with Some l, Some u => less u l | _, _ => false end.
Definition check_generators (c : string) : list warning :=
  if String.eqb c "Generator" then
    listed Up_and_down (filter (fun a => committable a && Nat.ltb 0 (up_before a) && Nat.ltb 0 (down_before a)) (of_class n c)) ++
    listed Energy_sums (filter bad_sums (of_class n c))
  else [].
(* 855-876 *)
Definition check_component (c : string) : list warning :=
  check_static_power c ++ check_series_power c ++ check_assets c ++ check_generators c.
Definition warnings : list warning := flat_map check_component ["Generator"; "Line"; "Transformer"; "Link"; "Store"; "StorageUnit"].
End N.

(* 34-40, 820-847: a message of a strict option is an exception *)
Definition option_of (w : warning) : string :=
  match w with
  | Expansion_limits _ _ => "static_power_attrs"
  | Operational_limits _ _ _ => "time_series_power_attrs"
  | Both_kinds _ _ => "assets"
  | Up_and_down _ | Energy_sums _ => "generators"
  end.
(* 820-835 *)
Definition strict_options : list string :=
  ["unknown_buses"; "unknown_carriers"; "time_series"; "static_power_attrs"; "time_series_power_attrs"; "nans_for_component_default_attrs";
   "zero_impedances"; "zero_s_nom"; "assets"; "generators"; "disconnected_buses"; "investment_periods"; "shapes"; "dtypes"].
Definition has (s : string) (l : list string) : bool := existsb (String.eqb s) l.
Inductive verdict := Unknown_option | Inconsistent | Passed (ws : list warning).   (* ValueError, ConsistencyError, messages only *)
Definition consistency_check (n : net) (strict : list string) : verdict :=
  let strict := if has "all" strict then strict_options else strict in
  if negb (forallb (fun s => has s strict_options) strict) then Unknown_option
  else if existsb (fun w => has (option_of w) strict) (warnings n) then Inconsistent
  else Passed (warnings n).
