From Coq Require Import List String Bool QArith Arith.
From Verif Require Import StatsModel.
Import ListNotations.
Open Scope string_scope.
Open Scope list_scope.

(* Grouping and filtering in statistics: pypsa/statistics/grouping.py 91-362, abstract.py 136-157, 222-302, 323-379,
   expressions.py 206-241, 265-269. Any quantity, aggregate_groups = "sum", no investment periods; rounding and dropping of
   zeros (C43, C45) left out. *)

(* a static table of text: None is NaN *)
Record table := { t_rows : list string; t_has : string -> bool; t_cell : string -> string -> option string (* column, row *) }.
Record class := {
  k_name : string;
  k_cols : list string;                          (* columns in order *)
  k_rows : list string;
  k_cell : string -> string -> option string;    (* column, row *)
  k_active : string -> bool                      (* get_active_assets *)
}.
Definition k_has (c : class) (col : string) : bool := existsb (String.eqb col) (k_cols c).
Record net := {
  n_buses : table;
  n_nice : list (string * string);               (* n.carriers.nice_name *)
  n_classes : list class
}.

Inductive outcome (A : Type) := Done (a : A) | AttributeError | ValueError.
Arguments Done {A}. Arguments AttributeError {A}. Arguments ValueError {A}.
Definition bind {A B} (x : outcome A) (f : A -> outcome B) : outcome B :=
  match x with Done a => f a | AttributeError => AttributeError | ValueError => ValueError end.
Fixpoint all_done {A} (l : list (outcome A)) : outcome (list A) :=
  match l with [] => Done [] | x :: r => bind x (fun a => bind (all_done r) (fun s => Done (a :: s))) end.

Section N.
Variable n : net.

(* grouping.py 228-231: .replace(nice_name[nice_name != ""]).replace("", "-") *)
Definition nice (s : string) : string :=
  let r := match find (fun e => String.eqb (fst e) s && negb (String.eqb (snd e) "")) (n_nice n) with Some e => snd e | None => s end in
  if String.eqb r "" then "-" else r.
Definition named (nice_names : bool) (o : option string) : option string := if nice_names then option_map nice o else o.

(* .map(n.buses[col]): NaN for unknown buses *)
Definition at_bus (col : string) (o : option string) : option string :=
  match o with
  | Some b => if existsb (String.eqb b) (t_rows (n_buses n)) then t_cell (n_buses n) col b else None
  | None => None
  end.
(* grouping.py 226-227: static.get("carrier", "") *)
Definition class_carrier (c : class) (row : string) : option string := if k_has c "carrier" then k_cell c "carrier" row else Some "".
Definition port_bus (c : class) (port row : string) : option string := k_cell c ("bus" ++ port) row.

(* grouping.py 91-96, 155-177, 206-367: the series of keys by row *)
Definition grouper (c : class) (port : string) (nice_names : bool) (key : string) : outcome (string -> option string) :=
  let of_bus col := if t_has (n_buses n) col then Done (fun row => at_bus col (port_bus c port row)) else AttributeError in
  if String.eqb key "carrier" then Done (fun row => named nice_names (class_carrier c row))
  else if String.eqb key "bus_carrier" then Done (fun row => named nice_names (at_bus "carrier" (port_bus c port row)))
  else if String.eqb key "bus" then Done (port_bus c port)
  else if String.eqb key "country" then of_bus "country"
  else if String.eqb key "location" then of_bus "location"
  else if String.eqb key "unit" then of_bus "unit"
  else if String.eqb key "name" then Done (fun row => Some row)
  else if k_has c key then Done (k_cell c key) else ValueError.

(* groupby with several keys drops rows with NaN in any of them *)
Fixpoint complete (l : list (option string)) : option (list string) :=
  match l with
  | [] => Some []
  | Some s :: r => match complete r with Some k => Some (s :: k) | None => None end
  | None :: _ => None
  end.
(* abstract.py 136-157; None: groupby=False *)
Definition keys (c : class) (port : string) (nice_names : bool) (groupby : option (list string)) : outcome (string -> option (list string)) :=
  match groupby with
  | None => Done (fun row => Some [row])
  | Some ks => bind (all_done (map (grouper c port nice_names) ks)) (fun gs => Done (fun row => complete (map (fun g => g row) gs)))
  end.

(* the arguments bus_carrier and carrier *)
Inductive pick := All | One (s : string) | Many (l : list string).
Variable search : string -> string -> bool.      (* re.search: pattern, text *)
Definition matches (p : pick) (exact : bool) (s : string) : bool :=
  match p with All => true | One q => if exact then String.eqb s q else search q s | Many l => existsb (String.eqb s) l end.
Definition is_text (s : string) (o : option string) : bool := match o with Some q => String.eqb q s | None => false end.

(* abstract.py 323-351 *)
Definition filter_bus_carrier (c : class) (port : string) (p : pick) (rows : list string) : list string :=
  match p with
  | All => rows
  | _ => let exact := match p with One s => existsb (fun b => is_text s (t_cell (n_buses n) "carrier" b)) (t_rows (n_buses n)) | _ => true end in
         filter (fun row => match at_bus "carrier" (port_bus c port row) with Some k => matches p exact k | None => false end) rows
  end.
(* abstract.py 353-379 (a missing carrier raises within the pattern search; here it does not match) *)
Definition filter_carrier (c : class) (p : pick) (rows : list string) : list string :=
  match p with
  | All => rows
  | _ => if k_has c "carrier" then
           let exact := match p with One s => existsb (fun row => is_text s (k_cell c "carrier" row)) rows | _ => true end in
           filter (fun row => match k_cell c "carrier" row with Some k => matches p exact k | None => false end) rows
         else rows
  end.

Record args := { g_groupby : option (list string); g_at_port : bool; g_bus_carrier : pick; g_carrier : pick; g_nice : bool; g_across : bool }.

(* abstract.py 247: [str(col)[3:] for col in n.static(c) if str(col).startswith("bus")] *)
Definition all_ports (c : class) : list string := map (fun col => substring 3 (String.length col - 3) col) (filter (prefix "bus") (k_cols c)).
Definition ports (r : args) (c : class) : list string := if g_at_port r then all_ports c else firstn 1 (all_ports c).

Variable quantity : string -> string -> string -> Q.   (* func(n, c, port): by class, port, row *)

Definition selection (r : args) (c : class) (port : string) : list string :=
  filter_carrier c (g_carrier r) (filter_bus_carrier c port (g_bus_carrier r) (filter (k_active c) (k_rows c))).
Definition key_eqb (a b : list string) : bool := if list_eq_dec string_dec a b then true else false.
(* abstract.py 251-279: values of one port, none if nothing is selected *)
Definition port_values (r : args) (c : class) (port : string) : outcome (list (list string * Q)) :=
  let rows := selection r c port in
  if empty rows then Done [] else
  bind (keys c port (g_nice r) (g_groupby r)) (fun key =>
    let l := flat_map (fun row => match key row with Some k => [(k, quantity (k_name c) port row)] | None => [] end) rows in
    Done (match g_groupby r with None => l | Some _ => group_sum key_eqb l end)).
(* expressions.py 211-218 *)
Definition class_values (r : args) (c : class) : outcome (list (list string * Q)) :=
  bind (all_done (map (port_values r c) (ports r c))) (fun values =>
    let df := List.concat values in
    Done (if unique key_eqb (map fst df) then df else group_sum key_eqb df)).
(* expressions.py 220-241, 265-269: the first component of the key is the class; dropped by aggregate_across_components *)
Definition aggregate (r : args) : outcome (list ((string * list string) * Q)) :=
  let cs := filter (fun c => negb (empty (k_rows c))) (n_classes n) in
  bind (all_done (map (fun c => bind (class_values r c) (fun l => Done (map (fun e => ((k_name c, fst e), snd e)) l))) cs)) (fun d =>
    let df := List.concat d in
    Done (if g_across r
          then group_sum (fun a b => String.eqb (fst a) (fst b) && key_eqb (snd a) (snd b)) (map (fun e => (("", snd (fst e)), snd e)) df)
          else df)).
End N.
