From Coq Require Import List String Ascii Bool QArith ZArith Arith.
Import ListNotations.
Open Scope string_scope.
Open Scope list_scope.

(* pypsa/consistency.py: consistency_check and the checks it runs. Exceptions are values; n.calculate_dependent_values() (838) is
   not modelled: the tables are those it leaves behind. Every standard column is present (NaN stands for an absent one). *)
Inductive cell := Str (s : string) | Num (q : Q) | PInf | NInf | NaN | Flag (b : bool).
Record attr := { at_name : string; at_static : bool; at_varying : bool; at_default : cell; at_dtype : string }.
(* rows of a column are in the order of the index *)
Record frame := { f_index : list Z; f_cols : list (string * list cell); f_dtype : string -> string }.
Record table := { t_class : string; t_index : list string; t_cols : list (string * (string -> cell)); t_dtype : string -> string;
                  t_attrs : list attr; t_dyn : list (string * frame) }.
(* n.all_components is a set: tables come in an arbitrary order; n_periods: the periods if snapshots have two levels *)
Record net := { tables : list table; n_snaps : list Z; n_periods : option (list Z) }.

Definition mem (s : string) (l : list string) : bool := existsb (String.eqb s) l.
Definition nil_b {A} (l : list A) : bool := match l with [] => true | _ => false end.
Definition is_nan (c : cell) : bool := match c with NaN => true | _ => false end.
Definition is_inf (c : cell) : bool := match c with PInf | NInf => true | _ => false end.
Definition is_zero (c : cell) : bool := match c with Num q => Qeq_bool q 0 | _ => false end.
Definition is_true (c : cell) : bool := match c with Flag b => b | _ => false end.
Definition is_empty (c : cell) : bool := match c with Str s => String.eqb s "" | _ => false end.
(* < on floats: false if one is NaN *)
Definition lt (a b : cell) : bool :=
  match a, b with
  | Num p, Num q => negb (Qle_bool q p)
  | NInf, Num _ | NInf, PInf | Num _, PInf => true
  | _, _ => false
  end.
(* astype(str) on cells of a bus column; other than for strings only that no bus has this name matters *)
Definition as_str (c : cell) : option string := match c with Str s => Some s | NaN => Some "nan" | _ => None end.

Fixpoint find_col {A} (k : string) (l : list (string * A)) : option A :=
  match l with [] => None | (k', v) :: l => if String.eqb k k' then Some v else find_col k l end.
Definition get (t : table) (col i : string) : cell := match find_col col (t_cols t) with Some f => f i | None => NaN end.
Definition index_of (n : net) (c : string) : list string := flat_map (fun t => if String.eqb (t_class t) c then t_index t else []) (tables n).

(* what a check finds, in order; Crash: another exception *)
Inductive event := Found (key class : string) (items : list string) | Crash.
Definition found (key : string) (t : table) (items : list string) : list event := if nil_b items then [] else [Found key (t_class t) items].

(* 28-30 *)
Definition bus_columns (t : table) : list (string * (string -> cell)) := filter (fun kc => String.prefix "bus" (fst kc)) (t_cols t).
(* int(attr[-1]) *)
Fixpoint last_char (s : string) (d : ascii) : ascii := match s with "" => d | String c s => last_char s c end.
Definition last_int (s : string) : option nat :=
  let k := nat_of_ascii (last_char s "x"%char) in if Nat.leb 48 k && Nat.leb k 57 then Some (k - 48)%nat else None.
Definition is_branch (c : string) : bool := mem c ["Line"; "Transformer"; "Link"].
(* 66-70; None: ValueError of int() *)
Definition missing_buses (n : net) (t : table) (kc : string * (string -> cell)) : option (list string) :=
  let undefined (c : cell) := negb (match as_str c with Some s => mem s (index_of n "Bus") | None => false end) in
  let missing := filter (fun i => undefined (snd kc i)) (t_index t) in
  if is_branch (t_class t) then
    match last_int (fst kc) with
    | None => None
    | Some k => Some (if Nat.ltb 1 k then filter (fun i => negb (is_empty (snd kc i))) missing else missing)
    end
  else Some missing.
(* 42-76 *)
Definition check_for_unknown_buses (n : net) (t : table) : list event :=
  flat_map (fun kc => match missing_buses n t kc with Some l => found "unknown_buses" t l | None => [Crash] end) (bus_columns t).
(* 111-152 *)
Definition check_for_unknown_carriers (n : net) (t : table) : list event :=
  match find_col "carrier" (t_cols t) with
  | Some f => found "unknown_carriers" t (filter (fun i => negb (match f i with Str s => mem s (index_of n "Carrier") | _ => false end) && negb (is_nan (f i)) && negb (is_empty (f i))) (t_index t))
  | None => []
  end.
(* 155-193 *)
Definition check_for_zero_impedances (t : table) : list event :=
  if mem (t_class t) ["Line"; "Transformer"] then flat_map (fun a => found "zero_impedances" t (filter (fun i => is_zero (get t a i)) (t_index t))) ["x"; "r"] else [].
(* 196-226 *)
Definition check_for_zero_s_nom (t : table) : list event :=
  if String.eqb (t_class t) "Transformer" then found "zero_s_nom" t (filter (fun i => is_zero (get t "s_nom" i)) (t_index t)) else [].
Fixpoint same_index (a b : list Z) : bool := match a, b with [], [] => true | x :: a, y :: b => Z.eqb x y && same_index a b | _, _ => false end.
(* 229-281; the table of an attribute exists if it varies *)
Definition check_time_series (n : net) (t : table) : list event :=
  flat_map (fun a => if at_varying a && at_static a then
    match find_col (at_name a) (t_dyn t) with
    | Some f => found "time_series" t (filter (fun c => negb (mem c (t_index t))) (map fst (f_cols f))) ++
                (if same_index (n_snaps n) (f_index f) then [] else [Found "time_series" (t_class t) [at_name a]])
    | None => [Crash]
    end else []) (t_attrs t).
(* 284-334 *)
Definition check_static_power_attributes (t : table) : list event :=
  if String.eqb (t_class t) "TransformerType" then [] else
  match find (fun a => at_static a && mem (at_name a) ["p_nom"; "s_nom"; "e_nom"]) (t_attrs t) with
  | None => []
  | Some a => let lo := (at_name a ++ "_min")%string in let hi := (at_name a ++ "_max")%string in
    found "static_power_attrs" t (filter (fun i => lt (get t hi i) (get t lo i)) (t_index t)) ++
    flat_map (fun col => if existsb (fun i => is_true (get t (at_name a ++ "_extendable")%string i) && is_nan (get t col i)) (t_index t)
      then [Found "static_power_attrs" (t_class t) [col]] else []) [lo; hi]
  end.
(* get_switchable_as_dense (C07): the series where there is one, else the static value *)
Definition dense (n : net) (t : table) (a i : string) : list cell :=
  match find_col a (t_dyn t) with
  | Some f => match find_col i (f_cols f) with Some v => v | None => map (fun _ => get t a i) (n_snaps n) end
  | None => map (fun _ => get t a i) (n_snaps n)
  end.
Fixpoint zip {A B} (l : list A) (m : list B) : list (A * B) := match l, m with x :: l, y :: m => (x, y) :: zip l m | _, _ => [] end.
(* 337-429; infinite minus infinite is NaN, so equal infinities are no negative difference *)
Definition check_time_series_power_attributes (n : net) (t : table) : list event :=
  if String.eqb (t_class t) "TransformerType" then [] else
  match find (fun a => at_varying a && mem (at_name a) ["p_max_pu"; "e_max_pu"]) (t_attrs t) with
  | None => []
  | Some a => let p := String (match at_name a with String c _ => c | "" => "x"%char end) "" in
    let hi := dense n t (p ++ "_max_pu") in let lo := dense n t (p ++ "_min_pu") in
    let each (bad : string -> bool) := map (fun i => Found "time_series_power_attrs" (t_class t) [i]) (filter bad (t_index t)) in
    each (fun i => existsb is_nan (hi i)) ++ each (fun i => existsb is_nan (lo i)) ++
    each (fun i => existsb is_inf (hi i)) ++ each (fun i => existsb is_inf (lo i)) ++
    each (fun i => existsb (fun hl => lt (fst hl) (snd hl)) (zip (hi i) (lo i)))
  end.
(* 432-468: Generator and Link have p_nom_extendable *)
Definition check_assets (t : table) : list event :=
  if mem (t_class t) ["Generator"; "Link"] then
    found "assets" t (filter (fun i => is_true (get t "committable" i) && is_true (get t "p_nom_extendable" i)) (t_index t)) else [].
(* 471-525 *)
Definition check_generators (t : table) : list event :=
  if String.eqb (t_class t) "Generator" then
    found "generators" t (filter (fun i => is_true (get t "committable" i) && lt (Num 0) (get t "up_time_before" i) && lt (Num 0) (get t "down_time_before" i)) (t_index t)) ++
    found "generators" t (filter (fun i => lt (get t "e_sum_max" i) (get t "e_sum_min" i)) (t_index t))
  else [].
Definition frame_empty (f : frame) : bool := nil_b (f_cols f) || nil_b (f_index f).
(* 528-587 *)
Definition check_dtypes_ (t : table) : list event :=
  found "dtypes" t (filter (fun a => negb (String.eqb (t_dtype t a) (match find (fun r => String.eqb (at_name r) a) (t_attrs t) with Some r => at_dtype r | None => "" end)))
    (filter (fun a => negb (String.eqb a "name")) (map at_name (filter at_static (t_attrs t))))) ++
  flat_map (fun a => if at_varying a then
    match find_col (at_name a) (t_dyn t) with
    | Some f => if frame_empty f then [] else found "dtypes" t (filter (fun c => negb (String.eqb (f_dtype f c) (at_dtype a))) (map fst (f_cols f)))
    | None => [Crash]
    end else []) (t_attrs t).
(* 680-748; both checks go over sets and dictionaries, whose order we take to be that of the columns *)
Definition check_nans (t : table) : list event :=
  let relevant (k : string) := existsb (fun a => String.eqb (at_name a) k && negb (is_nan (at_default a)) && negb (is_empty (at_default a))) (t_attrs t) in
  found "nans_for_component_default_attrs" t (map fst (filter (fun kc => relevant (fst kc) && existsb (fun i => is_nan (snd kc i)) (t_index t)) (t_cols t))) ++
  flat_map (fun kf => if relevant (fst kf) && negb (frame_empty (snd kf)) then
    found "nans_for_component_default_attrs" t (map fst (filter (fun c => existsb is_nan (snd c)) (f_cols (snd kf)))) else []) (t_dyn t).
(* 79-108 *)
Definition connected (n : net) : list cell :=
  flat_map (fun t => flat_map (fun kc => map (snd kc) (t_index t)) (bus_columns t)) (tables n).
Definition cell_is (s : string) (c : cell) : bool := match c with Str s' => String.eqb s s' | _ => false end.
Definition check_for_disconnected_buses (n : net) : list event :=
  let l := filter (fun b => negb (existsb (cell_is b) (connected n))) (index_of n "Bus") in
  if nil_b l then [] else [Found "disconnected_buses" "" l].
Definition of_class (n : net) (c : string) : list table := filter (fun t => String.eqb (t_class t) c) (tables n).
(* 590-631 *)
Definition constraint_periods (n : net) : list cell :=
  filter (fun c => negb (is_nan c)) (flat_map (fun t => map (get t "investment_period") (t_index t)) (of_class n "GlobalConstraint")).
Definition in_period (l : list Z) (c : cell) : bool := match c with Num q => existsb (fun p => Qeq_bool q (inject_Z p)) l | _ => false end.
Definition check_investment_periods (n : net) : list event :=
  match n_periods n with
  | Some ps => if forallb (in_period ps) (constraint_periods n) then [] else [Found "investment_periods" "" []]
  | None => if nil_b (constraint_periods n) then [] else [Found "investment_periods" "" []]
  end.
(* 634-677: c in all_components iff there is a table of that class *)
Definition check_shapes (n : net) : list event :=
  flat_map (fun s => flat_map (fun t =>
      found "shapes" t (filter (fun i => cell_is (t_class t) (get s "component" i) && negb (existsb (fun j => cell_is j (get s "idx" i)) (t_index t))) (t_index s)))
    (tables n)) (of_class n "Shape").

Inductive error := ConsistencyError (key : string) | ValueError.
(* 33-39, and 612-614 and 621-623 for investment periods: what is logged, and the exception *)
Definition raised (key : string) : error := if String.eqb key "investment_periods" then ValueError else ConsistencyError key.
Fixpoint run (strict : bool) (es : list event) : list event * option error :=
  match es with
  | [] => ([], None)
  | Crash :: _ => ([], Some ValueError)
  | Found k c i :: es => if strict then ([], Some (raised k)) else let '(w, e) := run strict es in (Found k c i :: w, e)
  end.
Fixpoint run_all (strict : string -> bool) (l : list (string * list event)) : list event * option error :=
  match l with
  | [] => ([], None)
  | (k, es) :: l => match run (strict k) es with
    | (w, Some e) => (w, Some e)
    | (w, None) => let '(w', e) := run_all strict l in (w ++ w', e)
    end
  end.
(* 846-871: the word looked up in strict, and the check *)
Definition component_checks (n : net) (dtypes : bool) (t : table) : list (string * list event) :=
  [("unknown_buses", check_for_unknown_buses n t); ("unkown_carriers", check_for_unknown_carriers n t); ("time_series", check_time_series n t);
   ("static_power_attrs", check_static_power_attributes t); ("time_series_power_attrs", check_time_series_power_attributes n t);
   ("nans_for_component_default_attrs", check_nans t); ("zero_impedances", check_for_zero_impedances t); ("zero_s_nom", check_for_zero_s_nom t);
   ("assets", check_assets t); ("generators", check_generators t)] ++ (if dtypes then [("dtypes", check_dtypes_ t)] else []).
(* 817-832 *)
Definition strict_options : list string :=
  ["unknown_buses"; "unknown_carriers"; "time_series"; "static_power_attrs"; "time_series_power_attrs"; "nans_for_component_default_attrs"; "zero_impedances";
   "zero_s_nom"; "assets"; "generators"; "disconnected_buses"; "investment_periods"; "shapes"; "dtypes"].
(* 761-880; networks.py 1780-1790: empty tables are skipped *)
Definition plan (n : net) (dtypes : bool) : list (string * list event) :=
  flat_map (component_checks n dtypes) (filter (fun t => negb (nil_b (t_index t))) (tables n)) ++
  [("disconnected_buses", check_for_disconnected_buses n); ("investment_periods", check_investment_periods n); ("shapes", check_shapes n)].
Definition consistency_check (n : net) (dtypes : bool) (strict : list string) : list event * option error :=
  let strict := if mem "all" strict then strict_options else strict in
  if forallb (fun s => mem s strict_options) strict then run_all (fun k => mem k strict) (plan n dtypes) else ([], Some ValueError).
