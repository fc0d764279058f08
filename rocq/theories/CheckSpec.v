From Coq Require Import List String Ascii Bool QArith ZArith Arith.
From Verif Require Import CheckModel.
Import ListNotations.
Open Scope string_scope.
Open Scope list_scope.

Definition defined (n : net) (c s : string) : Prop := exists t, In t (tables n) /\ t_class t = c /\ In s (t_index t).
(* a cell of a bus column refers to a bus *)
Definition refers (c : cell) (s : string) : Prop := c = Str s \/ (c = NaN /\ s = "nan").
Definition branch (t : table) : Prop := t_class t = "Line" \/ t_class t = "Transformer" \/ t_class t = "Link".
(* "bus2", ..., "bus9", "bus10", ... except those ending in 0 or 1 *)
Definition further_port (t : table) (k : string) : Prop := branch t /\ exists d, last_int k = Some d /\ (d <> 0)%nat /\ (d <> 1)%nat.
Definition holds (t : table) (col : string) (f : string -> cell) : Prop := In (col, f) (t_cols t).
Definition at_port (k : string) : Prop := String.prefix "bus" k = true.
Definition unknown_bus (n : net) (t : table) (i : string) : Prop :=
  In i (t_index t) /\ exists k f, holds t k f /\ at_port k /\ (forall b, defined n "Bus" b -> ~ refers (f i) b) /\ (further_port t k -> f i <> Str "").
Definition unknown_carrier (n : net) (t : table) (i : string) : Prop :=
  In i (t_index t) /\ exists f, find_col "carrier" (t_cols t) = Some f /\ f i <> NaN /\ f i <> Str "" /\ forall c, defined n "Carrier" c -> f i <> Str c.
Definition less (a b : cell) : Prop :=
  match a, b with
  | Num p, Num q => (p < q)%Q
  | NInf, Num _ | NInf, PInf | Num _, PInf => True
  | _, _ => False
  end.
Definition zero (c : cell) : Prop := exists q, c = Num q /\ (q == 0)%Q.
Definition inf (c : cell) : Prop := c = PInf \/ c = NInf.
Definition first_attr (t : table) (p : attr -> Prop) (a : attr) : Prop := exists l r, t_attrs t = l ++ a :: r /\ p a /\ forall b, In b l -> ~ p b.
Definition capacity_attr (a : attr) : Prop := at_static a = true /\ In (at_name a) ["p_nom"; "s_nom"; "e_nom"].
Definition limit_attr (a : attr) : Prop := at_varying a = true /\ In (at_name a) ["p_max_pu"; "e_max_pu"].
Definition has_default (t : table) (k : string) : Prop := exists a, In a (t_attrs t) /\ at_name a = k /\ at_default a <> NaN /\ at_default a <> Str "".
Definition series_of (t : table) (k : string) (f : frame) : Prop := find_col k (t_dyn t) = Some f.

(* values of a limit: the series of the component if it has one, else its static value at every snapshot *)
Definition own_series (t : table) (a i : string) : option (list cell) := match find_col a (t_dyn t) with Some f => find_col i (f_cols f) | None => None end.
Definition values (n : net) (t : table) (a i : string) : list cell := match own_series t a i with Some v => v | None => repeat (get t a i) (List.length (n_snaps n)) end.

(* what each check promises to find *)
Inductive faulty (n : net) (t : table) : string -> Prop :=
| Bus i : unknown_bus n t i -> faulty n t "unknown_buses"
| Carrier i : unknown_carrier n t i -> faulty n t "unknown_carriers"
| Column a f c : In a (t_attrs t) -> at_varying a = true -> at_static a = true -> series_of t (at_name a) f -> In c (map fst (f_cols f)) -> ~ In c (t_index t) -> faulty n t "time_series"
| Index a f : In a (t_attrs t) -> at_varying a = true -> at_static a = true -> series_of t (at_name a) f -> f_index f <> n_snaps n -> faulty n t "time_series"
| Limits a i : t_class t <> "TransformerType" -> first_attr t capacity_attr a -> In i (t_index t) ->
    less (get t (at_name a ++ "_max") i) (get t (at_name a ++ "_min") i) -> faulty n t "static_power_attrs"
| Open a i e : t_class t <> "TransformerType" -> first_attr t capacity_attr a -> In i (t_index t) -> get t (at_name a ++ "_extendable") i = Flag true -> In e ["_min"; "_max"] ->
    get t (at_name a ++ e) i = NaN -> faulty n t "static_power_attrs"
| Bad a i p e v : t_class t <> "TransformerType" -> first_attr t limit_attr a -> String.prefix p (at_name a) = true -> String.length p = 1%nat -> In i (t_index t) ->
    In e ["_max_pu"; "_min_pu"] -> In v (values n t (p ++ e) i) -> v = NaN \/ inf v -> faulty n t "time_series_power_attrs"
| Crossed a i p k : t_class t <> "TransformerType" -> first_attr t limit_attr a -> String.prefix p (at_name a) = true -> String.length p = 1%nat -> In i (t_index t) ->
    less (nth k (values n t (p ++ "_max_pu") i) NaN) (nth k (values n t (p ++ "_min_pu") i) NaN) -> faulty n t "time_series_power_attrs"
| Hole k f i : holds t k f -> has_default t k -> In i (t_index t) -> f i = NaN -> faulty n t "nans_for_component_default_attrs"
| Gap k f c v : In (k, f) (t_dyn t) -> has_default t k -> In (c, v) (f_cols f) -> In NaN v -> f_index f <> [] -> faulty n t "nans_for_component_default_attrs"
| Impedance i a : (t_class t = "Line" \/ t_class t = "Transformer") -> In i (t_index t) -> In a ["x"; "r"] -> zero (get t a i) -> faulty n t "zero_impedances"
| Rating i : t_class t = "Transformer" -> In i (t_index t) -> zero (get t "s_nom" i) -> faulty n t "zero_s_nom"
| Both i : (t_class t = "Generator" \/ t_class t = "Link") -> In i (t_index t) -> get t "committable" i = Flag true -> get t "p_nom_extendable" i = Flag true -> faulty n t "assets"
| UpDown i : t_class t = "Generator" -> In i (t_index t) -> get t "committable" i = Flag true -> less (Num 0) (get t "up_time_before" i) -> less (Num 0) (get t "down_time_before" i) -> faulty n t "generators"
| Energy i : t_class t = "Generator" -> In i (t_index t) -> less (get t "e_sum_max" i) (get t "e_sum_min" i) -> faulty n t "generators"
| Static a : In a (t_attrs t) -> at_static a = true -> at_name a <> "name" -> t_dtype t (at_name a) <> at_dtype a -> faulty n t "dtypes"
| Varying a f c : In a (t_attrs t) -> at_varying a = true -> series_of t (at_name a) f -> f_index f <> [] -> In c (map fst (f_cols f)) -> f_dtype f c <> at_dtype a -> faulty n t "dtypes".
Inductive faulty_net (n : net) : string -> Prop :=
| Lonely b : defined n "Bus" b -> (forall t k f i, In t (tables n) -> holds t k f -> at_port k -> In i (t_index t) -> f i <> Str b) -> faulty_net n "disconnected_buses"
| Period t i c : In t (tables n) -> t_class t = "GlobalConstraint" -> In i (t_index t) -> get t "investment_period" i = c -> c <> NaN ->
    (forall ps p q, n_periods n = Some ps -> In p ps -> c = Num q -> ~ (q == inject_Z p)%Q) -> faulty_net n "investment_periods"
| Shape s t i : In s (tables n) -> t_class s = "Shape" -> In i (t_index s) -> In t (tables n) -> get s "component" i = Str (t_class t) ->
    (forall j, In j (t_index t) -> get s "idx" i <> Str j) -> faulty_net n "shapes".
Definition violated (n : net) (dtypes : bool) (key : string) : Prop :=
  (exists t, In t (tables n) /\ t_index t <> [] /\ faulty n t key /\ (key = "dtypes" -> dtypes = true)) \/ faulty_net n key.

(* the tables are as PyPSA creates them: ports of branches end in a digit, varying attributes have tables, attribute names are unique *)
Definition well_formed (n : net) : Prop := forall t, In t (tables n) ->
  (branch t -> forall k f, holds t k f -> at_port k -> last_int k <> None) /\
  (forall a, In a (t_attrs t) -> at_varying a = true -> exists f, series_of t (at_name a) f) /\ NoDup (map at_name (t_attrs t)).
Definition valid (strict : list string) : Prop := In "all" strict \/ incl strict strict_options.
Definition asked (strict : list string) (key : string) : Prop := In "all" strict \/ In key strict.
Definition key_of (e : event) : string := match e with Found k _ _ => k | Crash => "" end.
