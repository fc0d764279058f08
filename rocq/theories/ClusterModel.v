From Coq Require Import List String Bool QArith Arith Ascii.
Import ListNotations.
Open Scope string_scope.
Open Scope list_scope.
Open Scope Q_scope.

(* Spatial clustering: pypsa/clustering/spatial.py 28-105, 138-596. Numeric columns are finite; infinite capacities are
   not modelled. NaN is None where it is treated specially. *)

(* 87-105 *)
Fixpoint sum_nan (l : list (option Q)) : option Q :=
  match l with
  | [] => Some 0
  | None :: _ => None
  | Some q :: r => option_map (Qplus q) (sum_nan r)
  end.
Definition normed_or_uniform (l : list (option Q)) : list Q :=
  match sum_nan l with
  | Some s => if Qle_bool s 0 then map (fun _ => 1 / inject_Z (Z.of_nat (List.length l))) l
              else map (fun q => match q with Some q => q / s | None => 0 end) l
  | None => map (fun _ => 1 / inject_Z (Z.of_nat (List.length l))) l
  end.

Inductive strategy := Sum | CapacityAverage | Mean | Min | Max | Const (q : Q) | Consense.
Record oneport := { o_name : string; o_bus : string; o_carrier : string; o_num : string -> Q }.
Record out := { u_name : string; u_bus : option string; u_carrier : string; u_num : string -> option Q }.

(* 28-57: default strategies of one-port components *)
Definition default_strategy (attr : string) : strategy :=
  if existsb (String.eqb attr) ["p"; "q"; "p_set"; "q_set"; "p_nom"; "p_nom_max"; "p_nom_min"; "e_nom"; "e_nom_max"; "e_nom_min"; "weight"; "inflow"] then Sum
  else if existsb (String.eqb attr) ["ramp_limit_up"; "ramp_limit_down"; "ramp_limit_start_up"; "ramp_limit_shut_down"] then Mean
  else if existsb (String.eqb attr) ["p_max_pu"; "p_min_pu"; "capital_cost"; "marginal_cost"; "efficiency"; "max_hours"] then CapacityAverage
  else if String.eqb attr "build_year" then Const 0
  else Consense.

Section Agg.
Context {A : Type}.
Definition sum_of (f : A -> Q) (l : list A) : Q := fold_right (fun a q => f a + q) 0 l.
Fixpoint dot (f : A -> Q) (l : list A) (w : list Q) : Q :=
  match l, w with a :: l, q :: w => f a * q + dot f l w | _, _ => 0 end.
Fixpoint min_of (f : A -> Q) (d : Q) (l : list A) : Q := match l with [] => d | a :: r => min_of f (if Qle_bool (f a) d then f a else d) r end.
Fixpoint max_of (f : A -> Q) (d : Q) (l : list A) : Q := match l with [] => d | a :: r => max_of f (if Qle_bool d (f a) then f a else d) r end.
(* 229-241 and agg(...); None: the assertion of make_consense fails (126-133) *)
Definition combine (s : strategy) (cap f : A -> Q) (l : list A) : option Q :=
  match s with
  | Sum => Some (sum_of f l)
  | CapacityAverage => Some (dot f l (normed_or_uniform (map (fun a => Some (cap a)) l)))
  | Mean => Some (sum_of f l / inject_Z (Z.of_nat (List.length l)))
  | Min => match l with [] => None | a :: r => Some (min_of f (f a) r) end
  | Max => match l with [] => None | a :: r => Some (max_of f (f a) r) end
  | Const q => Some q
  | Consense => match l with [] => None | a :: r => if forallb (fun b => Qeq_bool (f b) (f a)) r then Some (f a) else None end
  end.
End Agg.

(* 159-163: str.join(" ") and strip *)
Fixpoint lstrip (s : string) : string := match s with String " "%char r => lstrip r | _ => s end.
Fixpoint rstrip (s : string) : string :=
  match s with
  | EmptyString => EmptyString
  | String c r => match rstrip r with EmptyString => if Ascii.eqb c " "%char then EmptyString else String c EmptyString | t => String c t end
  end.
Definition flat_name (bus carrier : string) : string := rstrip (lstrip (bus ++ " " ++ carrier)%string).

Section C.
Variable busmap : string -> option string.

Definition key_eqb (a b : string * string) : bool := String.eqb (fst a) (fst b) && String.eqb (snd a) (snd b).
Fixpoint nodupk (l : list (string * string)) : list (string * string) :=
  match l with [] => [] | k :: r => if existsb (key_eqb k) r then nodupk r else k :: nodupk r end.
(* grouper [bus, carrier]; rows whose bus is not mapped belong to no group *)
Definition key (r : oneport) : option (string * string) := option_map (fun b => (b, o_carrier r)) (busmap (o_bus r)).
Definition keys (l : list oneport) : list (string * string) := nodupk (flat_map (fun r => match key r with Some k => [k] | None => [] end) l).
Definition group (k : string * string) (l : list oneport) : list oneport :=
  filter (fun r => match key r with Some k' => key_eqb k k' | None => false end) l.

(* 171-291; cap: p_nom or e_nom; strat: aligned strategies; sel: 211-221; cols: the columns (an assertion failing in one raises) *)
Definition aggregateoneport (cap : string) (strat : string -> strategy) (cols : list string) (sel : oneport -> bool) (l : list oneport) : option (list out) :=
  let s := filter sel l in
  if forallb (fun k => forallb (fun c => match combine (strat c) (fun r => o_num r cap) (fun r => o_num r c) (group k s) with Some _ => true | None => false end) cols) (keys s)
  then Some (
    map (fun k => {| u_name := flat_name (fst k) (snd k); u_bus := Some (fst k); u_carrier := snd k;
                     u_num := fun c => combine (strat c) (fun r => o_num r cap) (fun r => o_num r c) (group k s) |}) (keys s) ++
    map (fun r => {| u_name := o_name r; u_bus := busmap (o_bus r); u_carrier := o_carrier r; u_num := fun c => Some (o_num r c) |}) (filter (fun r => negb (sel r)) l))
  else None.

(* lines: 329-451. length_factor and voltage_factor (from coordinates and voltages) are parameters of a line *)
Record line := { l_name : string; l_bus0 : string; l_bus1 : string; l_num : string -> Q; l_length_factor : Q; l_voltage_factor : Q }.
Record lout := { v_bus0 : string; v_bus1 : string; v_num : string -> Q }.
(* 373-375: != of the mapped buses; a missing one is NaN and NaN != NaN *)
Definition between (l : line) : bool :=
  match busmap (l_bus0 l), busmap (l_bus1 l) with Some a, Some b => negb (String.eqb a b) | _, _ => true end.
Definition str_lt (a b : string) : bool := match String.compare a b with Lt => true | _ => false end.
(* 384-387, 395-397 *)
Definition ends (l : line) : option (string * string) :=
  match busmap (l_bus0 l), busmap (l_bus1 l) with Some a, Some b => Some (if str_lt b a then (b, a) else (a, b)) | _, _ => None end.
Definition line_keys (ls : list line) : list (string * string) := nodupk (flat_map (fun l => match ends l with Some k => [k] | None => [] end) ls).
Definition line_group (k : string * string) (ls : list line) : list line := filter (fun l => match ends l with Some k' => key_eqb k k' | None => false end) ls.
(* 65-84, 412-427 *)
Definition line_value (c : string) (g : list line) : Q :=
  let w := normed_or_uniform (map (fun l => Some (l_num l "s_nom")) g) in
  if existsb (String.eqb c) ["s_nom"; "s_nom_min"; "s_nom_max"; "num_parallel"] then sum_of (fun l => l_num l c) g
  else if existsb (String.eqb c) ["r"; "x"] then / sum_of (fun l => l_voltage_factor l / (l_length_factor l * l_num l c)) g
  else if existsb (String.eqb c) ["g"; "b"] then sum_of (fun l => l_voltage_factor l * l_length_factor l * l_num l c) g
  else if String.eqb c "capital_cost" then dot (fun l => l_num l c * l_length_factor l) g w
  else dot (fun l => l_num l c) g w.
Definition aggregatelines (ls : list line) : list lout :=
  let s := filter between ls in
  map (fun k => {| v_bus0 := fst k; v_bus1 := snd k; v_num := fun c => line_value c (line_group k s) |}) (line_keys s).

(* links: 565-569; the further ports are left as they are *)
Record link := { k_name : string; k_bus0 : string; k_bus1 : string; k_more : list string }.
Definition clustered_links (ls : list link) : list link :=
  flat_map (fun l => match busmap (k_bus0 l), busmap (k_bus1 l) with
    | Some a, Some b => if String.eqb a b then [] else [{| k_name := k_name l; k_bus0 := a; k_bus1 := b; k_more := k_more l |}]
    | _, _ => [] end) ls.
End C.

(* the buses of the clustered network: 326-328 *)
Definition clustered_buses (busmap : string -> option string) (bs : list string) : list string :=
  nodup string_dec (flat_map (fun b => match busmap b with Some c => [c] | None => [] end) bs).

(* 470-596: classes of the clustered network; transformers are not carried over *)
Record branches := { lines : list line; links : list link; trafos : list line }.
Definition clustered (busmap : string -> option string) (n : branches) : list lout * list link * list line :=
  (aggregatelines busmap (lines n), clustered_links busmap (links n), []).
