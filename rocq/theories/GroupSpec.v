From Coq Require Import List String Bool QArith Arith.
From Verif Require Import GroupModel.
From Verif Require BalanceSpec.
Import ListNotations.
Open Scope string_scope.
Open Scope list_scope.
Notation total := BalanceSpec.total.

Section N.
Variable n : net.
Variable search : string -> string -> bool.

(* the bus of a port has the entry v in column col *)
Definition bus_entry (c : class) (port col row v : string) : Prop :=
  exists b, k_cell c ("bus" ++ port) row = Some b /\ In b (t_rows (n_buses n)) /\ t_cell (n_buses n) col b = Some v.

(* what an argument bus_carrier or carrier asks for: a name if there is such a carrier, else a pattern; or one of a list *)
Definition wanted (p : pick) (known : string -> Prop) (k : string) : Prop :=
  match p with
  | All => True
  | One s => (known s /\ k = s) \/ (~ known s /\ search s k = true)
  | Many l => In k l
  end.
Definition on_wanted_bus (r : args) (c : class) (port row : string) : Prop :=
  g_bus_carrier r = All \/
  exists k, bus_entry c port "carrier" row k /\
    wanted (g_bus_carrier r) (fun s => exists b, In b (t_rows (n_buses n)) /\ t_cell (n_buses n) "carrier" b = Some s) k.
Definition candidate (r : args) (c : class) (port row : string) : Prop :=
  In row (k_rows c) /\ k_active c row = true /\ on_wanted_bus r c port row.
(* the assets of a class counted at a port; whether a name of a carrier is known depends on the other candidates, and classes
   without carriers are not filtered by them *)
Definition selected (r : args) (c : class) (port row : string) : Prop :=
  candidate r c port row /\
  (g_carrier r = All \/ ~ In "carrier" (k_cols c) \/
   exists k, k_cell c "carrier" row = Some k /\
     wanted (g_carrier r) (fun s => exists row', candidate r c port row' /\ k_cell c "carrier" row' = Some s) k).

(* the text shown for a carrier *)
Definition shown (nice_names : bool) (s s' : string) : Prop :=
  if nice_names
  then s' <> "" /\ (In (s, s') (n_nice n) \/
                    ((forall t, In (s, t) (n_nice n) -> t = "") /\ (s' = s \/ (s = "" /\ s' = "-"))))
  else s' = s.

(* the entry of an asset in a grouping *)
Inductive entry_of (c : class) (port row : string) (nice_names : bool) : string -> string -> Prop :=
| Of_carrier s s' : (if in_dec string_dec "carrier" (k_cols c) then k_cell c "carrier" row = Some s else s = "") -> shown nice_names s s' ->
    entry_of c port row nice_names "carrier" s'
| Of_bus_carrier s s' : bus_entry c port "carrier" row s -> shown nice_names s s' -> entry_of c port row nice_names "bus_carrier" s'
| Of_bus b : k_cell c ("bus" ++ port) row = Some b -> entry_of c port row nice_names "bus" b
| Of_name : entry_of c port row nice_names "name" row
| Of_place col v : In col ["country"; "location"; "unit"] -> bus_entry c port col row v -> entry_of c port row nice_names col v
| Of_column col v : ~ In col ["carrier"; "bus_carrier"; "bus"; "name"; "country"; "location"; "unit"] -> k_cell c col row = Some v ->
    entry_of c port row nice_names col v.
(* groupby = False gives the names *)
Definition grouped_as (r : args) (c : class) (port row : string) (k : list string) : Prop :=
  match g_groupby r with
  | None => k = [row]
  | Some ks => Forall2 (entry_of c port row (g_nice r)) ks k
  end.

(* a grouping that can be asked for *)
Definition known_key (c : class) (key : string) : Prop :=
  In key ["carrier"; "bus_carrier"; "bus"; "name"] \/
  (In key ["country"; "location"; "unit"] /\ t_has (n_buses n) key = true) \/
  (~ In key ["country"; "location"; "unit"] /\ In key (k_cols c)).

(* the columns of buses counted: all, or the first *)
Definition bus_columns (r : args) (c : class) : list string :=
  let l := filter (prefix "bus") (k_cols c) in if g_at_port r then l else match l with p :: _ => [p] | [] => [] end.
End N.

Open Scope Q_scope.
(* the value reported under a key *)
Definition reported (c : string) (k : list string) (l : list ((string * list string) * Q)) : Q :=
  total (fun e => if string_dec c (fst (fst e)) then if list_eq_dec string_dec k (snd (fst e)) then snd e else 0 else 0) l.

Definition with_groupby (ks : list string) (r : args) : args :=
  {| g_groupby := Some ks; g_at_port := g_at_port r; g_bus_carrier := g_bus_carrier r; g_carrier := g_carrier r; g_nice := g_nice r; g_across := g_across r |}.
Definition with_bus_carrier (p : pick) (r : args) : args :=
  {| g_groupby := g_groupby r; g_at_port := g_at_port r; g_bus_carrier := p; g_carrier := g_carrier r; g_nice := g_nice r; g_across := g_across r |}.
Definition with_carrier (p : pick) (r : args) : args :=
  {| g_groupby := g_groupby r; g_at_port := g_at_port r; g_bus_carrier := g_bus_carrier r; g_carrier := p; g_nice := g_nice r; g_across := g_across r |}.
Definition with_nice (b : bool) (r : args) : args :=
  {| g_groupby := g_groupby r; g_at_port := g_at_port r; g_bus_carrier := g_bus_carrier r; g_carrier := g_carrier r; g_nice := b; g_across := g_across r |}.

(* keys with carriers spelt as in the table of carriers, and as shown *)
Inductive renamed (n : net) : list string -> list string -> list string -> Prop :=
| Renamed_nil : renamed n [] [] []
| Renamed_cons key s s' ks k k' : (if in_dec string_dec key ["carrier"; "bus_carrier"] then shown n true s s' else s' = s) ->
    renamed n ks k k' -> renamed n (key :: ks) (s :: k) (s' :: k').
(* an argument which names carriers: a list, or a text that is a known carrier *)
Definition names (known : string -> Prop) (p : pick) (ss : list string) : Prop :=
  (p = Many ss /\ NoDup ss) \/ exists s, p = One s /\ ss = [s] /\ known s.
