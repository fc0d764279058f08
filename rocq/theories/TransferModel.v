(* Moving component tables between networks:
     /repo/pypsa/networks.py Network.__getitem__ 1590-1675, Network.copy 1466-1588
     /repo/pypsa/io.py       merge 1591-1670, _export_to_exporter 778-849 (what is written),
                             _import_from_importer 1251-1299 (what is read back)
   The writer/reader pair of a file format is taken to return the frames it was given.
   Standard line and transformer types are not modelled (networks built with
   ignore_standard_types), nor are investment periods, names, meta data and projections. *)
From Coq Require Import List String Bool ZArith.
From Verif Require Import Assoc TablesModel.
Import ListNotations.
Open Scope string_scope.
Open Scope list_scope.

(* static.at[name, a] given the row *)
Definition cell (row : dict val) (a : string) : val :=
  match dget row a with Some v => v | None => VNaN end.

(* the columns of a static frame *)
Definition columns (rows : dict (dict val)) : list string :=
  nodup string_dec (flat_map (fun e => dkeys (snd e)) rows).

(* **static : one Series per column *)
Definition static_kwargs (rows : dict (dict val)) : list (string * kwval) :=
  map (fun a => (a, Ser (dkeys rows) (map (fun e => cell (snd e) a) rows))) (columns rows).

(* the effect of add on the tables of the class (networks.py:1125-1349) *)
Definition add_comp (m : meta) (sns : list string) (single : bool) (raw : list string) (sfx : string)
  (ow : bool) (kw : list (string * kwval)) (c : comp) : comp + nerr :=
  let names := map (fun s => String.append s sfx) raw in
  if negb (nodupb names) then inr ValueErr
  else match load_kwargs single names sns sfx kw with
       | inr e => inr e
       | inl (st, se) =>
           inl (fold_left (fun c e => import_series m sns ow (fst e) (snd e) c) se
                  (import_components m sns ow names st c))
       end.

(* n.add(c, static.index, **static) *)
Definition add_frame (m : meta) (sns : list string) (rows : dict (dict val)) (c : comp) : comp + nerr :=
  add_comp m sns false (dkeys rows) "" false (static_kwargs rows) c.

(* ... followed by _import_series_from_df for each frame *)
Definition transfer (m : meta) (sns : list string) (rows : dict (dict val)) (tables : dict table)
  (c : comp) : comp + nerr :=
  match add_frame m sns rows c with
  | inr e => inr e
  | inl c1 => inl (fold_left (fun c e => import_series m sns false (fst e) (snd e) c) tables c1)
  end.

(* ---- slicing and copying ---- *)
(* dynamic[k].loc[time, names.intersection(columns)] *)
Definition restrict (time names : list string) (t : table) : table :=
  {| tindex := time;
     tcols := map (fun e => (fst e, reindex_col (tindex t) time VNaN (snd e)))
                  (filter (fun e => mem (fst e) names) (tcols t)) |}.

(* new tables of one class: add the rows to an empty network, set the snapshots, then assign the
   time series frames of the source (networks.py:1643-1663, 1546-1571) *)
Definition rebuild (m : meta) (rows : dict (dict val)) (time : list string) (src : comp) : comp + nerr :=
  match add_frame m ["now"] rows (empty_comp m) with
  | inr e => inr e
  | inl c1 =>
      let c2 := set_snapshots_comp m time c1 in
      inl {| static := static c2;
             dyn := fold_left (fun d e => dset d (fst e) (restrict time (dkeys rows) (snd e)))
                              (dyn src) (dyn c2) |}
  end.

Inductive role : Type := RBus | ROnePort | RBranch | ROther | RSkip.

Definition is_name_in (v : val) (l : list string) : bool :=
  match v with VStr s => mem s l | _ => false end.

(* networks.py:1619-1647: rows that enter the slice, key = list of bus names *)
Definition slice_rows (r : role) (key : list string) (c : comp) : option (dict (dict val)) :=
  match r with
  | RBus =>
      if forallb (fun b => mem b (names_of c)) key
      then Some (map (fun b => (b, dset (match dget (static c) b with Some row => row | None => [] end)
                                        "sub_network" (VStr ""))) key)
      else None
  | ROnePort => Some (filter (fun e => is_name_in (cell (snd e) "bus") key) (static c))
  | RBranch => Some (filter (fun e => is_name_in (cell (snd e) "bus0") key &&
                                      is_name_in (cell (snd e) "bus1") key) (static c))
  | ROther => Some (static c)
  | RSkip => Some []
  end.

Fixpoint map_opt {A B} (f : A -> option B) (l : list A) : option (list B) :=
  match l with
  | [] => Some []
  | x :: r => match f x, map_opt f r with Some y, Some ys => Some (y :: ys) | _, _ => None end
  end.

Section Net.
Variable metas : dict meta.
Variable role_of : string -> role.

(* n[time, key]; None when a call inside raises. Classes are independent, so the order in which they
   are rebuilt does not matter. *)
Definition slice (n : net) (key time : list string) : option net :=
  if negb (forallb (fun s => mem s (snaps n)) time) then None
  else match time with
  | [] => None                                          (* set_snapshots([]) raises *)
  | _ =>
    match map_opt (fun e =>
             match slice_rows (role_of (fst e)) key (snd e) with
             | None => None
             | Some rows => match rebuild (meta_of metas (fst e)) rows time (snd e) with
                            | inl c => Some (fst e, c)
                            | inr _ => None
                            end
             end) (comps n) with
    | None => None
    | Some cs => Some {| snaps := time;
                         weights := {| tindex := time;
                                       tcols := map (fun e => (fst e,
                                          reindex_col (tindex (weights n)) time VNaN (snd e)))
                                          (tcols (weights n)) |};
                         comps := cs |}
    end
  end.

(* n.copy(snapshots=..., with_time=...): networks.py:1508-1588 *)
Definition rebuild_static (m : meta) (c : comp) : comp + nerr := add_frame m ["now"] (static c) (empty_comp m).

Definition copy (n : net) (sel : option (list string)) (with_time : option bool) : option net :=
  match sel, with_time with
  | None, None | None, Some false => Some n             (* copy.deepcopy *)
  | _, _ =>
      let sns0 := match sel with Some l => l | None => snaps n end in
      if negb (forallb (fun s => mem s (snaps n)) sns0) then None
      else
        let sns := match with_time with Some _ => [] | None => sns0 end in
        match sns with
        | [] =>
            match map_opt (fun e => match rebuild_static (meta_of metas (fst e)) (snd e) with
                                    | inl c => Some (fst e, c) | inr _ => None end) (comps n) with
            | None => None
            | Some cs => Some {| snaps := ["now"]; weights := weights (init_net metas); comps := cs |}
            end
        | _ =>
            match map_opt (fun e => match rebuild (meta_of metas (fst e)) (static (snd e)) sns (snd e) with
                                    | inl c => Some (fst e, c) | inr _ => None end) (comps n) with
            | None => None
            | Some cs => Some {| snaps := sns;
                                 weights := {| tindex := sns;
                                    tcols := map (fun e => (fst e,
                                       reindex_col (tindex (weights n)) sns VNaN (snd e)))
                                       (tcols (weights n)) |};
                                 comps := cs |}
            end
        end
  end.

(* ---- merge, io.py:1628-1670 ---- *)
Fixpoint vals_eqb (a b : list val) : bool :=
  match a, b with
  | [], [] => true
  | x :: a', y :: b' => val_eqb x y && vals_eqb a' b'
  | _, _ => false
  end.
Fixpoint tcols_eqb (a b : dict (list val)) : bool :=
  match a, b with
  | [], [] => true
  | (k, x) :: a', (k', y) :: b' => String.eqb k k' && vals_eqb x y && tcols_eqb a' b'
  | _, _ => false
  end.
(* DataFrame.equals of the weightings (columns in one fixed order) *)
Definition table_eqb (a b : table) : bool :=
  list_eqb (tindex a) (tindex b) && tcols_eqb (tcols a) (tcols b).

(* one class: iterate_components skips classes without components *)
Definition merge_comp (with_time : bool) (m : meta) (sns : list string) (oc c : comp) : comp + nerr :=
  match static oc with
  | [] => inl c
  | _ => transfer m sns (static oc) (if with_time then dyn oc else []) c
  end.

Definition overlap (oc c : comp) : bool :=
  existsb (fun x => mem x (names_of c)) (names_of oc).

(* classes: the list of classes to iterate over (Bus first, the rest sorted, skipped ones left out) *)
Definition merge (n other : net) (classes : list string) (with_time : bool) : net + nerr :=
  if existsb (fun cls => match dget (comps other) cls, dget (comps n) cls with
                         | Some oc, Some c => overlap oc c | _, _ => false end) classes
  then inr ValueErr
  else if with_time && negb (list_eqb (snaps n) (snaps other)) then inr ValueErr
  else if with_time && negb (table_eqb (weights n) (weights other)) then inr ValueErr
  else
    match fold_left (fun acc cls =>
        match acc with
        | inr e => inr e
        | inl n1 =>
            match dget (comps other) cls, dget (comps n1) cls with
            | Some oc, Some c =>
                match merge_comp with_time (meta_of metas cls) (snaps n1) oc c with
                | inl c' => inl {| snaps := snaps n1; weights := weights n1;
                                   comps := dset (comps n1) cls c' |}
                | inr e => inr e
                end
            | _, _ => inr KeyErr
            end
        end) classes (inl n) with
    | inl n' => inl n'
    | inr e => inr e
    end.

End Net.

(* ---- export and import of one class ---- *)
(* python/pandas equality: NaN differs from everything *)
Definition py_eq (a b : val) : bool := negb (is_nan a) && val_eqb a b.

Definition derived : list string := ["sub_network"; "r_pu"; "x_pu"; "g_pu"; "b_pu"].

(* io.py:801-818 *)
Definition keep_static (m : meta) (rows : dict (dict val)) (a : string) : bool :=
  if mem a derived then false
  else match dget m a with
       | None => true
       | Some am =>
           if is_nan (adefault am) && forallb (fun e => is_nan (cell (snd e) a)) rows then false
           else if forallb (fun e => py_eq (cell (snd e) a) (adefault am)) rows then false
           else true
       end.

(* io.py:824-836: columns of a time-series frame that are written *)
Definition keep_series (m : meta) (a : string) (col : list val) : bool :=
  match dget m a with
  | None => true
  | Some am => if is_nan (adefault am) then existsb (fun v => negb (is_nan v)) col
               else existsb (fun v => negb (py_eq v (adefault am))) col
  end.

Record exported := { x_static : dict (dict val); x_series : dict table }.

Definition export_comp (m : meta) (c : comp) : option exported :=
  match static c with
  | [] => None
  | _ =>
    Some {| x_static := map (fun e => (fst e,
                filter (fun f => keep_static m (static c) (fst f)) (snd e))) (static c);
            x_series := filter (fun e => match tcols (snd e) with [] => false | _ => true end)
              (map (fun e => (fst e,
                 {| tindex := tindex (snd e);
                    tcols := filter (fun f => keep_series m (fst e) (snd f)) (tcols (snd e)) |}))
                 (dyn c)) |}
  end.

(* io.py:1233-1290 for one class: the new network has its snapshots set already *)
Definition import_comp (m : meta) (sns : list string) (x : option exported) : comp + nerr :=
  let c0 := set_snapshots_comp m sns (empty_comp m) in
  match x with
  | None => inl c0
  | Some x => transfer m sns (x_static x) (x_series x) c0
  end.
