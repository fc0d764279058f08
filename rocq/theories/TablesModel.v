(* Model of the component tables of a network and the calls that change them:
     /repo/pypsa/networks.py   Network.add 1125-1349, Network.remove 1351-1389,
                               Network.set_snapshots 691-788
     /repo/pypsa/io.py         _import_components_from_df 1399-1514, _import_series_from_df 1517-1587
     /repo/pypsa/descriptors.py get_switchable_as_dense 31-83

   A DataFrame of static data is an ordered list of (component name, row); a DataFrame of time series
   has an explicit row index and one value list per column, so that misalignment is expressible.
   Values: numbers are integers standing for float bit patterns (only equality matters here).
   Snapshots are single-level labels (strings).

   Simplifications: no dtype conversion (values are assumed to have the attribute's type, so the
   astype at io.py:1436-1450 is the identity); column order of frames is insertion order (pandas
   `union` sorts; order is not observable in any statement below); geometries, logging and the
   bus-existence warning (io.py:1452-1466) are left out; update_linkports_component_attrs is left out
   (the attribute table of Link is assumed to contain the ports used). *)
From Coq Require Import List String Bool ZArith.
From Verif Require Import Assoc.
Import ListNotations.
Open Scope string_scope.
Open Scope list_scope.

Inductive val : Type := VNum (z : Z) | VStr (s : string) | VBool (b : bool) | VNaN.

Definition val_eqb (a b : val) : bool :=
  match a, b with
  | VNum x, VNum y => Z.eqb x y
  | VStr x, VStr y => String.eqb x y
  | VBool x, VBool y => Bool.eqb x y
  | VNaN, VNaN => true
  | _, _ => false
  end.

Definition is_nan (v : val) : bool := match v with VNaN => true | _ => false end.

(* attribute kinds of the component CSV files: "series", "static or series", anything else.
   components/types.py:95-96: static = type != "series", varying = type in {series, static or series} *)
Inductive kind : Type := KStatic | KSeries | KBoth.
Record ameta := { akind : kind; adefault : val }.
Definition meta := dict ameta.

Definition is_static_kind (k : kind) : bool := match k with KSeries => false | _ => true end.
Definition is_varying_kind (k : kind) : bool := match k with KStatic => false | _ => true end.

Definition varying (m : meta) (a : string) : bool :=
  match dget m a with Some am => is_varying_kind (akind am) | None => false end.
Definition is_series (m : meta) (a : string) : bool :=
  match dget m a with Some am => negb (is_static_kind (akind am)) | None => false end.
Definition default_of (m : meta) (a : string) : val :=
  match dget m a with Some am => adefault am | None => VNaN end.

(* ---- DataFrames ---- *)
Record table := { tindex : list string; tcols : dict (list val) }.

Definition mem (x : string) (l : list string) : bool := existsb (String.eqb x) l.

(* value of a column stored against row index idx at row s *)
Definition colget (idx : list string) (col : list val) (s : string) : option val :=
  dget (combine idx col) s.

(* df.at[s, name] *)
Definition tget (t : table) (name s : string) : option val :=
  match dget (tcols t) name with
  | None => None
  | Some col => colget (tindex t) col s
  end.

(* df.reindex(new, fill_value=fill) on rows *)
Definition reindex_col (old new : list string) (fill : val) (col : list val) : list val :=
  map (fun s => match colget old col s with Some v => v | None => fill end) new.
Definition reindex_rows (new : list string) (fill : val) (t : table) : table :=
  {| tindex := new;
     tcols := map (fun e => (fst e, reindex_col (tindex t) new fill (snd e))) (tcols t) |}.

(* df.reindex(columns=names, fill_value=fill) *)
Definition reindex_cols (names : list string) (fill : val) (t : table) : table :=
  {| tindex := tindex t;
     tcols := map (fun n => (n, match dget (tcols t) n with
                                | Some col => col
                                | None => map (fun _ => fill) (tindex t)
                                end)) names |}.

(* df.drop(names, axis=1) *)
Definition drop_cols (names : list string) (t : table) : table :=
  {| tindex := tindex t; tcols := filter (fun e => negb (mem (fst e) names)) (tcols t) |}.

(* ---- component tables and network ---- *)
Record comp := { static : dict (dict val); dyn : dict table }.
Record net := { snaps : list string; weights : table; comps : dict comp }.

Definition names_of (c : comp) : list string := dkeys (static c).

(* static.at[name, attr]; a cell absent from a row is NaN (pd.concat of frames with other columns) *)
Definition sget (c : comp) (name attr : string) : option val :=
  match dget (static c) name with
  | None => None
  | Some row => Some (match dget row attr with Some v => v | None => VNaN end)
  end.

Inductive nerr : Type := ValueErr | KeyErr | NotImpl.

(* ---- keyword arguments of add ---- *)
Inductive kwval : Type :=
| Scalar (v : val)
| List1 (l : list val)                                  (* list or 1-d array *)
| Ser (idx : list string) (l : list val)                (* pandas.Series *)
| Frame (idx : list string) (cols : list (string * list val))   (* pandas.DataFrame *)
| Array2 (nrows : nat) (cols : list (list val))         (* 2-d numpy array, by columns *)
| DictArg.                                              (* a dict: NotImplementedError *)

Fixpoint ends_with (s sfx : string) : bool :=
  String.eqb s sfx || match s with EmptyString => false | String _ r => ends_with r sfx end.

(* networks.py:1254-1258, 1263-1267 *)
Definition add_suffix (sfx s : string) : string :=
  if ends_with s sfx then s else String.append s sfx.

Fixpoint list_eqb (a b : list string) : bool :=
  match a, b with
  | [], [] => true
  | x :: a', y :: b' => String.eqb x y && list_eqb a' b'
  | _, _ => false
  end.

(* what one keyword turns into: a static value per name, or a time-series frame *)
Inductive loaded : Type := LStatic (vals : list val) | LSeries (t : table).

(* networks.py:1244-1336, one keyword *)
Definition load_kw (single : bool) (names sfxed_snaps : list string) (sfx : string) (v : kwval)
  : loaded + nerr :=
  let sns := sfxed_snaps in
  match v with
  | Scalar x => inl (LStatic (map (fun _ => x) names))
  | DictArg => inr NotImpl
  | Ser idx l =>
      if single then
        if list_eqb idx sns
        then inl (LSeries {| tindex := sns; tcols := map (fun n => (n, l)) names |})
        else inr ValueErr
      else
        if list_eqb (map (add_suffix sfx) idx) names
        then match l with
             | [x] => inl (LStatic (map (fun _ => x) names))
             | _ => inl (LStatic l)
             end
        else inr ValueErr
  | List1 l =>
      if single then
        if Nat.eqb (List.length l) (List.length sns)
        then inl (LSeries {| tindex := sns; tcols := map (fun n => (n, l)) names |})
        else inr ValueErr
      else
        match l with
        | [x] => inl (LStatic (map (fun _ => x) names))
        | _ => if Nat.eqb (List.length l) (List.length names) then inl (LStatic l) else inr ValueErr
        end
  | Frame idx cols =>
      if negb (list_eqb idx sns) then inr ValueErr
      else if negb (list_eqb (map (fun e => add_suffix sfx (fst e)) cols) names) then inr ValueErr
      else if single then inr ValueErr      (* a frame cannot be a scalar column: 1316-1324, 1340 *)
      else inl (LSeries {| tindex := sns;
                           tcols := map (fun e => (add_suffix sfx (fst e), snd e)) cols |})
  | Array2 nrows cols =>
      if Nat.eqb nrows (List.length sns) && Nat.eqb (List.length cols) (List.length names)
      then if single then inr ValueErr
           else inl (LSeries {| tindex := sns; tcols := combine names cols |})
      else inr ValueErr
  end.

Fixpoint load_kwargs (single : bool) (names sns : list string) (sfx : string)
  (kw : list (string * kwval)) : (dict (list val) * dict table) + nerr :=
  match kw with
  | [] => inl ([], [])
  | (k, v) :: rest =>
      match load_kw single names sns sfx v with
      | inr e => inr e
      | inl l =>
          match load_kwargs single names sns sfx rest with
          | inr e => inr e
          | inl (st, se) =>
              match l with
              | LStatic vals => inl ((k, vals) :: st, se)
              | LSeries t => inl (st, (k, t) :: se)
              end
          end
      end
  end.

(* ---- io.py:1399-1514 ---- *)

(* the frame passed in, as rows: cells of name number i, NaN filled with the attribute's default
   (1430), missing static attributes added with their default (1432-1434) *)
Definition fill (m : meta) (a : string) (v : val) : val :=
  if is_nan v then (if dmem m a then default_of m a else v) else v.

Fixpoint given_row (m : meta) (st : dict (list val)) (i : nat) : dict val :=
  match st with
  | [] => []
  | (a, vals) :: rest => (a, fill m a (nth i vals VNaN)) :: given_row m rest i
  end.

Definition missing_static (m : meta) (st : dict (list val)) : dict val :=
  map (fun e => (fst e, adefault (snd e)))
      (filter (fun e => is_static_kind (akind (snd e)) && negb (dmem st (fst e))) m).

Definition full_row (m : meta) (st : dict (list val)) (i : nat) : dict val :=
  given_row m st i ++ missing_static m st.

Fixpoint number_from {A : Type} (i : nat) (l : list A) : list (nat * A) :=
  match l with [] => [] | x :: r => (i, x) :: number_from (S i) r end.

Definition df_rows (m : meta) (names : list string) (st : dict (list val)) : dict (dict val) :=
  map (fun e => (snd e, full_row m st (fst e))) (number_from 0 names).

(* 1470: attributes that live only in the time-dependent tables leave the static frame *)
Definition drop_series (m : meta) (row : dict val) : dict val :=
  filter (fun e => negb (is_series m (fst e))) row.

(* assign constant columns to the given names (1508-1512) *)
Definition set_const_cols (names : list string) (value : string -> val) (t : table) : table :=
  {| tindex := tindex t;
     tcols := fold_left (fun d n => dset d n (map (fun _ => value n) (tindex t))) names (tcols t) |}.

Definition import_components (m : meta) (sns : list string) (overwrite : bool)
  (names : list string) (st : dict (list val)) (c : comp) : comp :=
  let df := df_rows m names st in
  let new := map (fun e => (fst e, drop_series m (snd e))) df in
  let old_names := names_of c in
  let new' := if overwrite then new else filter (fun e => negb (mem (fst e) old_names)) new in
  let old' := if overwrite then filter (fun e => negb (mem (fst e) names)) (static c) else static c in
  let static' := old' ++ new' in
  let series_given := filter (fun a => is_series m a) (dkeys st) in
  let cell a n := match dget df n with
                  | Some row => match dget row a with Some v => v | None => VNaN end
                  | None => VNaN
                  end in
  let targets := if overwrite then names else filter (fun n => negb (mem n old_names)) names in
  let upd d a :=
    let t0 := match dget d a with Some t => t | None => {| tindex := sns; tcols := [] |} end in
    let t1 := reindex_cols (map fst static') (default_of m a) t0 in
    dset d a (set_const_cols targets (cell a) t1) in
  {| static := static'; dyn := fold_left upd series_given (dyn c) |}.

(* ---- io.py:1517-1587 ---- *)
Definition set_cols (src : table) (t : table) : table :=
  {| tindex := tindex t;
     tcols := fold_left
       (fun d e => dset d (fst e)
          (map (fun s => match colget (tindex src) (snd e) s with Some v => v | None => VNaN end)
               (tindex t)))
       (tcols src) (tcols t) |}.

Definition union_names (a b : list string) : list string :=
  a ++ filter (fun n => negb (mem n a)) b.

Definition import_series (m : meta) (sns : list string) (overwrite : bool) (attr : string)
  (df : table) (c : comp) : comp :=
  let df1 := if overwrite then df
             else match dget (dyn c) attr with
                  | Some t => drop_cols (dkeys (tcols t)) df
                  | None => df
                  end in
  if negb (varying m attr) then
    if overwrite || negb (dmem (dyn c) attr)
    then {| static := static c; dyn := dset (dyn c) attr df1 |}
    else c
  else
    let df2 := if forallb (fun s => mem s (tindex df1)) sns then df1
               else reindex_rows sns (default_of m attr) df1 in
    let t0 := match dget (dyn c) attr with Some t => t | None => {| tindex := sns; tcols := [] |} end in
    let t1 := if is_series m attr
              then reindex_cols (union_names (dkeys (tcols df2)) (names_of c)) (default_of m attr)
                     t0
              else reindex_cols (union_names (dkeys (tcols df2)) (dkeys (tcols t0))) VNaN t0 in
    {| static := static c; dyn := dset (dyn c) attr (set_cols df2 t1) |}.

(* ---- networks.py ---- *)
Section Net.
(* the attribute tables of the component types (data/component_attrs/*.csv) *)
Variable metas : dict meta.

Fixpoint nodupb (l : list string) : bool :=
  match l with [] => true | x :: r => negb (mem x r) && nodupb r end.

(* networks.py:1125-1349 *)
Definition add (n : net) (cls : string) (single : bool) (raw : list string) (sfx : string)
  (overwrite : bool) (kw : list (string * kwval)) : net * option nerr :=
  match dget metas cls, dget (comps n) cls with
  | Some m, Some c =>
      let names := map (fun s => String.append s sfx) raw in
      if negb (nodupb names) then (n, Some ValueErr)
      else match load_kwargs single names (snaps n) sfx kw with
           | inr e => (n, Some e)
           | inl (st, se) =>
               let c1 := import_components m (snaps n) overwrite names st c in
               let c2 := fold_left (fun c e => import_series m (snaps n) overwrite (fst e) (snd e) c)
                                   se c1 in
               ({| snaps := snaps n; weights := weights n; comps := dset (comps n) cls c2 |}, None)
           end
  | _, _ => (n, Some KeyErr)
  end.

(* networks.py:1351-1389: static.drop raises KeyError if any name is missing, before any change *)
Definition remove_comp (names : list string) (c : comp) : comp :=
  {| static := filter (fun e => negb (mem (fst e) names)) (static c);
     dyn := map (fun e => (fst e, drop_cols names (snd e))) (dyn c) |}.

Definition remove (n : net) (cls : string) (raw : list string) (sfx : string) : net * option nerr :=
  match dget metas cls, dget (comps n) cls with
  | Some m, Some c =>
      let names := map (fun s => String.append s sfx) raw in
      if forallb (fun x => mem x (names_of c)) names
      then ({| snaps := snaps n; weights := weights n;
               comps := dset (comps n) cls (remove_comp names c) |}, None)
      else (n, Some KeyErr)
  | _, _ => (n, Some KeyErr)
  end.

(* networks.py:691-788 with single-level snapshots; line 741 assigns the index before the emptiness
   test at 743, so a rejected call still leaves the network without snapshots *)
Definition set_snapshots_table (m : meta) (sns : list string) (k : string) (t : table) : table :=
  match tcols t with
  | [] => {| tindex := sns; tcols := [] |}
  | _ => if varying m k then reindex_rows sns (default_of m k) t else reindex_rows sns VNaN t
  end.

Definition set_snapshots_comp (m : meta) (sns : list string) (c : comp) : comp :=
  {| static := static c;
     dyn := map (fun e => (fst e, set_snapshots_table m sns (fst e) (snd e))) (dyn c) |}.

Definition meta_of (cls : string) : meta :=
  match dget metas cls with Some m => m | None => [] end.

Definition set_snapshots (n : net) (sns : list string) (dw : val) : net * option nerr :=
  match sns with
  | [] => ({| snaps := []; weights := weights n; comps := comps n |}, Some ValueErr)
  | _ => ({| snaps := sns;
             weights := reindex_rows sns dw (weights n);
             comps := map (fun e => (fst e, set_snapshots_comp (meta_of (fst e)) sns (snd e)))
                          (comps n) |}, None)
  end.

Inductive nop : Type :=
| Add (cls : string) (single : bool) (names : list string) (sfx : string) (overwrite : bool)
      (kw : list (string * kwval))
| Remove (cls : string) (names : list string) (sfx : string)
| SetSnapshots (sns : list string) (dw : val).

Definition nstep (n : net) (o : nop) : net * option nerr :=
  match o with
  | Add cls single names sfx ow kw => add n cls single names sfx ow kw
  | Remove cls names sfx => remove n cls names sfx
  | SetSnapshots sns dw => set_snapshots n sns dw
  end.

Definition nrun (n : net) (ops : list nop) : net := fold_left (fun n o => fst (nstep n o)) ops n.

(* networks.py:276-392 __init__: snapshots ["now"], weightings 1.0, empty component tables with one
   (column-less) frame per varying attribute *)
Definition empty_comp (m : meta) : comp :=
  {| static := [];
     dyn := map (fun e => (fst e, {| tindex := ["now"]; tcols := [] |}))
                (filter (fun e => is_varying_kind (akind (snd e))) m) |}.

Definition init_net : net :=
  {| snaps := ["now"];
     weights := {| tindex := ["now"];
                   tcols := [("objective", [VNum 1]); ("stores", [VNum 1]);
                             ("generators", [VNum 1])] |};
     comps := map (fun e => (fst e, empty_comp (snd e))) metas |}.

End Net.

(* ---- descriptors.py:31-83 get_switchable_as_dense ----
   None = the call raises (KeyError: attribute not in the static frame, snapshot not in the network).
   The result lists, for each selected component in static order, its values at the selected
   snapshots. as_index (common.py:168-174) rejects snapshots outside the network. *)
Definition has_static_attr (c : comp) (attr : string) : bool :=
  forallb (fun e => dmem (snd e) attr) (static c).

Definition dense (n : net) (c : comp) (attr : string) (sel_sns : option (list string))
  (inds : option (list string)) : option (list (string * list val)) :=
  let sns := match sel_sns with Some s => s | None => snaps n end in
  if negb (forallb (fun s => mem s (snaps n)) sns) then None
  else if negb (has_static_attr c attr) then None
  else
    let index := match inds with
                 | None => names_of c
                 | Some l => filter (fun x => mem x l) (names_of c)
                 end in
    let dynamic := match dget (dyn c) attr with
                   | Some t => t
                   | None => {| tindex := snaps n; tcols := [] |}
                   end in
    Some (map (fun x =>
       (x, map (fun s => match tget dynamic x s with
                         | Some v => v
                         | None => match sget c x attr with Some v => v | None => VNaN end
                         end) sns)) index).
