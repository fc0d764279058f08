(* Files of an exported network: /repo/pypsa/io.py
     ImporterCSV / ExporterCSV 139-280, ImporterExcel / ExporterExcel 283-468,
     ImporterHDF5 / ExporterHDF5 471-581, _export_to_exporter 719-844, _import_from_importer 1192-1303.
   A CSV folder is a map from file names (relative to the folder) to contents, an Excel workbook a map
   from sheet names to sheets, an HDF5 file a map from keys to frames.
   Which columns are written and how a class is read back is the model of C13 (TransferModel).
   Simplifications: reading a file gives what was written to it (number formats, types, quoting);
   single-level snapshots; standard types, geometries and link ports as in TransferModel; the positions
   HDF5 stores instead of column names (577) are taken back to the names they stand for (523);
   Excel's limit of 31 characters for sheet names and its temporary first sheet are left out;
   network attributes, projection, meta data and investment periods are opaque texts. *)
From Coq Require Import List String Bool ZArith Ascii.
From Verif Require Import Assoc TablesModel TransferModel.
Import ListNotations.
Open Scope string_scope.
Open Scope list_scope.

(* content of a file, sheet or key; a series is written without its index (io.py:841), by position *)
Inductive item : Type :=
| IText (s : string)
| ISnaps (w : table)
| IFrame (rows : dict (dict val))
| ISeries (nrows : nat) (cols : dict (list val)).
Definition store := dict item.

Inductive format : Type := CSV | Excel | HDF5.
Inductive ferr : Type := FType | FValue | FRead.

(* the class: its list_name and its attribute table (n.components[cls]) *)
Record class := { k_list : string; k_meta : meta }.

(* a network with the things stored beside its tables *)
Record doc := { d_net : net; d_network : string; d_crs : string; d_meta : string; d_periods : string }.

(* s.startswith(p), and s[len(p):] *)
Fixpoint drop_prefix (p s : string) : option string :=
  match p, s with
  | EmptyString, _ => Some s
  | String a p', String b s' => if Ascii.eqb a b then drop_prefix p' s' else None
  | String _ _, EmptyString => None
  end.

(* s.endswith(x), and s[:-len(x)] *)
Fixpoint drop_suffix (x s : string) : option string :=
  if String.eqb s x then Some EmptyString
  else match s with
       | EmptyString => None
       | String a r => match drop_suffix x r with Some q => Some (String a q) | None => None end
       end.

Fixpoint has_char (a : ascii) (s : string) : bool :=
  match s with EmptyString => false | String b r => Ascii.eqb a b || has_char a r end.

(* ---- names ---- *)
(* io.py:233-259 (CSV), 415-442 (Excel), 543-568 (HDF5) *)
Definition head_name (f : format) (h : string) : string :=
  match f with
  | CSV => if mem h ["crs"; "meta"] then String.append h ".json" else String.append h ".csv"
  | Excel => h
  | HDF5 => String.append "/" h
  end.

(* io.py:262, 445, 574 *)
Definition static_name (f : format) (l : string) : string :=
  match f with
  | CSV => String.append l ".csv"
  | Excel => l
  | HDF5 => String.append "/" l
  end.

(* io.py:267, 448, 578 *)
Definition series_name (f : format) (l a : string) : string :=
  match f with
  | CSV => String.append l (String.append "-" (String.append a ".csv"))
  | Excel => String.append l (String.append "-" a)
  | HDF5 => String.append "/" (String.append l (String.append "_t/" a))
  end.

(* io.py:208-210, 378-380, 519-521: the attribute a name stands for when class l is read. In the CSV
   case the prefix ends with "-" and cannot overlap the suffix. *)
Definition series_attr (f : format) (l key : string) : option string :=
  match f with
  | CSV => match drop_prefix (String.append l "-") key with
           | Some r => drop_suffix ".csv" r
           | None => None
           end
  | Excel => drop_prefix (String.append l "-") key
  | HDF5 => drop_prefix (String.append "/" (String.append l "_t/")) key
  end.

(* ---- writing ---- *)
(* io.py:222-231 (the folder is created if missing), 386-413 (mode "a"), 535-536 (mode "w") *)
Definition start (f : format) (old : store) : store :=
  match f with CSV | Excel => old | HDF5 => [] end.

(* csv_folder_name.joinpath(l).glob("*.csv") *)
Definition in_subfolder (l key : string) : bool :=
  match drop_prefix (String.append l "/") key with
  | Some r => negb (has_char "/" r) && match drop_suffix ".csv" r with Some _ => true | None => false end
  | None => false
  end.

(* io.py:271-275 (', '.join of Path objects raises TypeError), 451-454, 100-101 *)
Definition remove_static (f : format) (l : string) (st : store) : store * option ferr :=
  match f with
  | CSV => if existsb (fun e => in_subfolder l (fst e)) st
           then (filter (fun e => negb (in_subfolder l (fst e))) st, Some FType)
           else (st, None)
  | Excel => (ddel st (static_name Excel l), None)
  | HDF5 => (st, None)
  end.

(* io.py:277-280, 456-460, 103-104 *)
Definition remove_series (f : format) (l a : string) (st : store) : store :=
  match f with CSV | Excel => ddel st (series_name f l a) | HDF5 => st end.

(* io.py:827-844, one frame of time series *)
Definition export_series (f : format) (l : string) (m : meta) (st : store) (e : string * table) : store :=
  match filter (fun g => keep_series m (fst e) (snd g)) (tcols (snd e)) with
  | [] => remove_series f l (fst e) st
  | cols => dset st (series_name f l (fst e)) (ISeries (List.length (tindex (snd e))) cols)
  end.

(* io.py:785-846, one class *)
Definition export_class (f : format) (k : class) (c : comp) (st : store) : store * option ferr :=
  match static c with
  | [] => remove_static f (k_list k) st
  | _ =>
      let rows := map (fun e => (fst e,
                    filter (fun g => keep_static (k_meta k) (static c) (fst g)) (snd e))) (static c) in
      (fold_left (export_series f (k_list k) (k_meta k)) (dyn c)
         (dset st (static_name f (k_list k)) (IFrame rows)), None)
  end.

(* io.py:746-782 *)
Definition export_head (f : format) (d : doc) (st : store) : store :=
  let put h x st := dset st (head_name f h) x in
  put "investment_periods" (IText (d_periods d))
    (put "snapshots" (ISnaps (weights (d_net d)))
      (put "meta" (IText (d_meta d))
        (put "crs" (IText (d_crs d)) (put "network" (IText (d_network d)) st)))).

Section Registry.
Variable reg : dict class.                 (* all component classes but SubNetwork *)

Definition comp_or_empty (n : net) (cls : string) : comp :=
  match dget (comps n) cls with Some c => c | None => {| static := []; dyn := [] |} end.
Definition class_of (cls : string) : class :=
  match dget reg cls with Some k => k | None => {| k_list := ""; k_meta := [] |} end.

(* the loop over the classes (a set, in any order), left at the first exception *)
Fixpoint export_classes (f : format) (n : net) (order : list string) (st : store)
  : store * option ferr :=
  match order with
  | [] => (st, None)
  | cls :: r =>
      match export_class f (class_of cls) (comp_or_empty n cls) st with
      | (st', None) => export_classes f n r st'
      | bad => bad
      end
  end.

(* n.export_to_csv_folder / n.export_to_excel / n.export_to_hdf5 onto what is there already *)
Definition export (f : format) (d : doc) (order : list string) (old : store) : store * option ferr :=
  export_classes f (d_net d) order (export_head f d (start f old)).

(* ---- reading ---- *)
(* importer.get_series(l) *)
Definition get_series (f : format) (l : string) (st : store) : list (string * item) :=
  flat_map (fun e => match series_attr f l (fst e) with Some a => [(a, snd e)] | None => [] end) st.

(* io.py:1292-1294: set_index(n.snapshots) raises if the number of rows differs *)
Fixpoint read_series (sns : list string) (l : list (string * item)) : dict table + ferr :=
  match l with
  | [] => inl []
  | (a, ISeries n cols) :: r =>
      if Nat.eqb n (List.length sns)
      then match read_series sns r with
           | inl ts => inl ((a, {| tindex := sns; tcols := cols |}) :: ts)
           | inr e => inr e
           end
      else inr FValue
  | _ :: _ => inr FRead
  end.

Definition fresh (k : class) (sns : list string) : comp :=
  set_snapshots_comp (k_meta k) sns (empty_comp (k_meta k)).

(* io.py:1277-1294 *)
Definition import_class (f : format) (k : class) (sns : list string) (st : store) : comp + ferr :=
  match dget st (static_name f (k_list k)) with
  | None => inl (fresh k sns)
  | Some (IFrame rows) =>
      match read_series sns (get_series f (k_list k) st) with
      | inr e => inr e
      | inl ts => match transfer (k_meta k) sns rows ts (fresh k sns) with
                  | inl c => inl c
                  | inr _ => inr FValue
                  end
      end
  | Some _ => inr FRead
  end.

Fixpoint import_classes (f : format) (sns : list string) (st : store) (l : dict class)
  : dict comp + ferr :=
  match l with
  | [] => inl []
  | (cls, k) :: r =>
      match import_class f k sns st, import_classes f sns st r with
      | inl c, inl cs => inl ((cls, c) :: cs)
      | inr e, _ => inr e
      | _, inr e => inr e
      end
  end.

(* io.py:1245-1261 *)
Definition read_snapshots (f : format) (st : store) : (list string * table) + ferr :=
  match dget st (head_name f "snapshots") with
  | None => inl (["now"], weights (init_net []))
  | Some (ISnaps w) =>
      match tindex w with
      | [] => inr FValue
      | _ => inl (tindex w, reindex_cols ["objective"; "generators"; "stores"] VNaN w)
      end
  | Some _ => inr FRead
  end.

Definition text (f : format) (st : store) (h : string) : string :=
  match dget st (head_name f h) with Some (IText s) => s | _ => "" end.

(* pypsa.Network(path): io.py:1192-1303; without buses nothing else is read (1280-1283) *)
Definition import (f : format) (st : store) : doc + ferr :=
  match read_snapshots f st with
  | inr e => inr e
  | inl (sns, w) =>
      let classes :=
        match dget st (static_name f (k_list (class_of "Bus"))) with
        | None => inl (map (fun e => (fst e, fresh (snd e) sns)) reg)
        | Some _ => import_classes f sns st reg
        end in
      match classes with
      | inr e => inr e
      | inl cs => inl {| d_net := {| snaps := sns; weights := w; comps := cs |};
                         d_network := text f st "network"; d_crs := text f st "crs";
                         d_meta := text f st "meta"; d_periods := text f st "investment_periods" |}
      end
  end.
End Registry.
