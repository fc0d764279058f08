(* netCDF files of an exported network: /repo/pypsa/io.py ImporterNetCDF 584-651, ExporterNetCDF 654-715,
   with _export_to_exporter 719-846 and _import_from_importer 1192-1303.
   A class is spread over one coordinate (its names) and one variable per exported column or frame, all
   in one dataset, and found again by the prefixes of the variable names.
   Simplifications: as in FileModel; the variables "snapshots_*" and "investment_periods_*" are kept in
   fields of their own (no list name starts like that); the coordinate xarray makes for the columns of a
   frame ("<list>_t_<attr>_i") goes with the frame; compression and float32 are left out; a column named
   "i" would overwrite the coordinate of its class and is excluded in every statement. *)
From Coq Require Import List String Bool ZArith Ascii.
From Verif Require Import Assoc TablesModel TransferModel FileModel.
Import ListNotations.
Open Scope string_scope.
Open Scope list_scope.

(* a pandas Series with its index, or a frame written by position *)
Inductive var : Type :=
| V1 (vals : dict val)
| V2 (nrows : nat) (cols : dict (list val)).

Record nc := { n_network : string; n_crs : string; n_meta : string; n_periods : string;
               n_weights : table; n_coords : dict (list string); n_vars : dict var }.

(* io.py:687, 689, 693 *)
Definition nc_index (l : string) : string := String.append l "_i".
Definition nc_static (l a : string) : string := String.append l (String.append "_" a).
Definition nc_series (l a : string) : string := String.append l (String.append "_t_" a).

(* io.py:638-641: attr.startswith(t) and attr[i:i+2] != "t_" *)
Definition nc_static_attr (l key : string) : option string :=
  match drop_prefix (String.append l "_") key with
  | Some a => match drop_prefix "t_" a with Some _ => None | None => Some a end
  | None => None
  end.

(* io.py:645-651 *)
Definition nc_series_attr (l key : string) : option string :=
  drop_prefix (String.append l "_t_") key.

(* io.py:685-689 *)
Definition save_columns (l : string) (rows : dict (dict val)) (vars : dict var) : dict var :=
  fold_left (fun v a => dset v (nc_static l a) (V1 (map (fun e => (fst e, cell (snd e) a)) rows)))
    (columns rows) vars.

(* io.py:827-844 with 691-693; remove_series does nothing *)
Definition save_frame (l : string) (m : meta) (vars : dict var) (e : string * table) : dict var :=
  match filter (fun g => keep_series m (fst e) (snd g)) (tcols (snd e)) with
  | [] => vars
  | cols => dset vars (nc_series l (fst e)) (V2 (List.length (tindex (snd e))) cols)
  end.

Definition nc_class (k : class) (c : comp) (s : nc) : nc :=
  match static c with
  | [] => s
  | _ =>
      let rows := map (fun e => (fst e,
                    filter (fun g => keep_static (k_meta k) (static c) (fst g)) (snd e))) (static c) in
      {| n_network := n_network s; n_crs := n_crs s; n_meta := n_meta s; n_periods := n_periods s;
         n_weights := n_weights s;
         n_coords := dset (n_coords s) (nc_index (k_list k)) (dkeys rows);
         n_vars := fold_left (save_frame (k_list k) (k_meta k)) (dyn c)
                     (save_columns (k_list k) rows (n_vars s)) |}
  end.

Section Registry.
Variable reg : dict class.

(* n.export_to_netcdf(path): the dataset is new and the file is written anew (io.py:664, 712-715) *)
Definition nc_export (d : doc) (order : list string) : nc :=
  fold_left (fun s cls => nc_class (class_of reg cls) (comp_or_empty (d_net d) cls) s) order
    {| n_network := d_network d; n_crs := d_crs d; n_meta := d_meta d; n_periods := d_periods d;
       n_weights := weights (d_net d); n_coords := []; n_vars := [] |}.

Definition pick (attr_of : string -> option string) (vars : dict var) : list (string * var) :=
  flat_map (fun e => match attr_of (fst e) with Some a => [(a, snd e)] | None => [] end) vars.

Definition is_1d (v : var) : bool := match v with V1 _ => true | V2 _ _ => false end.

(* io.py:631-642 *)
Definition nc_rows (names : list string) (cols : list (string * var)) : dict (dict val) + ferr :=
  if forallb (fun e => is_1d (snd e)) cols
  then inl (map (fun x => (x, map (fun e => (fst e,
              match snd e with
              | V1 vals => match dget vals x with Some v => v | None => VNaN end
              | V2 _ _ => VNaN
              end)) cols)) names)
  else inr FRead.

(* io.py:644-651: a one-dimensional variable has no columns and raises AttributeError *)
Definition as_item (v : var) : item :=
  match v with V1 _ => IText "" | V2 n cols => ISeries n cols end.

Definition nc_import_class (k : class) (sns : list string) (s : nc) : comp + ferr :=
  match dget (n_coords s) (nc_index (k_list k)) with
  | None => inl (fresh k sns)
  | Some names =>
      match nc_rows names (pick (nc_static_attr (k_list k)) (n_vars s)) with
      | inr e => inr e
      | inl rows =>
          match read_series sns (map (fun e => (fst e, as_item (snd e)))
                                   (pick (nc_series_attr (k_list k)) (n_vars s))) with
          | inr e => inr e
          | inl ts => match transfer (k_meta k) sns rows ts (fresh k sns) with
                      | inl c => inl c
                      | inr _ => inr FValue
                      end
          end
      end
  end.

Fixpoint nc_import_classes (sns : list string) (s : nc) (l : dict class) : dict comp + ferr :=
  match l with
  | [] => inl []
  | (cls, k) :: r =>
      match nc_import_class k sns s, nc_import_classes sns s r with
      | inl c, inl cs => inl ((cls, c) :: cs)
      | inr e, _ => inr e
      | _, inr e => inr e
      end
  end.

(* pypsa.Network("file.nc") *)
Definition nc_import (s : nc) : doc + ferr :=
  match tindex (n_weights s) with
  | [] => inr FValue
  | sns =>
      let classes :=
        match dget (n_coords s) (nc_index (k_list (class_of reg "Bus"))) with
        | None => inl (map (fun e => (fst e, fresh (snd e) sns)) reg)
        | Some _ => nc_import_classes sns s reg
        end in
      match classes with
      | inr e => inr e
      | inl cs => inl {| d_net := {| snaps := sns;
                           weights := reindex_cols ["objective"; "generators"; "stores"] VNaN (n_weights s);
                           comps := cs |};
                         d_network := n_network s; d_crs := n_crs s; d_meta := n_meta s;
                         d_periods := n_periods s |}
      end
  end.
End Registry.
