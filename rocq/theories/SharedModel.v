(* Several networks in one process, and links with more than two ports:
     /repo/pypsa/components/types.py   all_components 25, add_component_type 131-140, get 186-228
                                       (one table of attributes per class for the whole process)
     /repo/pypsa/networks.py           _initialize_components 488-506
     /repo/pypsa/components/abstract.py attrs, defaults 449-506, _get_data_containers 281-311
     /repo/pypsa/descriptors.py        update_linkports_component_attrs 421-460, additional_linkports 463-480
     /repo/pypsa/io.py                 _import_components_from_df 1417-1434 for links
   The attribute table of Link is changed in place when links with further ports are added, so it is part
   of the state of the process, beside the networks.
   Simplifications: those of TablesModel; the order of the attributes (ports.sort, index.insert) and the
   texts of the table (descriptions, status) are left out; a column named exactly "bus" is not treated
   specially (its default would become "1"); reading a frame that does not exist gives an empty one. *)
From Coq Require Import List String Bool ZArith Arith.
From Verif Require Import Assoc TablesModel FileModel.
Import ListNotations.
Open Scope string_scope.
Open Scope list_scope.

(* descriptors.py:478-480 *)
Definition linkports (where_ : list string) : list string :=
  flat_map (fun a => match drop_prefix "bus" a with
                     | Some i => if mem a ["bus0"; "bus1"] then [] else [i]
                     | None => []
                     end) where_.

(* target in n.static(c).columns; a table without rows has no columns here *)
Definition has_column (c : comp) (a : string) : bool := existsb (fun e => dmem (snd e) a) (static c).

(* descriptors.py:441-460, one port and one of "bus", "efficiency", "p" *)
Definition add_port (sns : list string) (s : meta * comp) (x : string * string) : meta * comp :=
  let target := String.append (snd x) (fst x) in
  let base := if String.eqb (snd x) "efficiency" then "efficiency" else String.append (snd x) "1" in
  if dmem (fst s) target then s
  else match dget (fst s) base with
       | None => s
       | Some am =>
           (dset (fst s) target am,
            if String.eqb (snd x) "bus" then
              if has_column (snd s) target then snd s
              else {| static := map (fun e => (fst e, dset (snd e) target (adefault am))) (static (snd s));
                      dyn := dyn (snd s) |}
            else if dmem (dyn (snd s)) target then snd s
            else {| static := static (snd s);
                    dyn := dset (dyn (snd s)) target {| tindex := sns; tcols := [] |} |})
       end.

Definition update_linkports (sns where_ : list string) (m : meta) (c : comp) : meta * comp :=
  fold_left (add_port sns) (flat_map (fun i => [(i, "bus"); (i, "efficiency"); (i, "p")]) (linkports where_))
    (m, c).

(* io.py:1430 df.fillna(attrs["default"].to_dict()) *)
Definition fillna (m : meta) (st : dict (list val)) : dict (list val) :=
  map (fun e => (fst e, map (fill m (fst e)) (snd e))) st.

(* n.add("Link", ...): static_attrs and non_static_attrs are copied from the table before the ports are
   entered into it (io.py:1419-1423); the defaults of 1430 and those of the series are read afterwards *)
Definition add_link (attrs : dict meta) (n : net) (single : bool) (raw : list string) (sfx : string)
  (overwrite : bool) (kw : list (string * kwval)) : dict meta * (net * option nerr) :=
  match dget attrs "Link", dget (comps n) "Link" with
  | Some m0, Some c =>
      let names := map (fun s => String.append s sfx) raw in
      if negb (nodupb names) then (attrs, (n, Some ValueErr))
      else match load_kwargs single names (snaps n) sfx kw with
           | inr e => (attrs, (n, Some e))
           | inl (st, se) =>
               let u := update_linkports (snaps n) (dkeys st) m0 c in
               let c2 := import_components m0 (snaps n) overwrite names (fillna (fst u) st) (snd u) in
               let c3 := fold_left (fun c e => import_series (fst u) (snaps n) overwrite (fst e) (snd e) c)
                                   se c2 in
               (dset attrs "Link" (fst u),
                ({| snaps := snaps n; weights := weights n; comps := dset (comps n) "Link" c3 |}, None))
           end
  | _, _ => (attrs, (n, Some KeyErr))
  end.

Definition shared_step (attrs : dict meta) (n : net) (o : nop) : dict meta * (net * option nerr) :=
  match o with
  | Add cls single names sfx ow kw =>
      if String.eqb cls "Link" then add_link attrs n single names sfx ow kw else (attrs, nstep attrs n o)
  | _ => (attrs, nstep attrs n o)
  end.

(* the process: pypsa.Network(), and calls on the networks made so far *)
Record proc := { p_attrs : dict meta; p_nets : list net }.
Inductive pop : Type := New | Do (i : nat) (o : nop).

Fixpoint set_nth {A} (i : nat) (x : A) (l : list A) : list A :=
  match i, l with
  | _, [] => []
  | O, _ :: r => x :: r
  | S i', y :: r => y :: set_nth i' x r
  end.

Definition pstep (p : proc) (o : pop) : proc :=
  match o with
  | New => {| p_attrs := p_attrs p; p_nets := p_nets p ++ [init_net (p_attrs p)] |}
  | Do i o =>
      match nth_error (p_nets p) i with
      | None => p
      | Some n => let r := shared_step (p_attrs p) n o in
                  {| p_attrs := fst r; p_nets := set_nth i (fst (snd r)) (p_nets p) |}
      end
  end.
Definition prun (p : proc) (l : list pop) : proc := fold_left pstep l p.
(* import pypsa *)
Definition start (attrs : dict meta) : proc := {| p_attrs := attrs; p_nets := [] |}.
