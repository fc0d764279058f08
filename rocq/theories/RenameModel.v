(* Components.rename_component_names: /repo/pypsa/components/abstract.py 618-635 (ports), 670-729.
   The keyword dictionary maps old to new names. col_name is the lower-cased class name; ports are read
   off the columns starting with "bus". DataFrame.replace with a dictionary replaces all keys at once. *)
From Coq Require Import List String Bool ZArith.
From Verif Require Import Assoc TablesModel TransferModel.
Import ListNotations.
Open Scope string_scope.
Open Scope list_scope.

Definition ren (kw : dict string) (x : string) : string :=
  match dget kw x with Some y => y | None => x end.
Definition ren_val (kw : dict string) (v : val) : val :=
  match v with VStr s => VStr (ren kw s) | _ => v end.

(* s.startswith(p), s[n:] *)
Fixpoint starts_with (p s : string) : bool :=
  match p, s with
  | EmptyString, _ => true
  | String a p', String b s' => Ascii.eqb a b && starts_with p' s'
  | _, _ => false
  end.
Fixpoint sdrop (n : nat) (s : string) : string :=
  match n, s with
  | O, _ => s
  | S n', String _ s' => sdrop n' s'
  | _, EmptyString => EmptyString
  end.

(* str(col).startswith("bus"), str(col)[3:] *)
Definition is_port (a : string) : bool := starts_with "bus" a.
Definition port_of (a : string) : string := sdrop 3 a.

(* abstract.py:716-718 *)
Definition rename_table (kw : dict string) (t : table) : table :=
  {| tindex := tindex t; tcols := map (fun e => (ren kw (fst e), snd e)) (tcols t) |}.
Definition rename_comp (kw : dict string) (c : comp) : comp :=
  {| static := map (fun e => (ren kw (fst e), snd e)) (static c);
     dyn := map (fun e => (fst e, rename_table kw (snd e))) (dyn c) |}.

(* abstract.py:722-726 for one class: None when a column is missing (KeyError) *)
Definition ref_cols (col_name : string) (c : comp) : list string :=
  map (fun a => String.append col_name (port_of a)) (filter is_port (columns (static c))).
Definition replace_refs (kw : dict string) (col_name : string) (c : comp) : option comp :=
  let cols := ref_cols col_name c in
  match cols, static c with
  | [], _ | _, [] => Some c
  | _, _ =>
      if forallb (fun a => mem a (columns (static c))) cols
      then Some {| static := map (fun e => (fst e,
                     map (fun f => (fst f, if mem (fst f) cols then ren_val kw (snd f) else snd f))
                         (snd e))) (static c);
                   dyn := dyn c |}
      else None
  end.

Fixpoint replace_all (kw : dict string) (col_name : string) (cs : dict comp) : dict comp * option nerr :=
  match cs with
  | [] => ([], None)
  | (k, c) :: r =>
      match replace_refs kw col_name c with
      | None => ((k, c) :: r, Some KeyErr)
      | Some c' => let (r', e) := replace_all kw col_name r in ((k, c') :: r', e)
      end
  end.

Definition rename_components (n : net) (cls col_name : string) (kw : dict string) : net * option nerr :=
  match dget (comps n) cls with
  | None => (n, Some KeyErr)
  | Some c =>
      let (cs, e) := replace_all kw col_name (dset (comps n) cls (rename_comp kw c)) in
      ({| snaps := snaps n; weights := weights n; comps := cs |}, e)
  end.
