(* Registry of component types: /repo/pypsa/components/types.py add_component_type 30-136, get 185-220;
   aliases: /repo/pypsa/deprecations.py COMPONENT_ALIAS_DICT. The registry is a dictionary keyed by
   list_name; a type is its name, list name and attribute table. *)
From Coq Require Import List String Bool ZArith.
From Verif Require Import Assoc TablesModel.
Import ListNotations.
Open Scope string_scope.
Open Scope list_scope.

(* one row of the attribute table: "type" and "default" as given; None: n/a *)
Record raw_attr := { rtype : string; rdefault : option val }.

Inductive pytyp := TBool | TInt | TStr | TGeometry | TFloat.

(* types.py:93-101 *)
Definition typ_of (t : string) : pytyp :=
  if String.eqb t "boolean" then TBool else if String.eqb t "int" then TInt
  else if String.eqb t "string" then TStr else if String.eqb t "geometry" then TGeometry else TFloat.
Definition is_static_type (t : string) : bool := negb (String.eqb t "series").
Definition is_varying_type (t : string) : bool :=
  String.eqb t "series" || String.eqb t "static or series".

(* types.py:112-127: the default after formatting (numbers are left as they are) *)
Definition fmt_default (a : raw_attr) : val :=
  match typ_of (rtype a) with
  | TBool => match rdefault a with
             | Some (VBool true) => VBool true
             | Some (VStr s) => VBool (String.eqb s "True")
             | Some (VNum z) => VBool (Z.eqb z 1)           (* 1 == True in a set *)
             | _ => VBool false
             end
  | TStr => match rdefault a with None | Some VNaN => VStr "" | Some v => v end
  | _ => match rdefault a with None => VNaN | Some v => v end
  end.

Record attr := { atyp : pytyp; astatic : bool; avarying : bool; adef : val }.
Definition fmt_attr (a : raw_attr) : attr :=
  {| atyp := typ_of (rtype a); astatic := is_static_type (rtype a);
     avarying := is_varying_type (rtype a); adef := fmt_default a |}.

Record ctype := { cname : string; clist : string; cattrs : dict attr }.
Definition registry := dict ctype.

Record reg := { rname : string; rlist : string; rattrs : dict raw_attr }.

Definition mk_ctype (g : reg) : ctype :=
  {| cname := rname g; clist := rlist g;
     cattrs := map (fun e => (fst e, fmt_attr (snd e))) (rattrs g) |}.

(* types.py:84-136 *)
Definition add_component_type (r : registry) (g : reg) : registry * option nerr :=
  if dmem r (rname g) then (r, Some ValueErr)
  else (dset r (rlist g) (mk_ctype g), None).

Definition run_regs (r : registry) (gs : list reg) : registry :=
  fold_left (fun r g => fst (add_component_type r g)) gs r.

(* types.py:210-220 *)
Definition get_type (alias : dict string) (r : registry) (name : string) : ctype + nerr :=
  let name' := match dget alias name with Some x => x | None => name end in
  match dget r name' with Some c => inl c | None => inr ValueErr end.
