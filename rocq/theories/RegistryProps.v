From Coq Require Import List String Bool ZArith.
From Verif Require Import Assoc TablesModel RegistryModel RegistryProofs.
Import ListNotations.
Open Scope string_scope.
Open Scope list_scope.

Definition rg (n l : string) : reg :=
  {| rname := n; rlist := l; rattrs := [("name", {| rtype := "string"; rdefault := None |});
                                       ("p", {| rtype := "series"; rdefault := Some (VNum 0) |});
                                       ("on", {| rtype := "boolean"; rdefault := Some (VStr "True") |})] |}.
Definition rg_alias : dict string := [("Generator", "generators"); ("Bus", "buses")].
Definition rg_hist : list reg := [rg "Bus" "buses"; rg "Generator" "generators"; rg "buses" "x"; rg "Own" "owns"].

(* C14: an accepted registration is what get returns, under its list name and under its alias, until
   another registration uses the same list name *)
Theorem C14_registered_is_returned :
  forall (alias : dict string) (r : registry) (before : list reg) (g : reg) (after : list reg),
    accepted (run_regs r before) g = true ->
    (forall h, In h after -> rlist h <> rlist g) ->
    (forall x, dget alias x = Some (rlist g) ->
       get_type alias (run_regs r (before ++ g :: after)) x = inl (mk_ctype g)) /\
    (dget alias (rlist g) = None ->
       get_type alias (run_regs r (before ++ g :: after)) (rlist g) = inl (mk_ctype g)).
Proof. exact get_registered. Qed.
Print Assumptions C14_registered_is_returned.

(* over any history, the entry of a list name is that of the last accepted registration *)
Theorem C14_last_accepted :
  forall (gs : list reg) (r : registry) (k : string),
    dget (run_regs r gs) k = last_for r gs k (dget r k).
Proof. exact run_get. Qed.
Print Assumptions C14_last_accepted.

(* no registration removes a list name, and a refused one changes nothing *)
Theorem C14_nothing_lost :
  forall (gs : list reg) (r : registry) (k : string), dmem r k = true -> dmem (run_regs r gs) k = true.
Proof. exact run_member. Qed.
Print Assumptions C14_nothing_lost.

Theorem C14_refused_changes_nothing :
  forall (r : registry) (g : reg) (e : nerr),
    snd (add_component_type r g) = Some e -> fst (add_component_type r g) = r.
Proof. exact rejected_unchanged. Qed.
Print Assumptions C14_refused_changes_nothing.

(* the flags derived for an attribute are those its type says; defaults have the declared type *)
Theorem C14_attribute_flags :
  forall a : raw_attr,
    (astatic (fmt_attr a) = true <-> rtype a <> "series") /\
    (avarying (fmt_attr a) = true <-> rtype a = "series" \/ rtype a = "static or series") /\
    (astatic (fmt_attr a) || avarying (fmt_attr a) = true).
Proof. exact fmt_flags. Qed.
Print Assumptions C14_attribute_flags.

Theorem C14_boolean_default :
  forall a : raw_attr, rtype a = "boolean" -> exists b, adef (fmt_attr a) = VBool b.
Proof. exact fmt_bool. Qed.
Print Assumptions C14_boolean_default.

Theorem C14_string_default :
  forall a : raw_attr, rtype a = "string" -> adef (fmt_attr a) <> VNaN.
Proof. exact fmt_string_not_nan. Qed.
Print Assumptions C14_string_default.

(* a declared default is the default of the attribute; booleans may be declared by their printed name *)
Theorem C14_declared_default :
  forall a : raw_attr,
    (rtype a = "boolean" -> forall b, rdefault a = Some (VBool b) \/
       rdefault a = Some (VStr (if b then "True" else "False")) -> adef (fmt_attr a) = VBool b) /\
    (rtype a = "string" -> forall s, rdefault a = Some (VStr s) -> adef (fmt_attr a) = VStr s) /\
    (rtype a <> "boolean" -> rtype a <> "string" -> forall v, rdefault a = Some v -> adef (fmt_attr a) = v).
Proof. exact fmt_declared. Qed.
Print Assumptions C14_declared_default.

Theorem C14_missing_default :
  forall a : raw_attr, rdefault a = None ->
    adef (fmt_attr a) = if String.eqb (rtype a) "boolean" then VBool false
                        else if String.eqb (rtype a) "string" then VStr "" else VNaN.
Proof. exact fmt_missing. Qed.
Print Assumptions C14_missing_default.

Example C14_example :
  dkeys (run_regs [] rg_hist) = ["buses"; "generators"; "owns"] /\
  get_type rg_alias (run_regs [] rg_hist) "Generator" = inl (mk_ctype (rg "Generator" "generators")) /\
  get_type rg_alias (run_regs [] rg_hist) "x" = inr ValueErr.
Proof. repeat split; reflexivity. Qed.

(* DEFECT (types.py:84): "Must be unique" is checked against list names instead of names, so the same
   name is accepted twice ... *)
Theorem C14_unique_name_refuted :
  exists r g h, rname g = rname h /\ rlist g <> rlist h /\
    snd (add_component_type (run_regs r [g]) h) = None.
Proof. exists [], (rg "Own" "owns"), (rg "Own" "others"). repeat split; try discriminate. Qed.
Print Assumptions C14_unique_name_refuted.

(* ... and a registration under an existing list name silently replaces the old type *)
Theorem C14_replaced_silently_refuted :
  exists r g h, rlist g = rlist h /\ snd (add_component_type (run_regs r [g]) h) = None /\
    get_type [] (run_regs r [g; h]) (rlist g) <> inl (mk_ctype g).
Proof.
  exists [], (rg "Generator" "generators"), (rg "Own" "generators").
  repeat split; try discriminate.
Qed.
Print Assumptions C14_replaced_silently_refuted.
