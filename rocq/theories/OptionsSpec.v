(* Specification vocabulary for pypsa.options: no tree, no path navigation.
   A state is a flat finite map from the full dotted option name to (current value, default). *)
From Coq Require Import List String Bool.
From Verif Require Import Assoc OptionsModel.
Import ListNotations.
Open Scope string_scope.

Section Spec.
Context {V : Type}.

Definition flat := dict (V * V).

(* q lies below p in the dotted hierarchy: q = p ++ "." ++ something *)
Definition below (p q : string) : bool := String.prefix (p ++ ".") q.

(* a new option may not sit above or below an existing one *)
Definition clash (m : flat) (p : string) : bool :=
  existsb (fun q => below p q || below q p) (dkeys m).

Definition flat_step (m : flat) (o : op V) : flat * option oerr :=
  match o with
  | SetOption p v | AttrAssign p v =>
      match dget m p with
      | Some (_, d) => (dset m p (v, d), None)
      | None => (m, Some InvalidOption)
      end
  | ResetAll => (map (fun e => (fst e, (snd (snd e), snd (snd e)))) m, None)
  | AddOption p d => if clash m p then (m, Some ValueErr) else (dset m p (d, d), None)
  end.

Definition flat_run (h : list (op V)) : flat := fold_left (fun m o => fst (flat_step m o)) h [].

(* "last successful write since the last reset, else the default":
   h is a history of writes and resets, newest first *)
Fixpoint last_write (start default : V) (newest_first : list (op V)) (p : string) : V :=
  match newest_first with
  | [] => start
  | SetOption q v :: older | AttrAssign q v :: older =>
      if String.eqb q p then v else last_write start default older p
  | ResetAll :: _ => default
  | AddOption _ _ :: older => last_write start default older p
  end.

Definition only_writes (h : list (op V)) : Prop :=
  Forall (fun o => match o with AddOption _ _ => False | _ => True end) h.

(* names given to option_context, in order *)
Definition given (as_str : V -> option string) (pairs : list (V * V)) : list (string * V) :=
  flat_map (fun nv => match as_str (fst nv) with Some n => [(n, snd nv)] | None => [] end) pairs.

(* values given for one name, newest first *)
Definition values_for (n : string) (l : list (string * V)) : list V :=
  rev (map snd (filter (fun e => String.eqb (fst e) n) l)).

Definition registered (t : tree V) p : Prop := exists v, get_option t p = inl v.

(* the value a name has just before its last assignment among l *)
Definition saved (t : tree V) n (l : list (string * V)) : V + oerr :=
  match values_for n l with
  | [] => get_option t n
  | [_] => get_option t n
  | _ :: v :: _ => inl v
  end.

Definition newest n (l : list (string * V)) (dflt : V + oerr) : V + oerr :=
  match values_for n l with [] => dflt | v :: _ => inl v end.

Definition keeps_options (body : tree V -> tree V * option oerr) : Prop :=
  forall t n, registered t n -> registered (fst (body t)) n.

End Spec.
Arguments flat : clear implicits.
