(* Model of /repo/pypsa/common.py:308-399 rename_deprecated_kwargs / deprecated_kwargs.
   Warnings (353-357) are not modelled. The version test (332-337) is the boolean `too_new`:
   version.parse(deprecated_in) > version.parse(current). *)
From Coq Require Import List String Bool.
From Verif Require Import Assoc.
Import ListNotations.

Section K.
Context {V : Type}.

Inductive kerr : Type :=
| VersionError                       (* ValueError, line 337 *)
| BothGiven (alias new : string).    (* DeprecationWarning raised, lines 341-345 *)

(* lines 339-358: loop over aliases; kwargs[new] = kwargs.pop(alias) *)
Fixpoint rename_loop (aliases : list (string * string)) (kw : dict V) : dict V + kerr :=
  match aliases with
  | [] => inl kw
  | (alias, new) :: rest =>
      match dget kw alias with
      | None => rename_loop rest kw
      | Some v =>
          if dmem kw new then inr (BothGiven alias new)
          else rename_loop rest (dset (ddel kw alias) new v)
      end
  end.

Definition rename_deprecated_kwargs (too_new : bool) (aliases : list (string * string)) (kw : dict V)
  : dict V + kerr :=
  if too_new then inr VersionError else rename_loop aliases kw.

(* lines 389-399: the wrapper calls f with the renamed keywords *)
Definition call_wrapped {R : Type} (too_new : bool) (aliases : list (string * string))
  (f : dict V -> R) (kw : dict V) : R + kerr :=
  match rename_deprecated_kwargs too_new aliases kw with
  | inl kw' => inl (f kw')
  | inr e => inr e
  end.

End K.
