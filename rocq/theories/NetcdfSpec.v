From Coq Require Import List String Bool ZArith Ascii.
From Verif Require Import Assoc TablesModel FileModel FileSpec.
Import ListNotations.
Open Scope string_scope.
Open Scope list_scope.

(* no list name followed by "_" starts another one followed by "_" *)
Definition prefix_free (reg : dict class) : Prop :=
  forall cls k cls' k' r, In (cls, k) reg -> In (cls', k') reg -> cls <> cls' ->
    (k_list k' ++ "_" <> k_list k ++ "_" ++ r)%string.

(* columns of static tables a netCDF file can hold *)
Definition storable (n : net) : Prop :=
  forall cls c name row a, dget (comps n) cls = Some c -> In (name, row) (static c) -> In a (dkeys row) ->
    a <> "i" /\ forall r, (a <> "t_" ++ r)%string.
