(* What users expect of the files of a network. *)
From Coq Require Import List String Bool ZArith Ascii Permutation.
From Verif Require Import Assoc TablesModel TablesSpec FileModel.
Import ListNotations.
Open Scope string_scope.
Open Scope list_scope.

(* two networks a user cannot tell apart: the same rows and, for every attribute, the same frame *)
Definition same_tables (c c' : comp) : Prop :=
  static c = static c' /\ forall a, dget (dyn c) a = dget (dyn c') a.

Definition same_net (n n' : net) : Prop :=
  snaps n = snaps n' /\ weights n = weights n' /\ dkeys (comps n) = dkeys (comps n') /\
  forall cls c c', dget (comps n) cls = Some c -> dget (comps n') cls = Some c' -> same_tables c c'.

Definition same_doc (d d' : doc) : Prop :=
  same_net (d_net d) (d_net d') /\ d_network d = d_network d' /\ d_crs d = d_crs d' /\
  d_meta d = d_meta d' /\ d_periods d = d_periods d'.

(* both readings fail, or both give the same network *)
Definition read_alike (x y : doc + ferr) : Prop :=
  match x, y with
  | inl d, inl d' => same_doc d d'
  | inr _, inr _ => True
  | _, _ => False
  end.

(* list names as PyPSA has them: distinct, without "-" and "/", none of the five reserved words *)
Definition plain (l : string) : Prop :=
  has_char "-"%char l = false /\ has_char "/"%char l = false /\
  ~ In l ["network"; "crs"; "meta"; "snapshots"; "investment_periods"].

Definition registry (reg : dict class) : Prop :=
  NoDup (dkeys reg) /\ NoDup (map (fun e => k_list (snd e)) reg) /\ In "Bus" (dkeys reg) /\
  forall cls k, In (cls, k) reg -> plain (k_list k) /\ NoDup (dkeys (k_meta k)).

Definition metas_of (reg : dict class) : dict meta := map (fun e => (fst e, k_meta (snd e))) reg.

(* nothing in the file contradicts the network that is about to be written to it:
   - CSV: no table of a class the network has no components of, and no folder named like one;
   - CSV and Excel: no time series of an attribute the network does not know *)
Definition fits (reg : dict class) (f : format) (n : net) (old : store) : Prop :=
  match f with
  | HDF5 => True
  | Excel =>
      forall cls k c a x, In (cls, k) reg -> dget (comps n) cls = Some c -> static c <> [] ->
        dget old (k_list k ++ "-" ++ a) = Some x -> In a (dkeys (dyn c))
  | CSV =>
      (forall cls k c, In (cls, k) reg -> dget (comps n) cls = Some c -> static c = [] ->
        dget old (k_list k ++ ".csv") = None /\
        forall file, dget old (k_list k ++ "/" ++ file) = None) /\
      (forall cls k c a x, In (cls, k) reg -> dget (comps n) cls = Some c -> static c <> [] ->
        dget old (k_list k ++ "-" ++ a ++ ".csv") = Some x -> In a (dkeys (dyn c)))
  end%string.

(* the network to be written knows every attribute with time series the former one knew, and (CSV)
   still has components of every class the former one had components of *)
Definition grown (f : format) (before after : net) : Prop :=
  forall cls c c', dget (comps before) cls = Some c -> dget (comps after) cls = Some c' ->
    static c <> [] ->
    (f = CSV -> static c' <> []) /\ (forall a, In a (dkeys (dyn c)) -> In a (dkeys (dyn c'))).

Definition any_order (reg : dict class) (order : list string) : Prop := Permutation (dkeys reg) order.
