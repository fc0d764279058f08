From Coq Require Import List String Bool QArith.
From Verif Require Import LinModel DispatchModel.
Import ListNotations.
Open Scope string_scope.
Open Scope Q_scope.

(* what the bounds mean for one asset at one snapshot: v the reported operation, l the reported loss, c the capacity *)
Definition within (k : kind) (a : asset) (t : nat) (c v l : Q) : Prop :=
  match k with
  | Passive => v + l <= max_pu a t * c /\ - v + l <= max_pu a t * c
  | Storage_dispatch => 0 <= v /\ v <= max_pu a t * c
  | Storage_store => 0 <= v /\ v <= - min_pu a t * c
  | Storage_soc => 0 <= v /\ v <= max_hours a * c
  | Other => min_pu a t * c <= v /\ v <= max_pu a t * c
  end.

Section S.
Variables cls attr nattr : string.
Variable k : kind.
Variable losses : bool.
Variable T : nat.
Variable assets : list asset.
Let rep x v a t := reported cls x v a t.
Definition loss_of (x : sol) (a : asset) (t : nat) : Q := if losses then rep x "loss" a t else 0.

(* the capacity decision *)
Definition capacity_ok (x : sol) (a : asset) : Prop :=
  let c := nom_opt cls nattr x a in
  nom_min a <= c /\ (forall u, nom_max a = Some u -> c <= u) /\ (forall s, nom_set a = Some s -> c == s) /\
  (0 < nom_mod a -> c == nom_mod a * x (vname cls "n_mod", O, name a)).

Definition dispatch_ok (x : sol) : Prop :=
  (forall a, In a assets -> ext a = true -> capacity_ok x a) /\
  (forall a t, In a assets -> (t < T)%nat -> active a t = true -> (ext a = true \/ com a = false) ->
     within k a t (nom_opt cls nattr x a) (rep x attr a t) (loss_of x a t)) /\
  (forall a t, In a assets -> (t < T)%nat -> active a t = true -> com a = true ->
     let u := rep x "status" a t in
     min_pu a t * nom a * u <= rep x "p" a t /\ rep x "p" a t <= max_pu a t * nom a * u) /\
  (forall a t s, In a assets -> (t < T)%nat -> active a t = true -> fix_set a t = Some s -> rep x attr a t == s).
End S.
