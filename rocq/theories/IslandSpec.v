From Coq Require Import List String Bool QArith ZArith Arith.
From Verif Require Import LinModel WholeModel IdleSpec.
From Verif Require CapModel BalanceModel.
Import ListNotations.
Open Scope string_scope.
Open Scope list_scope.
Open Scope Q_scope.

(* the part of a network at a set of buses, as of n[buses]: networks.py 1590-1677. Branches are taken by bus0 alone: in a separated network bus1 is on the same side *)
Definition island (S : string -> bool) (n : net) : net :=
  {| assets := filter (fun a => S (bus0 a)) (assets n); loads := filter (fun d => S (BalanceModel.d_bus d)) (loads n); buses := filter S (buses n);
     nsnaps := nsnaps n; w_obj := w_obj n; w_gen := w_gen n; w_sto := w_sto n; tangents := tangents n; linear := linear n; emission := emission n;
     carriers := carriers n; limits := limits n; columns := columns n |}.
Definition other (S : string -> bool) : string -> bool := fun b => negb (S b).

(* all assets of a class have a property *)
Definition all_of (n : net) (c : string) (P : asset -> Prop) : Prop := forall a, In a (assets n) -> cls a = c -> P a.
(* ramp limits of one are dropped by class, and static limits of committable assets with them: neither differs between an island and the network *)
Definition ramps_alike (n i : net) : Prop := forall c, c = "Generator" \/ c = "Link" ->
  (all_of i c (unit_ramps (nsnaps n)) -> (exists a, In a (assets i) /\ cls a = c) -> all_of n c (unit_ramps (nsnaps n))) /\
  (all_of i c (no_ramps (nsnaps n)) -> all_of i c no_static_ramps).

(* no branch between S and the rest *)
Record separated (S : string -> bool) (n : net) : Prop := {
  se_names : well_named n;
  se_bus1 : forall a, In a (assets n) -> In (cls a) ["Line"; "Transformer"; "Link"] -> S (bus1 a) = S (bus0 a);
  se_ports : forall a pe, In a (assets n) -> cls a = "Link" -> In pe (ports a) -> fst pe <> "" -> S (fst pe) = S (bus0 a);
  se_parts : forall b, exists a, In a (assets n) /\ In (bus0 a) (buses n) /\ S (bus0 a) = b   (* something at some bus of either part *)
}.
(* no limit that concerns both *)
Definition uncoupled (S : string -> bool) (n : net) : Prop := limits n = [] /\ ramps_alike n (island S n) /\ ramps_alike n (island (other S) n).
(* Kirchhoff's voltage law concerns cycles, which lie on either side (C17, C18) *)
Definition cycles_apart (kvl : list asset -> list con) (S : string -> bool) (n : net) : Prop :=
  (forall x, sat x (CapModel.problem (kvl (filter passive (assets n)))) <->
     sat x (CapModel.problem (kvl (filter passive (assets (island S n))))) /\ sat x (CapModel.problem (kvl (filter passive (assets (island (other S) n)))))) /\
  (forall l v, mentions (kvl l) v -> exists a, In a l /\ belongs a v).

(* z has the values of x for all variables of n *)
Definition carries (n : net) (x z : sol) : Prop := forall a v, In a (assets n) -> belongs a v -> z v = x v.
