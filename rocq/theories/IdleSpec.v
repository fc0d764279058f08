From Coq Require Import List String Bool QArith ZArith Arith.
From Verif Require Import LinModel WholeModel.
From Verif Require CapModel BalanceModel.
Import ListNotations.
Open Scope string_scope.
Open Scope list_scope.
Open Scope Q_scope.

(* the six classes with a capacity; the name of the capacity variable *)
Definition nattr (c : string) : string :=
  if String.eqb c "Line" || String.eqb c "Transformer" then "s_nom" else if String.eqb c "Store" then "e_nom" else "p_nom".
Definition cap_var (a : asset) : var := ((cls a ++ "-" ++ nattr (cls a))%string, O, nm a).
Definition mod_var (a : asset) : var := ((cls a ++ "-n_mod")%string, O, nm a).
Definition classes : list string := ["Generator"; "Line"; "Transformer"; "Link"; "Store"; "StorageUnit"].
Definition well_named (n : net) : Prop :=
  NoDup (map (fun a => (cls a, nm a)) (assets n)) /\ forall a, In a (assets n) -> In (cls a) classes.

(* what remains of a deactivated asset: bounds of its capacity *)
Definition in_range (a : asset) (q : Q) : Prop :=
  nom_min a <= q /\ (forall u, nom_max a = Some u -> q <= u) /\ (forall u, nom_set a = Some u -> q == u).
Definition modules_fit (a : asset) (q k : Q) : Prop :=
  Qle_bool (nom_mod a) 0 = false -> q == nom_mod a * k /\ exists z : nat, k == inject_Z (Z.of_nat z).
Definition idle_capacities (n : net) (x : sol) : Prop :=
  forall a, In a (assets n) -> flag a = false -> ext a = true -> in_range a (x (cap_var a)) /\ modules_fit a (x (cap_var a)) (x (mod_var a)).

(* all active assets of a class have a property *)
Definition active_all (n : net) (c : string) (P : asset -> Prop) : Prop :=
  forall a, In a (assets n) -> cls a = c -> flag a = true -> P a.
Definition idle_all (n : net) (c : string) (P : asset -> Prop) : Prop :=
  forall a, In a (assets n) -> cls a = c -> flag a = false -> P a.
Definition unit_ramps (T : nat) (a : asset) : Prop :=
  forall t, (t < T)%nat -> exists u d, up a t = Some u /\ down a t = Some d /\ u == 1 /\ d == 1.
Definition no_ramps (T : nat) (a : asset) : Prop := forall t, (t < T)%nat -> up a t = None /\ down a t = None.
Definition no_static_ramps (a : asset) : Prop := up_static a = None /\ down_static a = None.

(* a limit speaks about the initial level of a storage *)
Definition storage_class (c : string) : Prop := c = "Store" \/ c = "StorageUnit".
Definition counts_initial (n : net) (l : limit) (a : asset) : Prop :=
  storage_class (cls a) /\ cyclic a = false /\
  match l with
  | Primary attr _ _ => exists q, In (carrier a, q) (emission n attr) /\ ~ q == 0
  | Operational c _ _ => carrier a = c
  | _ => False
  end.
(* a limit speaks about the capacity of a branch *)
Definition counts_branch (l : limit) (a : asset) : Prop :=
  (cls a = "Line" \/ cls a = "Link") /\ ext a = true /\
  match l with Volume cs _ _ | Cost cs _ _ => In (carrier a) (CapModel.carrier_list cs) | _ => False end.
(* a column of the buses speaks about the capacity of an asset *)
Definition counts_at_bus (n : net) (col : CapModel.column) (a : asset) : Prop :=
  (cls a = "Generator" \/ storage_class (cls a)) /\ ext a = true /\ In (carrier a) (carriers n) /\
  (CapModel.col_name col = ("nom_min_" ++ carrier a)%string \/ CapModel.col_name col = ("nom_max_" ++ carrier a)%string) /\
  In (bus0 a) (buses n) /\ CapModel.col_val col (bus0 a) <> None.

(* the deactivated assets are out of reach of the functions that do not ask whether an asset is active *)
Record detached (n : net) : Prop := {
  de_ramps : forall c, c = "Generator" \/ c = "Link" -> active_all n c (unit_ramps (nsnaps n)) -> idle_all n c (unit_ramps (nsnaps n));
  de_static : forall c, c = "Generator" \/ c = "Link" -> active_all n c (no_ramps (nsnaps n)) -> active_all n c no_static_ramps;
  de_losses : tangents n <> O -> forall a, In a (assets n) -> flag a = false -> passive a = true -> ext a = true -> nom_max a <> None;
  de_initial : forall l a, In l (limits n) -> In a (assets n) -> flag a = false -> counts_initial n l a -> init a == 0;
  de_branches : forall l a, In l (limits n) -> In a (assets n) -> flag a = false -> ~ counts_branch l a;
  de_columns : forall col a, In col (columns n) -> In a (assets n) -> flag a = false -> ~ counts_at_bus n col a
}.
(* Kirchhoff's voltage law does not involve deactivated branches (C18), and only flows on branches *)
Definition belongs (a : asset) (v : var) : Prop := exists attr t, v = ((cls a ++ "-" ++ attr)%string, t, nm a).
Definition mentions (cs : list con) (v : var) : Prop := exists c q, In c cs /\ In (q, Some v) (lhs c).
Definition cycles_intact (kvl : list asset -> list con) (n : net) : Prop :=
  (forall x, sat x (CapModel.problem (kvl (filter passive (assets n)))) <->
             sat x (CapModel.problem (kvl (filter passive (filter flag (assets n)))))) /\
  (forall l v, mentions (kvl l) v -> exists a, In a l /\ belongs a v).
(* something at some bus is in operation *)
Definition in_operation (n : net) : Prop :=
  exists a, In a (assets n) /\ flag a = true /\ (In (bus0 a) (buses n)).
Definition costs_sane (n : net) : Prop := forall a, In a (assets n) -> 0 <= start_cost a /\ 0 <= shut_cost a.

(* a cheapest solution *)
Definition optimal (kvl : list asset -> list con) (n : net) (x : sol) : Prop :=
  feasible kvl n x /\ exists q, cost n x = Some q /\ forall y q', feasible kvl n y -> cost n y = Some q' -> q <= q'.
(* equal but for the capacities of deactivated assets *)
Definition same_operation (n : net) (x y : sol) : Prop :=
  forall v, (forall a, In a (assets n) -> flag a = false -> v <> cap_var a /\ v <> mod_var a) -> x v = y v.
