From Coq Require Import List String Bool QArith.
From Verif Require Import LinModel WholeModel IdleSpec.
From Verif Require CapModel.
Import ListNotations.
Open Scope string_scope.
Open Scope list_scope.
Open Scope Q_scope.

(* A share q of a generator under the name k: all quantities of power and energy in proportion, all relative ones as they are. *)
Definition part (k : string) (q : Q) (a : asset) : asset :=
  {| cls := cls a; nm := k; bus0 := bus0 a; bus1 := bus1 a; sgn := sgn a;
     ports := ports a; carrier := carrier a; flag := flag a; ext := ext a; committable := committable a;
     nom := q * nom a; nom_min := q * nom_min a; nom_max := option_map (Qmult q) (nom_max a); nom_set := option_map (Qmult q) (nom_set a); nom_mod := nom_mod a;
     min_pu := min_pu a; max_pu := max_pu a; max_hours := max_hours a;
     op_set := fun attr t => option_map (Qmult q) (op_set a attr t);
     up := up a; down := down a; up_static := up_static a; down_static := down_static a; start_lim := start_lim a; shut_lim := shut_lim a;
     min_up := min_up a; min_down := min_down a; up_before := up_before a; down_before := down_before a;
     eff := eff a; stand := stand a; init := init a; cyclic := cyclic a;
     eff_dispatch := eff_dispatch a; eff_store := eff_store a; inflow := inflow a;
     capital := capital a; marginal := marginal a; storage_cost := storage_cost a; spill_cost := spill_cost a; quadratic := quadratic a; standby := standby a;
     start_cost := start_cost a; shut_cost := shut_cost a; len := len a; e_min := option_map (Qmult q) (e_min a); e_max := option_map (Qmult q) (e_max a); r_eff := r_eff a |}.
Definition target (i : string) (a : asset) : bool := String.eqb (cls a) "Generator" && String.eqb (nm a) i.

(* generator i becomes generator i with the share q and generator j with the rest *)
Definition parts_of (i j : string) (q : Q) (a : asset) : list asset := if target i a then [part i q a; part j (1 - q) a] else [a].
Definition split (i j : string) (q : Q) (n : net) : net :=
  {| assets := flat_map (parts_of i j q) (assets n); loads := loads n; buses := buses n; nsnaps := nsnaps n;
     w_obj := w_obj n; w_gen := w_gen n; w_sto := w_sto n; tangents := tangents n; linear := linear n; emission := emission n;
     carriers := carriers n; limits := limits n; columns := columns n |}.
(* a share is possible: the new name is free, the generator has no on and off, no modules and no quadratic costs *)
Definition splittable (i j : string) (q : Q) (n : net) : Prop :=
  i <> j /\ 0 <= q <= 1 /\ (forall a, In a (assets n) -> In (cls a) classes) /\ (forall a, In a (assets n) -> cls a = "Generator" -> nm a <> j) /\
  (forall a, In a (assets n) -> target i a = true -> committable a = false /\ nom_mod a <= 0 /\ forall t, quadratic a t == 0).

Definition of_generator (s : string) : bool := String.eqb s "Generator-p" || String.eqb s "Generator-p_nom".
(* dispatch and capacity of both parts together *)
Definition joined (i j : string) (x : sol) : sol :=
  fun v => match v with (s, t, k) => if of_generator s && String.eqb k i then x (s, t, i) + x (s, t, j) else x v end.
(* dispatch and capacity shared out in proportion *)
Definition shared (i j : string) (q : Q) (y : sol) : sol :=
  fun v => match v with (s, t, k) =>
    if of_generator s && String.eqb k i then q * y (s, t, i) else if of_generator s && String.eqb k j then (1 - q) * y (s, t, i) else y v end.

(* Kirchhoff's voltage law reads the flows on lines and transformers only *)
Definition kvl_flows (kvl : list asset -> list con) (l : list asset) : Prop :=
  forall x y : sol, (forall s t k, s = "Line-s" \/ s = "Transformer-s" -> x (s, t, k) == y (s, t, k)) ->
    (sat x (CapModel.problem (kvl l)) <-> sat y (CapModel.problem (kvl l))).

Definition same_cost (a b : option Q) : Prop := match a, b with Some p, Some q => p == q | None, None => True | _, _ => False end.
