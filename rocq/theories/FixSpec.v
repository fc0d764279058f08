From Coq Require Import List String Bool QArith.
From Verif Require Import LinModel FixModel.
From Verif Require DispatchModel RampModel ObjectiveModel ObjectiveSpec.
Import ListNotations.
Open Scope string_scope.
Open Scope list_scope.
Open Scope Q_scope.

(* variables that decide on capacities; all others are operational *)
Definition capacity_arrays : list string :=
  ["Generator-p_nom"; "Line-s_nom"; "Transformer-s_nom"; "Link-p_nom"; "Store-e_nom"; "StorageUnit-p_nom";
   "Generator-n_mod"; "Line-n_mod"; "Transformer-n_mod"; "Link-n_mod"; "Store-n_mod"; "StorageUnit-n_mod"; "objective_constant"].
Definition decides_capacity (v : var) : Prop := In (fst (fst v)) capacity_arrays.
(* a condition on the operation only, and one on the capacities only *)
Definition operational (P : sol -> Prop) : Prop := forall x y, (forall v, ~ decides_capacity v -> x v == y v) -> P x -> P y.
Definition structural (G : sol -> Prop) : Prop := forall x y, (forall v, decides_capacity v -> x v == y v) -> G x -> G y.

(* a class and its nominal attribute; its operational variable; extendable units are not committable *)
Definition proper_group (g : group) : Prop :=
  In (g_cls g, g_nattr g) [("Generator", "p_nom"); ("Line", "s_nom"); ("Transformer", "s_nom"); ("Link", "p_nom"); ("Store", "e_nom"); ("StorageUnit", "p_nom")] /\
  In (g_attr g) ["p"; "s"; "e"; "p_dispatch"; "p_store"; "state_of_charge"] /\
  forall a, In a (g_rows g) -> DispatchModel.ext a = true -> DispatchModel.com a = false.
Definition proper_ramps (r : rgroup) : Prop :=
  In (r_cls r, r_nattr r) [("Generator", "p_nom"); ("Link", "p_nom")] /\
  forall a, In a (r_rows r) -> DispatchModel.ext (RampModel.base a) = true -> DispatchModel.com (RampModel.base a) = false.
Definition proper_costs (n : ObjectiveModel.net) : Prop :=
  ObjectiveSpec.known n /\ ObjectiveSpec.proper n ObjectiveModel.a_start /\ ObjectiveSpec.proper n ObjectiveModel.a_shut.
Definition proper (pb : problem) : Prop :=
  (forall g, In g (groups pb) -> proper_group g) /\ (forall r, In r (ramping pb) -> proper_ramps r) /\ proper_costs (costs pb).

(* solutions of a problem with further conditions *)
Definition solution (pb : problem) (cs : list con) (P : sol -> Prop) (x : sol) : Prop := sat x cs /\ in_domains pb x /\ P x.
Definition optimum (pb : problem) (b : list con * list ObjectiveModel.piece) (P : sol -> Prop) (x : sol) : Prop :=
  solution pb (fst b) P x /\ forall y, solution pb (fst b) P y -> ObjectiveModel.value_of x (snd b) <= ObjectiveModel.value_of y (snd b).
(* operation of y, capacities of x *)
Definition with_capacities (x y z : sol) : Prop :=
  (forall v, decides_capacity v -> z v == x v) /\ (forall v, ~ decides_capacity v -> z v == y v).

(* nothing but capacity and the extendable flag changes *)
Definition same_row (a b : DispatchModel.asset) (c : Q) : Prop :=
  DispatchModel.ext b = false /\ DispatchModel.nom b = c /\
  DispatchModel.name b = DispatchModel.name a /\ DispatchModel.nom_min b = DispatchModel.nom_min a /\ DispatchModel.nom_max b = DispatchModel.nom_max a /\
  DispatchModel.nom_set b = DispatchModel.nom_set a /\ DispatchModel.nom_mod b = DispatchModel.nom_mod a /\ DispatchModel.com b = DispatchModel.com a /\
  DispatchModel.active b = DispatchModel.active a /\ DispatchModel.min_pu b = DispatchModel.min_pu a /\ DispatchModel.max_pu b = DispatchModel.max_pu a /\
  DispatchModel.max_hours b = DispatchModel.max_hours a /\ DispatchModel.fix_set b = DispatchModel.fix_set a.
(* the same for the row as the objective sees it *)
Definition same_costs (a b : ObjectiveModel.asset) (c : Q) : Prop :=
  ObjectiveModel.a_ext b = false /\ ObjectiveModel.a_nom b = c /\
  ObjectiveModel.a_class b = ObjectiveModel.a_class a /\ ObjectiveModel.a_name b = ObjectiveModel.a_name a /\ ObjectiveModel.a_flag b = ObjectiveModel.a_flag a /\
  ObjectiveModel.a_in b = ObjectiveModel.a_in a /\ ObjectiveModel.a_on b = ObjectiveModel.a_on a /\ ObjectiveModel.a_com b = ObjectiveModel.a_com a /\
  ObjectiveModel.a_capital b = ObjectiveModel.a_capital a /\ ObjectiveModel.a_marginal b = ObjectiveModel.a_marginal a /\ ObjectiveModel.a_storage b = ObjectiveModel.a_storage a /\
  ObjectiveModel.a_spill b = ObjectiveModel.a_spill a /\ ObjectiveModel.a_quadratic b = ObjectiveModel.a_quadratic a /\ ObjectiveModel.a_standby b = ObjectiveModel.a_standby a /\
  ObjectiveModel.a_start b = ObjectiveModel.a_start a /\ ObjectiveModel.a_shut b = ObjectiveModel.a_shut a /\ ObjectiveModel.a_inflow b = ObjectiveModel.a_inflow a.
