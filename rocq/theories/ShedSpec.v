From Coq Require Import List String Bool QArith ZArith Arith.
From Verif Require Import LinModel BalanceModel BalanceSpec ShedModel.
From Verif Require DispatchModel ObjectiveModel ObjectiveSpec PriceSpec.
Import ListNotations.
Open Scope string_scope.
Open Scope list_scope.
Open Scope Q_scope.

(* the three views list the same generators *)
Definition same_generators (F : frame) : Prop :=
  (forall a, In a (dis F) -> In (DispatchModel.name a) (map c_name (gens (bal F)))) /\
  (forall o, In o (ObjectiveModel.assets (obj F)) -> ObjectiveModel.a_class o = "Generator" -> In (ObjectiveModel.a_name o) (map c_name (gens (bal F)))).
(* the name of the shedding generator of a bus, and that none is taken *)
Definition shed_name (p : plan) (b : string) : string := (b ++ s_suffix p)%string.
Definition free (p : plan) (F : frame) : Prop := forall b, In b (s_buses p) -> ~ In (shed_name p b) (map c_name (gens (bal F))).

(* power of the shedding generator, in its own unit *)
Definition shedding (p : plan) (x : sol) (b : string) (t : nat) : Q := x ("Generator-p", t, shed_name p b).
Definition is_shedding (p : plan) (v : var) : Prop := fst (fst v) = "Generator-p" /\ exists b, In b (s_buses p) /\ snd v = shed_name p b.
(* solutions that differ in the shedding only *)
Definition but_shedding (p : plan) (x x' : sol) : Prop := forall v, ~ is_shedding p v -> x' v = x v.
(* constraints that do not speak of the shedding *)
Definition silent (p : plan) (cs : list con) : Prop := forall c q v, In c cs -> In (q, Some v) (lhs c) -> ~ is_shedding p v.

(* power a bus lacks *)
Definition missing (n : net) (losses : bool) (x : sol) (t : nat) (b : string) : Q := demand n t b - net_power n losses x t b.
(* limits of the generators *)
Definition limits (F : frame) (losses : bool) (T : nat) : list con := DispatchModel.all_constraints "Generator" "p" "p_nom" DispatchModel.Other losses T (dis F).
(* what the shedding costs *)
Definition shedding_cost (p : plan) (F : frame) (x : sol) : Q :=
  total (fun t => PriceSpec.weight (obj F) t * total (fun b => s_cost p b * shedding p x b t) (s_buses p)) (seq 0 (ObjectiveModel.nsnaps (obj F))).
(* the objective has its usual value (C38) *)
Definition costed (F : frame) (x : sol) : Prop :=
  ObjectiveSpec.known (obj F) /\ ObjectiveModel.const_fixed (obj F) x /\
  ObjectiveSpec.proper (obj F) ObjectiveModel.a_start /\ ObjectiveSpec.proper (obj F) ObjectiveModel.a_shut.
Definition without_shedding (p : plan) (x : sol) : Prop := forall b t, In b (s_buses p) -> shedding p x b t == 0.
(* the carriers of the generators are carriers of the network *)
Definition carriers_known (F : frame) : Prop := forall g c, In (g, c) (gcarriers F) -> In c (carriers F).
