From Coq Require Import List String ZArith Relations.
From Verif Require Import Assoc PeriodsModel PeriodsProofs TopologyModel.
Import ListNotations.

(* a branch that counts: switched on and, if an investment period is given, alive in it *)
Definition usable (period : option Z) (b : branch) : Prop :=
  aactive (basset b) = true /\ match period with None => True | Some p => alive (basset b) p end.
(* the branches of the passive classes *)
Definition passive_branch (passive : list string) (n : tnet) (cls : string) (b : branch) : Prop :=
  exists brs, In cls passive /\ dget (tbranches n) cls = Some brs /\ In b brs.
Definition joined (period : option Z) (passive : list string) (n : tnet) (x y : string) : Prop :=
  exists cls b, passive_branch passive n cls b /\ usable period b /\ bus0 b = x /\ bus1 b = y.
(* a path of usable passive branches, travelled in either direction *)
Definition connected (period : option Z) (passive : list string) (n : tnet) : string -> string -> Prop :=
  clos_refl_sym_trans string (joined period passive n).
(* cls is the class visited last among those with a non-empty table *)
Definition visited_last (passive : list string) (n : tnet) (cls : string) : Prop :=
  exists pre post, passive = pre ++ cls :: post /\
    (exists b, passive_branch [cls] n cls b) /\
    forall c, In c post -> dget (tbranches n) c = None \/ dget (tbranches n) c = Some [].
(* well-formed input: distinct bus names, known period, all ends of usable branches are buses *)
Definition topo_wf (known : list Z) (period : option Z) (passive : list string) (n : tnet) : Prop :=
  NoDup (busnames n) /\ (forall p, period = Some p -> In p known) /\
  forall x y, joined period passive n x y -> In x (busnames n) /\ In y (busnames n).
Definition period_ok (known : list Z) (period : option Z) : Prop := forall p, period = Some p -> In p known.
(* the condition under which the line graph.py:146 does no harm *)
Definition last_class_counts (period : option Z) (passive : list string) (n : tnet) : Prop :=
  forall cls b last, passive_branch passive n cls b -> usable period b -> visited_last passive n last ->
    exists b', passive_branch passive n last b' /\ usable period b'.
