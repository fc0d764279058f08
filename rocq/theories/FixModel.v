From Coq Require Import List String Bool QArith.
From Verif Require Import LinModel.
From Verif Require DispatchModel RampModel ObjectiveModel LossModel.
Import ListNotations.
Open Scope string_scope.
Open Scope list_scope.
Open Scope Q_scope.

(* Dispatch at fixed optimal capacities: optimization/optimize.py 720-733, and the problem built before and after it.
   The columns <nom>_opt are those of assign_solution (optimize.py 370-379, DispatchModel.nom_opt). *)

(* rows .loc[ext_i, attr] = .loc[ext_i, attr + "_opt"]; attr + "_extendable" = False *)
Definition fix_row (opt : Q) (a : DispatchModel.asset) : DispatchModel.asset :=
  {| DispatchModel.name := DispatchModel.name a; DispatchModel.nom := if DispatchModel.ext a then opt else DispatchModel.nom a;
     DispatchModel.nom_min := DispatchModel.nom_min a; DispatchModel.nom_max := DispatchModel.nom_max a; DispatchModel.nom_set := DispatchModel.nom_set a;
     DispatchModel.nom_mod := DispatchModel.nom_mod a; DispatchModel.ext := false; DispatchModel.com := DispatchModel.com a;
     DispatchModel.active := DispatchModel.active a; DispatchModel.min_pu := DispatchModel.min_pu a; DispatchModel.max_pu := DispatchModel.max_pu a;
     DispatchModel.max_hours := DispatchModel.max_hours a; DispatchModel.fix_set := DispatchModel.fix_set a |}.
(* the same row as the ramp limits see it *)
Definition fix_ramp (opt : Q) (a : RampModel.rasset) : RampModel.rasset :=
  {| RampModel.base := fix_row opt (RampModel.base a); RampModel.up := RampModel.up a; RampModel.down := RampModel.down a;
     RampModel.up_static := RampModel.up_static a; RampModel.down_static := RampModel.down_static a;
     RampModel.start_lim := RampModel.start_lim a; RampModel.shut_lim := RampModel.shut_lim a;
     RampModel.p_start := RampModel.p_start a; RampModel.status_start := RampModel.status_start a |}.
(* ... and the objective *)
Definition fix_cost (opt : Q) (a : ObjectiveModel.asset) : ObjectiveModel.asset :=
  {| ObjectiveModel.a_class := ObjectiveModel.a_class a; ObjectiveModel.a_name := ObjectiveModel.a_name a; ObjectiveModel.a_flag := ObjectiveModel.a_flag a;
     ObjectiveModel.a_in := ObjectiveModel.a_in a; ObjectiveModel.a_on := ObjectiveModel.a_on a; ObjectiveModel.a_ext := false;
     ObjectiveModel.a_com := ObjectiveModel.a_com a; ObjectiveModel.a_nom := if ObjectiveModel.a_ext a then opt else ObjectiveModel.a_nom a;
     ObjectiveModel.a_capital := ObjectiveModel.a_capital a; ObjectiveModel.a_marginal := ObjectiveModel.a_marginal a;
     ObjectiveModel.a_storage := ObjectiveModel.a_storage a; ObjectiveModel.a_spill := ObjectiveModel.a_spill a;
     ObjectiveModel.a_quadratic := ObjectiveModel.a_quadratic a; ObjectiveModel.a_standby := ObjectiveModel.a_standby a;
     ObjectiveModel.a_start := ObjectiveModel.a_start a; ObjectiveModel.a_shut := ObjectiveModel.a_shut a; ObjectiveModel.a_inflow := ObjectiveModel.a_inflow a |}.
(* ... and the transmission losses *)
Definition fix_loss (opt : Q) (b : LossModel.branch) : LossModel.branch :=
  {| LossModel.b_name := LossModel.b_name b; LossModel.b_active := LossModel.b_active b; LossModel.b_r := LossModel.b_r b;
     LossModel.b_max_pu := LossModel.b_max_pu b; LossModel.b_ext := false; LossModel.b_nom := if LossModel.b_ext b then Some opt else LossModel.b_nom b;
     LossModel.b_nom_max := LossModel.b_nom_max b |}.

(* one variable of one class, e.g. StorageUnit p_store *)
Record group := { g_cls : string; g_attr : string; g_nattr : string; g_kind : DispatchModel.kind; g_rows : list DispatchModel.asset }.
Record rgroup := { r_cls : string; r_nattr : string; r_rolling : bool; r_rows : list RampModel.rasset }.
Record problem := { groups : list group; ramping : list rgroup; costs : ObjectiveModel.net; losses : bool; horizon : nat }.

(* constraints.py 743-752: the variable of the capacities exists only if some row of the class is extendable (variables.py
   98-103); otherwise a value in <nom>_set gives a KeyError *)
Definition known_set (g : group) : bool :=
  existsb DispatchModel.ext (g_rows g) || forallb (fun a => match DispatchModel.nom_set a with None => true | _ => false end) (g_rows g).
Definition limits (pb : problem) : list con :=
  flat_map (fun g => DispatchModel.all_constraints (g_cls g) (g_attr g) (g_nattr g) (g_kind g) (losses pb) (horizon pb) (g_rows g)) (groups pb) ++
  flat_map (fun r => RampModel.ramps (r_cls r) (r_nattr r) (horizon pb) (r_rolling r) (r_rows r)) (ramping pb).
(* limits and objective; None: an exception *)
Definition build (pb : problem) : option (list con * list ObjectiveModel.piece) :=
  if forallb known_set (groups pb) then option_map (pair (limits pb)) (ObjectiveModel.objective (costs pb)) else None.
(* domains of the variables, and the fixed one of optimize.py 117-119 *)
Definition in_domains (pb : problem) (x : sol) : Prop :=
  (forall g, In g (groups pb) -> DispatchModel.domains (g_cls g) (horizon pb) (g_rows g) x) /\ ObjectiveModel.const_fixed (costs pb) x.

(* 730-733 with the optimal capacities of the solution x *)
Definition opt_cost (x : sol) (a : ObjectiveModel.asset) : Q :=
  match find (fun ca => String.eqb (fst ca) (ObjectiveModel.a_class a)) ObjectiveModel.nominal with
  | Some (c, attr) => x (ObjectiveModel.vname c attr, O, ObjectiveModel.a_name a)
  | None => 0
  end.
Definition fix_group (x : sol) (g : group) : group :=
  {| g_cls := g_cls g; g_attr := g_attr g; g_nattr := g_nattr g; g_kind := g_kind g;
     g_rows := map (fun a => fix_row (DispatchModel.nom_opt (g_cls g) (g_nattr g) x a) a) (g_rows g) |}.
Definition fix_rgroup (x : sol) (r : rgroup) : rgroup :=
  {| r_cls := r_cls r; r_nattr := r_nattr r; r_rolling := r_rolling r;
     r_rows := map (fun a => fix_ramp (DispatchModel.nom_opt (r_cls r) (r_nattr r) x (RampModel.base a)) a) (r_rows r) |}.
Definition fix_costs (x : sol) (n : ObjectiveModel.net) : ObjectiveModel.net :=
  {| ObjectiveModel.assets := map (fun a => fix_cost (opt_cost x a) a) (ObjectiveModel.assets n); ObjectiveModel.nsnaps := ObjectiveModel.nsnaps n;
     ObjectiveModel.w_snap := ObjectiveModel.w_snap n; ObjectiveModel.per := ObjectiveModel.per n; ObjectiveModel.multi := ObjectiveModel.multi n |}.
Definition fix_optimal_capacities (x : sol) (pb : problem) : problem :=
  {| groups := map (fix_group x) (groups pb); ramping := map (fix_rgroup x) (ramping pb); costs := fix_costs x (costs pb);
     losses := losses pb; horizon := horizon pb |}.
