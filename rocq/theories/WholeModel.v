From Coq Require Import List String Bool QArith ZArith Arith.
From Verif Require Import LinModel.
From Verif Require DispatchModel RampModel CommitModel BalanceModel StorageModel LimitModel CapModel LossModel ObjectiveModel.
Import ListNotations.
Open Scope string_scope.
Open Scope list_scope.
Open Scope Q_scope.

(* The whole problem that pypsa/optimization/optimize.py 212-333 (create_model) builds for a single investment period and all
   snapshots, put together from the models of its parts. One record for the assets of all classes; attributes a class lacks
   are not read. Global constraints have no investment period. *)
Record asset := {
  cls : string; nm : string;
  bus0 : string; bus1 : string;                              (* bus for one-port components *)
  sgn : Q; ports : list (string * (nat -> Q)); carrier : string;
  flag : bool;                                               (* column active *)
  ext : bool; committable : bool;
  nom : Q; nom_min : Q; nom_max : option Q; nom_set : option Q; nom_mod : Q;
  min_pu : nat -> Q; max_pu : nat -> Q; max_hours : Q;
  op_set : string -> nat -> option Q;                        (* p_set, s_set, e_set, p_dispatch_set, ... *)
  up : nat -> option Q; down : nat -> option Q; up_static : option Q; down_static : option Q; start_lim : Q; shut_lim : Q;
  min_up : nat; min_down : nat; up_before : nat; down_before : nat;
  eff : nat -> Q;                                            (* efficiency *)
  stand : nat -> Q; init : Q; cyclic : bool;
  eff_dispatch : nat -> Q; eff_store : nat -> Q; inflow : nat -> Q;
  capital : Q; marginal : nat -> Q; storage_cost : nat -> Q; spill_cost : nat -> Q; quadratic : nat -> Q; standby : nat -> Q;
  start_cost : Q; shut_cost : Q;
  len : Q; e_min : option Q; e_max : option Q; r_eff : Q
}.

Inductive limit :=
  | Primary (attr : string) (s : sense) (q : Q)
  | Operational (carrier : string) (s : sense) (q : Q)
  | Volume (carriers : string) (s : sense) (q : Q)
  | Cost (carriers : string) (s : sense) (q : Q).

Record net := {
  assets : list asset; loads : list BalanceModel.load; buses : list string; nsnaps : nat;
  w_obj : nat -> Q; w_gen : nat -> Q; w_sto : nat -> Q;      (* snapshot_weightings *)
  tangents : nat;                                            (* transmission_losses *)
  linear : bool;                                             (* linearized_unit_commitment *)
  emission : string -> list (string * Q);                    (* n.carriers[attribute] *)
  carriers : list string;
  limits : list limit;                                       (* n.global_constraints *)
  columns : list CapModel.column                             (* columns of n.buses *)
}.

Definition has_uc (c : string) : bool := String.eqb c "Generator" || String.eqb c "Link".
Definition com (a : asset) : bool := committable a && has_uc (cls a).
Definition on (a : asset) : nat -> bool := fun _ => flag a.    (* get_activity_mask without investment periods *)
Definition passive (a : asset) : bool := String.eqb (cls a) "Line" || String.eqb (cls a) "Transformer".
Definition fill1 (o : option Q) : Q := match o with Some q => q | None => 1 end.

(* the columns each part reads *)
Definition d_view (attr : string) (a : asset) : DispatchModel.asset :=
  {| DispatchModel.name := nm a; DispatchModel.nom := nom a; DispatchModel.nom_min := nom_min a; DispatchModel.nom_max := nom_max a;
     DispatchModel.nom_set := nom_set a; DispatchModel.nom_mod := nom_mod a; DispatchModel.ext := ext a; DispatchModel.com := com a;
     DispatchModel.active := on a; DispatchModel.min_pu := min_pu a; DispatchModel.max_pu := max_pu a;
     DispatchModel.max_hours := max_hours a; DispatchModel.fix_set := op_set a attr |}.
Definition r_view (a : asset) : RampModel.rasset :=
  {| RampModel.base := d_view "p" a; RampModel.up := up a; RampModel.down := down a; RampModel.up_static := up_static a;
     RampModel.down_static := down_static a; RampModel.start_lim := start_lim a; RampModel.shut_lim := shut_lim a;
     RampModel.p_start := 0; RampModel.status_start := 0 |}.
Definition u_view (a : asset) : CommitModel.unit_ :=
  {| CommitModel.u_name := nm a; CommitModel.u_active := on a; CommitModel.min_up := min_up a; CommitModel.min_down := min_down a;
     CommitModel.up_before := up_before a; CommitModel.down_before := down_before a; CommitModel.hist := [];
     CommitModel.lower_p := fun t => min_pu a t * nom a; CommitModel.upper_p := fun t => max_pu a t * nom a;
     CommitModel.r_up := nom a * fill1 (up_static a); CommitModel.r_down := nom a * fill1 (down_static a);
     CommitModel.r_start := nom a * start_lim a; CommitModel.r_shut := nom a * shut_lim a |}.
Definition c_view (a : asset) : BalanceModel.comp :=
  {| BalanceModel.c_name := nm a; BalanceModel.c_bus := bus0 a; BalanceModel.c_sign := sgn a; BalanceModel.c_active := on a |}.
Definition br_view (a : asset) : BalanceModel.branch :=
  {| BalanceModel.b_name := nm a; BalanceModel.b_bus0 := bus0 a; BalanceModel.b_bus1 := bus1 a; BalanceModel.b_active := on a |}.
Definition l_view (a : asset) : BalanceModel.link :=
  {| BalanceModel.l_name := nm a; BalanceModel.l_bus0 := bus0 a; BalanceModel.l_bus1 := bus1 a; BalanceModel.l_eff1 := eff a;
     BalanceModel.l_ports := ports a; BalanceModel.l_active := on a |}.
Definition s_view (a : asset) : StorageModel.storage :=
  {| StorageModel.s_name := nm a; StorageModel.s_active := on a; StorageModel.s_stand := stand a; StorageModel.s_init := init a;
     StorageModel.s_cyclic := cyclic a; StorageModel.s_cyclic_pp := false; StorageModel.s_init_pp := false |}.
Definition g_view (a : asset) : LimitModel.gen :=
  {| LimitModel.g_name := nm a; LimitModel.g_carrier := carrier a; LimitModel.g_active := on a; LimitModel.g_eff := eff a |}.
Definition st_view (a : asset) : LimitModel.sto := {| LimitModel.st_of := s_view a; LimitModel.st_carrier := carrier a |}.
Definition k_view (a : asset) : CapModel.asset :=
  {| CapModel.k_class := cls a; CapModel.k_name := nm a; CapModel.k_bus := bus0 a; CapModel.k_carrier := carrier a;
     CapModel.k_in := fun _ => flag a; CapModel.k_ext := ext a; CapModel.k_length := len a; CapModel.k_capital := capital a |}.
Definition sup_view (a : asset) : CapModel.supplier :=
  {| CapModel.u_name := nm a; CapModel.u_active := on a; CapModel.u_min := e_min a; CapModel.u_max := e_max a |}.
Definition lo_view (a : asset) : LossModel.branch :=
  {| LossModel.b_name := nm a; LossModel.b_active := on a; LossModel.b_r := r_eff a; LossModel.b_max_pu := max_pu a;
     LossModel.b_ext := ext a; LossModel.b_nom := Some (nom a); LossModel.b_nom_max := nom_max a |}.
Definition o_view (a : asset) : ObjectiveModel.asset :=
  {| ObjectiveModel.a_class := cls a; ObjectiveModel.a_name := nm a; ObjectiveModel.a_flag := flag a;
     ObjectiveModel.a_in := fun _ => flag a; ObjectiveModel.a_on := on a; ObjectiveModel.a_ext := ext a; ObjectiveModel.a_com := com a;
     ObjectiveModel.a_nom := nom a; ObjectiveModel.a_capital := capital a; ObjectiveModel.a_marginal := marginal a;
     ObjectiveModel.a_storage := storage_cost a; ObjectiveModel.a_spill := spill_cost a; ObjectiveModel.a_quadratic := quadratic a;
     ObjectiveModel.a_standby := standby a; ObjectiveModel.a_start := start_cost a; ObjectiveModel.a_shut := shut_cost a;
     ObjectiveModel.a_inflow := inflow a |}.

(* descriptors.py 215-222 *)
Definition nominal_attrs : list (string * string) :=
  [("Generator", "p_nom"); ("Line", "s_nom"); ("Transformer", "s_nom"); ("Link", "p_nom"); ("Store", "e_nom"); ("StorageUnit", "p_nom")].
(* data/variables.csv: rows that are neither nominal nor handled separately *)
Definition operations : list (string * string * string * DispatchModel.kind) :=
  [("Generator", "p", "p_nom", DispatchModel.Other); ("Line", "s", "s_nom", DispatchModel.Passive);
   ("Transformer", "s", "s_nom", DispatchModel.Passive); ("Link", "p", "p_nom", DispatchModel.Other);
   ("Store", "e", "e_nom", DispatchModel.Other); ("StorageUnit", "p_dispatch", "p_nom", DispatchModel.Storage_dispatch);
   ("StorageUnit", "p_store", "p_nom", DispatchModel.Storage_store);
   ("StorageUnit", "state_of_charge", "p_nom", DispatchModel.Storage_soc)].

Section N.
Variable kvl : list asset -> list con.   (* constraints.py 669-725 for the passive branches given (KvlModel, over another number type) *)
Variable n : net.
Definition of_class (c : string) : list asset := filter (fun a => String.eqb (cls a) c) (assets n).
Definition lossy : bool := negb (Nat.eqb (tangents n) 0).

(* optimize.py 272-275 *)
Definition capacity_of (c nattr : string) : list con :=
  let l := map (d_view "") (of_class c) in
  DispatchModel.nominal c nattr l ++ DispatchModel.fixed_nominal c nattr l ++ DispatchModel.modular c nattr l.
Definition capacity : list con := flat_map (fun ca => capacity_of (fst ca) (snd ca)) nominal_attrs.

(* constraints.py 190-360 for one class; 296-299: the tightening only for equal start-up and shut-down cost *)
Definition tightened (a : asset) : bool := linear n && Qeq_bool (start_cost a) (shut_cost a).
Definition commitment_of (c : string) : list con :=
  flat_map (fun a => CommitModel.commitment c (u_view a) (nsnaps n) false) (filter com (of_class c)) ++
  flat_map (fun a => if tightened a then CommitModel.tighten c (u_view a) (nsnaps n) else []) (filter com (of_class c)).
(* optimize.py 277-286 *)
Definition operation_of (row : string * string * string * DispatchModel.kind) : list con :=
  let '(c, attr, nattr, k) := row in
  let l := map (d_view attr) (of_class c) in
  DispatchModel.non_extendables c attr k lossy (nsnaps n) l ++ DispatchModel.extendables c attr nattr k lossy (nsnaps n) l ++
  DispatchModel.committables c (nsnaps n) l ++ commitment_of c ++
  (if has_uc c then RampModel.ramps c nattr (nsnaps n) false (map r_view (of_class c)) else []) ++
  DispatchModel.fixed_operation c attr (nsnaps n) l.
Definition operation : list con := flat_map operation_of operations.

Definition b_net : BalanceModel.net :=
  {| BalanceModel.buses := buses n; BalanceModel.gens := map c_view (of_class "Generator"); BalanceModel.stores := map c_view (of_class "Store");
     BalanceModel.units := map c_view (of_class "StorageUnit"); BalanceModel.lines := map br_view (of_class "Line");
     BalanceModel.trafos := map br_view (of_class "Transformer"); BalanceModel.links := map l_view (of_class "Link");
     BalanceModel.loads := loads n |}.
(* optimize.py 288-308; the separate treatment of strongly meshed buses is left out: it writes the same rows *)
Definition balances : option (list con) := BalanceModel.balance b_net lossy (buses n) (nsnaps n).

(* constraints.py 815-900, 903-975 *)
Definition unit_data (a : asset) : StorageModel.unit_data :=
  {| StorageModel.eh := w_sto n; StorageModel.eff_dispatch := eff_dispatch a; StorageModel.eff_store := eff_store a; StorageModel.inflow := inflow a |}.
Definition storage_units : list con := flat_map (fun a => StorageModel.unit_balance (nsnaps n) None (s_view a) (unit_data a)) (of_class "StorageUnit").
Definition stores : list con := flat_map (fun a => StorageModel.store_balance (nsnaps n) None (s_view a) (w_sto n)) (of_class "Store").
(* constraints.py 1033-1094 *)
Definition supplies : list con := CapModel.total_supply (w_gen n) (seq 0 (nsnaps n)) (map sup_view (of_class "Generator")).
(* optimize.py 315-317 *)
Definition losses (c : string) : option (list con) :=
  if lossy then LossModel.loss_constraints c (tangents n) (nsnaps n) (map lo_view (of_class c)) else Some [].

Definition lim_net (attr : string) : LimitModel.net :=
  {| LimitModel.gens := map g_view (of_class "Generator"); LimitModel.units := map st_view (of_class "StorageUnit");
     LimitModel.stores := map st_view (of_class "Store"); LimitModel.carriers := emission n attr; LimitModel.weight := w_gen n;
     LimitModel.nsnaps := nsnaps n; LimitModel.period := None |}.
Definition k_net : CapModel.net :=
  {| CapModel.assets := map k_view (assets n); CapModel.has_carrier := fun c => negb (String.eqb c "Transformer");
     CapModel.inv_periods := []; CapModel.sns_periods := []; CapModel.weight_of := fun _ => 1; CapModel.multi := false; CapModel.invest := false |}.
Definition rows_of (o : option con) : option (list con) := Some (match o with Some c => [c] | None => [] end).
Definition rows (o : CapModel.outcome) : option (list con) :=
  match o with CapModel.Written c => Some [c] | CapModel.Skipped => Some [] | CapModel.Raised => None end.
(* optimize.py 320-324; technology limits without investment period are skipped (CapModel.tech_limit) *)
Definition limit_rows (l : limit) : option (list con) :=
  match l with
  | Primary attr s q => rows_of (LimitModel.primary_energy (lim_net attr)
      {| LimitModel.constant := q; LimitModel.sense_of := s; LimitModel.inv_period := None; LimitModel.carrier_attr := attr |})
  | Operational c s q => rows_of (LimitModel.operational_limit (lim_net c)
      {| LimitModel.constant := q; LimitModel.sense_of := s; LimitModel.inv_period := None; LimitModel.carrier_attr := c |})
  | Volume cs s q => rows (CapModel.volume_limit k_net {| CapModel.t_carriers := cs; CapModel.t_sense := s; CapModel.t_period := None; CapModel.t_const := q |})
  | Cost cs s q => rows (CapModel.cost_limit k_net {| CapModel.t_carriers := cs; CapModel.t_sense := s; CapModel.t_period := None; CapModel.t_const := q |})
  end.
(* global_constraints.py 95-175 *)
Definition column_rows (col : CapModel.column) : option (list con) :=
  CapModel.bus_column k_net (carriers n) false (fun _ => None) (buses n) col.

(* the first exception ends create_model *)
Fixpoint collect (l : list (option (list con))) : option (list con) :=
  match l with
  | [] => Some []
  | None :: _ => None
  | Some cs :: r => option_map (app cs) (collect r)
  end.
Definition parts : list (option (list con)) :=
  [Some capacity; Some operation; balances; Some (kvl (filter passive (assets n))); Some storage_units; Some stores; Some supplies;
   losses "Line"; losses "Transformer"] ++ map limit_rows (limits n) ++ map column_rows (columns n).
(* the rows of n.model.constraints; None is an exception *)
Definition create_model : option (list con) := collect parts.

Definition o_net : ObjectiveModel.net :=
  {| ObjectiveModel.assets := map o_view (assets n); ObjectiveModel.nsnaps := nsnaps n; ObjectiveModel.w_snap := w_obj n;
     ObjectiveModel.per := fun _ => 0%Z; ObjectiveModel.multi := None |}.
Definition define_objective : option (list ObjectiveModel.piece) := ObjectiveModel.objective o_net.

(* bounds and integrality of the variables: variables.py 43-86, 126, 128-143, 157; optimize.py 117-119 *)
Definition domains (x : sol) : Prop :=
  (forall a, In a (assets n) -> ext a = true -> Qle_bool (nom_mod a) 0 = false ->
     exists z : nat, x ((cls a ++ "-n_mod")%string, O, nm a) == inject_Z (Z.of_nat z)) /\
  (forall a, In a (assets n) -> com a = true ->
     if linear n then CommitModel.relaxed (cls a) (u_view a) (nsnaps n) x else CommitModel.binary (cls a) (u_view a) (nsnaps n) x) /\
  (forall a, In a (assets n) -> cls a = "StorageUnit" -> StorageModel.spill_bounds (nsnaps n) (s_view a) (unit_data a) x) /\
  (forall a t, In a (assets n) -> passive a = true -> lossy = true -> (t < nsnaps n)%nat -> flag a = true -> 0 <= x ((cls a ++ "-loss")%string, t, nm a)) /\
  ObjectiveModel.const_fixed o_net x.

(* a solution the solver may return, and its objective value *)
Definition feasible (x : sol) : Prop :=
  exists cs, create_model = Some cs /\ sat x (CapModel.problem cs) /\ domains x.
Definition cost (x : sol) : option Q := option_map (ObjectiveModel.value_of x) define_objective.
End N.

(* n.remove of every component with active = False *)
Definition removed (n : net) : net :=
  {| assets := filter flag (assets n); loads := filter BalanceModel.d_active (loads n); buses := buses n; nsnaps := nsnaps n;
     w_obj := w_obj n; w_gen := w_gen n; w_sto := w_sto n; tangents := tangents n; linear := linear n; emission := emission n;
     carriers := carriers n; limits := limits n; columns := columns n |}.
