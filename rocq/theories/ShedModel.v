From Coq Require Import List String Bool QArith ZArith Arith.
From Verif Require Import LinModel.
From Verif Require BalanceModel DispatchModel ObjectiveModel.
Import ListNotations.
Open Scope string_scope.
Open Scope list_scope.
Open Scope Q_scope.

(* Load shedding: pypsa/optimization/optimize.py 749-791.
   The network is seen as in the models of the nodal balance, of the limits of the generators and of the objective; besides
   the index of n.carriers and the column carrier of n.generators. *)
Record frame := {
  bal : BalanceModel.net;
  dis : list DispatchModel.asset;                (* generators *)
  obj : ObjectiveModel.net;
  carriers : list string;
  gcarriers : list (string * string)             (* generator, carrier *)
}.

(* arguments of add_load_shedding; numbers are given for every bus, as a scalar or a series indexed by the buses *)
Record plan := { s_suffix : string; s_buses : list string; s_sign : string -> Q; s_cost : string -> Q; s_nom : string -> Q }.
(* 749-756: the defaults, buses=None 779-780 *)
Definition default_plan (n : BalanceModel.net) : plan :=
  {| s_suffix := " load shedding"; s_buses := BalanceModel.buses n; s_sign := fun _ => 1 # 1000; s_cost := fun _ => 100; s_nom := fun _ => 1000000000 |}.

(* networks.py 1229-1232: names = name.astype(str) + suffix *)
Definition gname (p : plan) (b : string) : string := (b ++ s_suffix p)%string.

(* 782-791 with the defaults of data/component_attrs/generators.csv for what is not given: active, build year 0 and infinite lifetime,
   p_min_pu 0, p_max_pu 1, not extendable, not committable *)
Definition comp_of (p : plan) (b : string) : BalanceModel.comp :=
  {| BalanceModel.c_name := gname p b; BalanceModel.c_bus := b; BalanceModel.c_sign := s_sign p b; BalanceModel.c_active := fun _ => true |}.
Definition limits_of (p : plan) (b : string) : DispatchModel.asset :=
  {| DispatchModel.name := gname p b; DispatchModel.nom := s_nom p b; DispatchModel.nom_min := 0; DispatchModel.nom_max := None; DispatchModel.nom_set := None;
     DispatchModel.nom_mod := 0; DispatchModel.ext := false; DispatchModel.com := false; DispatchModel.active := fun _ => true;
     DispatchModel.min_pu := fun _ => 0; DispatchModel.max_pu := fun _ => 1; DispatchModel.max_hours := 0; DispatchModel.fix_set := fun _ => None |}.
Definition cost_of (p : plan) (b : string) : ObjectiveModel.asset :=
  {| ObjectiveModel.a_class := "Generator"; ObjectiveModel.a_name := gname p b; ObjectiveModel.a_flag := true; ObjectiveModel.a_in := fun _ => true;
     ObjectiveModel.a_on := fun _ => true; ObjectiveModel.a_ext := false; ObjectiveModel.a_com := false; ObjectiveModel.a_nom := s_nom p b; ObjectiveModel.a_capital := 0;
     ObjectiveModel.a_marginal := fun _ => s_cost p b; ObjectiveModel.a_storage := fun _ => 0; ObjectiveModel.a_spill := fun _ => 0;
     ObjectiveModel.a_quadratic := fun _ => 0; ObjectiveModel.a_standby := fun _ => 0; ObjectiveModel.a_start := 0; ObjectiveModel.a_shut := 0;
     ObjectiveModel.a_inflow := fun _ => 0 |}.

Definition known_name (l : list string) (s : string) : bool := existsb (String.eqb s) l.
(* networks.py 1239-1242: names must be unique *)
Fixpoint unique (l : list string) : bool := match l with [] => true | s :: r => negb (known_name r s) && unique r end.

(* the rows that are new: io.py _import_components_from_df skips names in use (overwrite=False), as in TablesModel *)
Definition fresh_buses (p : plan) (F : frame) : list string :=
  filter (fun b => negb (known_name (map BalanceModel.c_name (BalanceModel.gens (bal F))) (gname p b))) (s_buses p).

(* None: ValueError; the second component is the returned index *)
Definition add_load_shedding (p : plan) (F : frame) : option (frame * list string) :=
  let new := fresh_buses p F in
  let n := bal F in
  let o := obj F in
  if unique (map (gname p) (s_buses p)) then
    Some ({| bal := {| BalanceModel.buses := BalanceModel.buses n; BalanceModel.gens := BalanceModel.gens n ++ map (comp_of p) new;
                       BalanceModel.stores := BalanceModel.stores n; BalanceModel.units := BalanceModel.units n; BalanceModel.lines := BalanceModel.lines n;
                       BalanceModel.trafos := BalanceModel.trafos n; BalanceModel.links := BalanceModel.links n; BalanceModel.loads := BalanceModel.loads n |};
             dis := dis F ++ map (limits_of p) new;
             obj := {| ObjectiveModel.assets := ObjectiveModel.assets o ++ map (cost_of p) new; ObjectiveModel.nsnaps := ObjectiveModel.nsnaps o;
                       ObjectiveModel.w_snap := ObjectiveModel.w_snap o; ObjectiveModel.per := ObjectiveModel.per o; ObjectiveModel.multi := ObjectiveModel.multi o |};
             carriers := if known_name (carriers F) "Load" then carriers F else carriers F ++ ["Load"];   (* 777-778 *)
             gcarriers := gcarriers F ++ map (fun b => (gname p b, "load")) new |},
          map (gname p) (s_buses p))
  else None.
