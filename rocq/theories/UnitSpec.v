From Coq Require Import List String Bool QArith ZArith Arith.
From Verif Require Import LinModel WholeModel IdleSpec.
From Verif Require CapModel BalanceModel.
Import ListNotations.
Open Scope string_scope.
Open Scope list_scope.
Open Scope Q_scope.

(* The same network in other units: powers and energies (MW, MWh) in numbers k times as large, money in numbers m times as
   large. Per-unit data, efficiencies, hours, shares and the number of snapshots stay. *)
Definition times_opt (k : Q) (o : option Q) : option Q := option_map (Qmult k) o.
Definition scaled (k m : Q) (a : asset) : asset :=
  {| cls := cls a; nm := nm a; bus0 := bus0 a; bus1 := bus1 a; sgn := sgn a; ports := ports a; carrier := carrier a;
     flag := flag a; ext := ext a; committable := committable a;
     nom := k * nom a; nom_min := k * nom_min a; nom_max := times_opt k (nom_max a); nom_set := times_opt k (nom_set a); nom_mod := k * nom_mod a;
     min_pu := min_pu a; max_pu := max_pu a; max_hours := max_hours a;
     op_set := fun s t => times_opt k (op_set a s t);
     up := up a; down := down a; up_static := up_static a; down_static := down_static a; start_lim := start_lim a; shut_lim := shut_lim a;
     min_up := min_up a; min_down := min_down a; up_before := up_before a; down_before := down_before a; eff := eff a; stand := stand a;
     init := k * init a; cyclic := cyclic a; eff_dispatch := eff_dispatch a; eff_store := eff_store a; inflow := fun t => k * inflow a t;
     capital := m / k * capital a; marginal := fun t => m / k * marginal a t; storage_cost := fun t => m / k * storage_cost a t;
     spill_cost := fun t => m / k * spill_cost a t; quadratic := fun t => m / (k * k) * quadratic a t; standby := fun t => m * standby a t;
     start_cost := m * start_cost a; shut_cost := m * shut_cost a;
     len := len a; e_min := times_opt k (e_min a); e_max := times_opt k (e_max a); r_eff := / k * r_eff a |}.
Definition scaled_load (k : Q) (d : BalanceModel.load) : BalanceModel.load :=
  {| BalanceModel.d_bus := BalanceModel.d_bus d; BalanceModel.d_sign := BalanceModel.d_sign d;
     BalanceModel.d_p := fun t => k * BalanceModel.d_p d t; BalanceModel.d_active := BalanceModel.d_active d |}.
(* emissions per unit of energy; volumes in units of power times length *)
Definition scaled_limit (k m : Q) (l : limit) : limit :=
  match l with
  | Primary attr s q => Primary attr s q
  | Operational c s q => Operational c s (k * q)
  | Volume cs s q => Volume cs s (k * q)
  | Cost cs s q => Cost cs s (m * q)
  end.
Definition scaled_column (k : Q) (c : CapModel.column) : CapModel.column :=
  {| CapModel.col_name := CapModel.col_name c; CapModel.col_val := fun b => times_opt k (CapModel.col_val c b) |}.
Definition scaled_net (k m : Q) (n : net) : net :=
  {| assets := map (scaled k m) (assets n); loads := map (scaled_load k) (loads n); buses := buses n; nsnaps := nsnaps n;
     w_obj := w_obj n; w_gen := w_gen n; w_sto := w_sto n; tangents := tangents n; linear := linear n;
     emission := fun attr => map (fun e => (fst e, / k * snd e)) (emission n attr);
     carriers := carriers n; limits := map (scaled_limit k m) (limits n); columns := map (scaled_column k) (columns n) |}.

(* the same solution in the other units: numbers of modules and states of units are numbers without a unit *)
Definition plain : list string := ["n_mod"; "status"; "start_up"; "shut_down"].
Definition unitless (s : string) : bool := existsb (fun c => existsb (fun a => String.eqb s (c ++ "-" ++ a)) plain) classes.
Definition unit_of (k m : Q) (s : string) : Q := if unitless s then 1 else if String.eqb s "objective_constant" then m else k.
Definition rescale (k m : Q) (x : sol) : sol := fun v => unit_of k m (fst (fst v)) * x v.
(* Kirchhoff's voltage law is homogeneous in the flows and reads no powers (C18) *)
Definition kvl_homogeneous (k m : Q) (kvl : list asset -> list con) : Prop :=
  forall l x, sat x (CapModel.problem (kvl l)) <-> sat (rescale k m x) (CapModel.problem (kvl (map (scaled k m) l))).
Definition known_classes (n : net) : Prop := forall a, In a (assets n) -> In (cls a) classes.
(* such rows: flows on branches only, no constant, coefficients all in another unit at most (per-unit impedances) *)
Definition flow_array (s : string) : Prop := s = "Line-s" \/ s = "Transformer-s".
Definition cycle_row (c c' : con) : Prop :=
  sns c = Eq /\ sns c' = Eq /\ rhs c == 0 /\ rhs c' == 0 /\
  exists g, 0 < g /\ Forall2 (fun e e' : Q * label => snd e' = snd e /\ fst e' == g * fst e /\ forall v, snd e = Some v -> flow_array (fst (fst v))) (lhs c) (lhs c').
Definition cycle_rows (k m : Q) (kvl : list asset -> list con) : Prop :=
  forall l, Forall2 cycle_row (kvl l) (kvl (map (scaled k m) l)).
