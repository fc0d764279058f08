From Coq Require Import List String Ascii Bool QArith.
From Verif Require Import LinModel WholeModel.
From Verif Require CapModel BalanceModel.
Import ListNotations.
Open Scope string_scope.
Open Scope list_scope.
Open Scope Q_scope.

(* New names: for the components of each class and for the buses, with the way back. *)
Record naming := { to : string -> string -> string; from : string -> string -> string; bto : string -> string; bfrom : string -> string }.
(* no two names become one; "" means no bus and stays *)
Definition proper (r : naming) : Prop :=
  (forall c s, from r c (to r c s) = s) /\ (forall c s, to r c (from r c s) = s) /\
  (forall b, bfrom r (bto r b) = b) /\ (forall b, bto r (bfrom r b) = b) /\ bto r "" = "".

(* the network with the new names everywhere *)
Definition ren (r : naming) (a : asset) : asset :=
  {| cls := cls a; nm := to r (cls a) (nm a); bus0 := bto r (bus0 a); bus1 := bto r (bus1 a); sgn := sgn a;
     ports := map (fun p => (bto r (fst p), snd p)) (ports a); carrier := carrier a; flag := flag a; ext := ext a; committable := committable a;
     nom := nom a; nom_min := nom_min a; nom_max := nom_max a; nom_set := nom_set a; nom_mod := nom_mod a;
     min_pu := min_pu a; max_pu := max_pu a; max_hours := max_hours a; op_set := op_set a;
     up := up a; down := down a; up_static := up_static a; down_static := down_static a; start_lim := start_lim a; shut_lim := shut_lim a;
     min_up := min_up a; min_down := min_down a; up_before := up_before a; down_before := down_before a;
     eff := eff a; stand := stand a; init := init a; cyclic := cyclic a;
     eff_dispatch := eff_dispatch a; eff_store := eff_store a; inflow := inflow a;
     capital := capital a; marginal := marginal a; storage_cost := storage_cost a; spill_cost := spill_cost a; quadratic := quadratic a; standby := standby a;
     start_cost := start_cost a; shut_cost := shut_cost a; len := len a; e_min := e_min a; e_max := e_max a; r_eff := r_eff a |}.
Definition ren_load (r : naming) (d : BalanceModel.load) : BalanceModel.load :=
  {| BalanceModel.d_bus := bto r (BalanceModel.d_bus d); BalanceModel.d_sign := BalanceModel.d_sign d; BalanceModel.d_p := BalanceModel.d_p d;
     BalanceModel.d_active := BalanceModel.d_active d |}.
Definition ren_column (r : naming) (c : CapModel.column) : CapModel.column :=
  {| CapModel.col_name := CapModel.col_name c; CapModel.col_val := fun b => CapModel.col_val c (bfrom r b) |}.
Definition renamed (r : naming) (n : net) : net :=
  {| assets := map (ren r) (assets n); loads := map (ren_load r) (loads n); buses := map (bto r) (buses n); nsnaps := nsnaps n;
     w_obj := w_obj n; w_gen := w_gen n; w_sto := w_sto n; tangents := tangents n; linear := linear n; emission := emission n;
     carriers := carriers n; limits := limits n; columns := map (ren_column r) (columns n) |}.

(* the variable of a component under its new name: the class is what comes before the dash *)
Fixpoint class_of (v : string) : option string :=
  match v with
  | EmptyString => None
  | String c r => if Ascii.eqb c "-" then Some EmptyString else option_map (String c) (class_of r)
  end.
Definition var_to (r : naming) (v : var) : var :=
  match v with (s, t, a) => match class_of s with Some c => (s, t, to r c a) | None => v end end.
(* a solution of the renamed network, read under the old names *)
Definition old_names (r : naming) (x : sol) : sol := fun v => x (var_to r v).

(* Kirchhoff's voltage law does not look at names *)
Definition kvl_nameless (r : naming) (kvl : list asset -> list con) : Prop :=
  forall l x, (forall a, In a l -> passive a = true) ->
    (sat x (CapModel.problem (kvl (map (ren r) l))) <-> sat (old_names r x) (CapModel.problem (kvl l))).
