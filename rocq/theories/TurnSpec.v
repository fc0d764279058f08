From Coq Require Import List String Bool QArith.
From Verif Require Import LinModel CyclesModel WholeModel.
From Verif Require CapModel.
Import ListNotations.
Open Scope string_scope.
Open Scope list_scope.
Open Scope Q_scope.

(* Which lines and transformers (class, name) are entered the other way round. *)
Definition choice : Type := string -> string -> bool.

(* bus0 and bus1 exchanged, a prescribed flow (s_set) with the other sign, all other columns as they are *)
Definition reverse (a : asset) : asset :=
  {| cls := cls a; nm := nm a; bus0 := bus1 a; bus1 := bus0 a; sgn := sgn a;
     ports := ports a; carrier := carrier a; flag := flag a; ext := ext a; committable := committable a;
     nom := nom a; nom_min := nom_min a; nom_max := nom_max a; nom_set := nom_set a; nom_mod := nom_mod a;
     min_pu := min_pu a; max_pu := max_pu a; max_hours := max_hours a;
     op_set := fun attr t => if String.eqb attr "s" then option_map Qopp (op_set a attr t) else op_set a attr t;
     up := up a; down := down a; up_static := up_static a; down_static := down_static a; start_lim := start_lim a; shut_lim := shut_lim a;
     min_up := min_up a; min_down := min_down a; up_before := up_before a; down_before := down_before a;
     eff := eff a; stand := stand a; init := init a; cyclic := cyclic a;
     eff_dispatch := eff_dispatch a; eff_store := eff_store a; inflow := inflow a;
     capital := capital a; marginal := marginal a; storage_cost := storage_cost a; spill_cost := spill_cost a; quadratic := quadratic a; standby := standby a;
     start_cost := start_cost a; shut_cost := shut_cost a; len := len a; e_min := e_min a; e_max := e_max a; r_eff := r_eff a |}.
Definition turn (d : choice) (a : asset) : asset := if passive a && d (cls a) (nm a) then reverse a else a.
Definition turned (d : choice) (n : net) : net :=
  {| assets := map (turn d) (assets n); loads := loads n; buses := buses n; nsnaps := nsnaps n;
     w_obj := w_obj n; w_gen := w_gen n; w_sto := w_sto n; tangents := tangents n; linear := linear n; emission := emission n;
     carriers := carriers n; limits := limits n; columns := columns n |}.

(* the flows of those branches with the other sign *)
Definition against (d : choice) (x : sol) : sol :=
  fun v => match v with (s, _, i) =>
    if (String.eqb s "Line-s" && d "Line" i) || (String.eqb s "Transformer-s" && d "Transformer" i) then - x v else x v end.

(* Kirchhoff's voltage law of these branches follows them *)
Definition kvl_follows (d : choice) (kvl : list asset -> list con) (l : list asset) : Prop :=
  forall x, sat x (CapModel.problem (kvl (map (turn d) l))) <-> sat (against d x) (CapModel.problem (kvl l)).

(* the same graph: each pair of branches joins the same two buses *)
Definition same_edge (a b : gbranch) : Prop := gfin a = gfin b /\ ((g0 a = g0 b /\ g1 a = g1 b) \/ (g0 a = g1 b /\ g1 a = g0 b)).
(* nx.cycle_basis looks at the neighbours of a bus only *)
Definition undirected (basis : list gbranch -> list (list nat)) : Prop := forall B B', Forall2 same_edge B B' -> basis B = basis B'.
