From Coq Require Import List String Bool QArith ZArith Arith.
From Verif Require Import LinModel WholeModel.
From Verif Require CapModel BalanceModel.
Import ListNotations.
Open Scope string_scope.
Open Scope list_scope.
Open Scope Q_scope.

(* A network n and the same network over T snapshots, where snapshot t has the data of snapshot rep t of n *)
Definition again {A} (rep : nat -> nat) (f : nat -> A) : nat -> A := fun t => f (rep t).
Definition stretch (rep : nat -> nat) (a : asset) : asset :=
  {| cls := cls a; nm := nm a; bus0 := bus0 a; bus1 := bus1 a; sgn := sgn a; ports := map (fun pe => (fst pe, again rep (snd pe))) (ports a);
     carrier := carrier a; flag := flag a; ext := ext a; committable := committable a;
     nom := nom a; nom_min := nom_min a; nom_max := nom_max a; nom_set := nom_set a; nom_mod := nom_mod a;
     min_pu := again rep (min_pu a); max_pu := again rep (max_pu a); max_hours := max_hours a; op_set := fun s => again rep (op_set a s);
     up := again rep (up a); down := again rep (down a); up_static := up_static a; down_static := down_static a; start_lim := start_lim a; shut_lim := shut_lim a;
     min_up := min_up a; min_down := min_down a; up_before := up_before a; down_before := down_before a; eff := again rep (eff a); stand := again rep (stand a);
     init := init a; cyclic := cyclic a; eff_dispatch := again rep (eff_dispatch a); eff_store := again rep (eff_store a); inflow := again rep (inflow a);
     capital := capital a; marginal := again rep (marginal a); storage_cost := again rep (storage_cost a); spill_cost := again rep (spill_cost a);
     quadratic := again rep (quadratic a); standby := again rep (standby a); start_cost := start_cost a; shut_cost := shut_cost a;
     len := len a; e_min := e_min a; e_max := e_max a; r_eff := r_eff a |}.
Definition stretch_load (rep : nat -> nat) (d : BalanceModel.load) : BalanceModel.load :=
  {| BalanceModel.d_bus := BalanceModel.d_bus d; BalanceModel.d_sign := BalanceModel.d_sign d;
     BalanceModel.d_p := again rep (BalanceModel.d_p d); BalanceModel.d_active := BalanceModel.d_active d |}.
Definition stretched (rep : nat -> nat) (T : nat) (wo wg ws : nat -> Q) (n : net) : net :=
  {| assets := map (stretch rep) (assets n); loads := map (stretch_load rep) (loads n); buses := buses n; nsnaps := T; w_obj := wo; w_gen := wg; w_sto := ws;
     tangents := tangents n; linear := linear n; emission := emission n; carriers := carriers n; limits := limits n; columns := columns n |}.

(* every snapshot of n stands for a group whose weights add up to its own *)
Definition sum (f : nat -> Q) (ts : list nat) : Q := fold_right (fun t q => f t + q) 0 ts.
Definition group (rep : nat -> nat) (T s : nat) : list nat := filter (fun t => Nat.eqb (rep t) s) (seq 0 T).
Record groups (rep : nat -> nat) (T : nat) (wo wg : nat -> Q) (n : net) : Prop := {
  gr_in : forall t, (t < T)%nat -> (rep t < nsnaps n)%nat;
  gr_onto : forall s, (s < nsnaps n)%nat -> exists t, (t < T)%nat /\ rep t = s;
  gr_pos : forall t, (t < T)%nat -> 0 < wo t;
  gr_obj : forall s, (s < nsnaps n)%nat -> w_obj n s == sum wo (group rep T s);
  gr_gen : forall s, (s < nsnaps n)%nat -> w_gen n s == sum wg (group rep T s);
  gr_prop : forall t, (t < T)%nat -> wg t * w_obj n (rep t) == wo t * w_gen n (rep t)   (* both weightings in the same proportions *)
}.
(* nothing connects one snapshot to another *)
Record decoupled (n : net) : Prop := {
  dc_classes : forall a, In a (assets n) -> In (cls a) ["Generator"; "Line"; "Transformer"; "Link"];
  dc_uc : forall a, In a (assets n) -> committable a = false;
  dc_ramps : forall a t, In a (assets n) -> up a t = None /\ down a t = None
}.

(* arrays with snapshots *)
Definition timed (s : string) : bool := existsb (String.eqb s) ["Generator-p"; "Link-p"; "Line-s"; "Transformer-s"; "Line-loss"; "Transformer-loss"].
(* the operation of every snapshot repeated over its group; the operation of a group averaged *)
Definition repeated (rep : nat -> nat) (y : sol) : sol := fun v => let '(s, t, i) := v in y (s, (if timed s then rep t else t), i).
Definition averaged (rep : nat -> nat) (T : nat) (wo : nat -> Q) (x : sol) : sol :=
  fun v => let '(a, s, i) := v in
    if timed a then sum (fun t => wo t * x (a, t, i)) (group rep T s) / sum wo (group rep T s) else x v.

(* Kirchhoff's voltage law: the same cycles in every snapshot (C17, C18), found without reading time series *)
Definition kirchhoff (cycles : list asset -> list (list (Q * (string * string)))) (T : nat) (l : list asset) : list con :=
  flat_map (fun t => map (fun cy => {| lhs := map (fun e : Q * (string * string) => (fst e, Some (fst (snd e), t, snd (snd e)))) cy; sns := Eq; rhs := 0 |}) (cycles l)) (seq 0 T).
Definition cycles_ok (rep : nat -> nat) (cycles : list asset -> list (list (Q * (string * string)))) : Prop :=
  forall l, cycles (map (stretch rep) l) = cycles l /\
            forall cy e, In cy (cycles l) -> In e cy -> fst (snd e) = "Line-s" \/ fst (snd e) = "Transformer-s".
Definition convex (n : net) : Prop := forall a t, In a (assets n) -> 0 <= quadratic a t.
