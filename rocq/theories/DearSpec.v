From Coq Require Import List String Bool QArith Arith.
From Verif Require Import LinModel WholeModel.
From Verif Require BalanceSpec ObjectiveSpec.
Import ListNotations.
Open Scope string_scope.
Open Scope list_scope.
Open Scope Q_scope.

(* other marginal costs; lines and transformers have none *)
Definition reprice (m : asset -> nat -> Q) (a : asset) : asset :=
  if passive a then a else
  {| cls := cls a; nm := nm a; bus0 := bus0 a; bus1 := bus1 a; sgn := sgn a; ports := ports a; carrier := carrier a; flag := flag a; ext := ext a; committable := committable a;
     nom := nom a; nom_min := nom_min a; nom_max := nom_max a; nom_set := nom_set a; nom_mod := nom_mod a; min_pu := min_pu a; max_pu := max_pu a; max_hours := max_hours a;
     op_set := op_set a; up := up a; down := down a; up_static := up_static a; down_static := down_static a; start_lim := start_lim a; shut_lim := shut_lim a;
     min_up := min_up a; min_down := min_down a; up_before := up_before a; down_before := down_before a; eff := eff a; stand := stand a; init := init a; cyclic := cyclic a;
     eff_dispatch := eff_dispatch a; eff_store := eff_store a; inflow := inflow a; capital := capital a; marginal := m a; storage_cost := storage_cost a;
     spill_cost := spill_cost a; quadratic := quadratic a; standby := standby a; start_cost := start_cost a; shut_cost := shut_cost a; len := len a; e_min := e_min a; e_max := e_max a; r_eff := r_eff a |}.
Definition repriced (m : asset -> nat -> Q) (n : net) : net :=
  {| assets := map (reprice m) (assets n); loads := loads n; buses := buses n; nsnaps := nsnaps n;
     w_obj := w_obj n; w_gen := w_gen n; w_sto := w_sto n; tangents := tangents n; linear := linear n; emission := emission n;
     carriers := carriers n; limits := limits n; columns := columns n |}.
(* what an asset puts out: p, for storage units p_dispatch; 0 if it is out of operation *)
Definition output (x : sol) (a : asset) (t : nat) : Q :=
  if flag a then
    if String.eqb (cls a) "StorageUnit" then x ("StorageUnit-p_dispatch", t, nm a)
    else if String.eqb (cls a) "Generator" then x ("Generator-p", t, nm a) else if String.eqb (cls a) "Link" then x ("Link-p", t, nm a)
    else if String.eqb (cls a) "Store" then x ("Store-p", t, nm a) else 0
  else 0.
(* what the solution x costs more than before *)
Definition extra (m : asset -> nat -> Q) (n : net) (x : sol) : Q :=
  BalanceSpec.total (fun t => w_obj n t * BalanceSpec.total (fun a => (m a t - marginal a t) * output x a t) (assets n)) (seq 0 (nsnaps n)).
(* costs of one asset raised by d *)
Definition raised (c i : string) (d : nat -> Q) (a : asset) (t : nat) : Q :=
  if String.eqb (cls a) c && String.eqb (nm a) i then marginal a t + d t else marginal a t.
(* a mixture of two lists of costs *)
Definition blend (s : Q) (m m' : asset -> nat -> Q) (a : asset) (t : nat) : Q := s * m a t + (1 - s) * m' a t.
