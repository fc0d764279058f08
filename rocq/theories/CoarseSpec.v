From Coq Require Import List String Bool QArith Arith.
From Verif Require Import LinModel CoarseModel.
From Verif Require BalanceSpec.
Import ListNotations.
Open Scope string_scope.
Open Scope list_scope.
Open Scope Q_scope.
Notation total := BalanceSpec.total.

(* every component is connected to buses of the system, listed once *)
Definition wired (n : system) : Prop :=
  NoDup (s_buses n) /\ (forall d, In d (s_gens n) \/ In d (s_loads n) -> In (d_bus d) (s_buses n)) /\
  forall w, In w (s_lines n) \/ In w (s_links n) -> In (w_bus0 w) (s_buses n) /\ In (w_bus1 w) (s_buses n).

Definition eqo (o : option string) (c : string) : bool := match o with Some b => String.eqb b c | None => false end.
Section S.
Variable m : string -> option string.   (* cluster of a bus *)
Variable x : sol.
Variable t : nat.
Definition gen_x (d : dev) : Q := x ("Generator-p", t, d_name d).
Definition line_x (w : wire) : Q := x ("Line-s", t, w_name w).
Definition link_x (w : wire) : Q := x ("Link-p", t, w_name w).
(* production in cluster c by carrier k, flow over lines from a to b *)
Definition production (c k : string) (n : system) : Q := total (fun d => if eqo (m (d_bus d)) c && String.eqb (d_carrier d) k then gen_x d else 0) (s_gens n).
Definition transfer (a b : string) (n : system) : Q :=
  total (fun w => (if eqo (m (w_bus0 w)) a && eqo (m (w_bus1 w)) b then line_x w else 0) - (if eqo (m (w_bus0 w)) b && eqo (m (w_bus1 w)) a then line_x w else 0)) (s_lines n).
Definition gen_cost (n : system) : Q := total (fun d => d_at d "marginal_cost" t * gen_x d) (s_gens n).
Definition link_cost (n : system) : Q := total (fun w => w_at w "marginal_cost" t * link_x w) (s_links n).
End S.
(* operating costs, weights wt of the snapshots *)
Definition cost (wt : nat -> Q) (T : nat) (x : sol) (n : system) : Q := total (fun t => wt t * (gen_cost x t n + link_cost x t n)) (seq 0 T).

(* generators that may become one *)
Definition together (busmap : string -> option string) (d d' : dev) : Prop := busmap (d_bus d) = busmap (d_bus d') /\ d_carrier d = d_carrier d'.
Definition inside (busmap : string -> option string) (w : wire) : Prop := busmap (w_bus0 w) = busmap (w_bus1 w).

(* voltage law: some angles explain the flows over the lines *)
Definition explained (x : sol) (t : nat) (n : system) : Prop :=
  exists th : string -> Q, forall w, In w (s_lines n) -> w_static w "x" * x ("Line-s", t, w_name w) == th (w_bus0 w) - th (w_bus1 w).
