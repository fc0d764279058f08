From Coq Require Import List String Bool QArith Arith.
From Verif Require Import LinModel BalanceModel.
Import ListNotations.
Open Scope string_scope.
Open Scope Q_scope.

Definition total {A} (f : A -> Q) (l : list A) : Q := fold_right (fun a s => f a + s) 0 l.

(* value of a component's variable, 0 while inactive *)
Definition value (x : sol) (active : nat -> bool) (v nm : string) (t : nat) : Q :=
  if active t then x (v, t, nm) else 0.

Section S.
Variable n : net.
Variable losses : bool.
Variable x : sol.
Variable t : nat.

(* power fed in by generators, stores and storage units *)
Definition gen_p (c : comp) : Q := c_sign c * value x (c_active c) "Generator-p" (c_name c) t.
Definition store_p (c : comp) : Q := c_sign c * value x (c_active c) "Store-p" (c_name c) t.
Definition unit_p (c : comp) : Q :=
  c_sign c * (value x (c_active c) "StorageUnit-p_dispatch" (c_name c) t - value x (c_active c) "StorageUnit-p_store" (c_name c) t).
Definition flow (v : string) (b : branch) : Q := value x (b_active b) v (b_name b) t.
Definition link_p (l : link) : Q := value x (l_active l) "Link-p" (l_name l) t.
Definition demand_of (d : load) : Q := if d_active d then - (d_sign d * d_p d t) else 0.

(* output of a link at bus b per unit of input: every port at b counts *)
Definition outputs (l : link) : list (string * Q) :=
  (l_bus1 l, l_eff1 l t) :: map (fun pe => (fst pe, snd pe t)) (filter (fun pe => negb (String.eqb (fst pe) "")) (l_ports l)).

Definition at_bus (b b' : string) (q : Q) : Q := if String.eqb b b' then q else 0.

Definition branch_at (v lv : string) (b : string) (br : branch) : Q :=
  at_bus (b_bus1 br) b (flow v br) - at_bus (b_bus0 br) b (flow v br) -
  (if losses then (1#2) * (at_bus (b_bus0 br) b (flow lv br) + at_bus (b_bus1 br) b (flow lv br)) else 0).

(* power arriving at bus b minus power leaving it *)
Definition net_power (b : string) : Q :=
  total (fun c => at_bus (c_bus c) b (gen_p c)) (gens n) +
  total (fun c => at_bus (c_bus c) b (store_p c)) (stores n) +
  total (fun c => at_bus (c_bus c) b (unit_p c)) (units n) +
  total (branch_at "Line-s" "Line-loss" b) (lines n) +
  total (branch_at "Transformer-s" "Transformer-loss" b) (trafos n) +
  total (fun l => total (fun pe => at_bus (fst pe) b (snd pe * link_p l)) (outputs l) - at_bus (l_bus0 l) b (link_p l)) (links n).
Definition demand (b : string) : Q := total (fun d => at_bus (d_bus d) b (demand_of d)) (loads n).

(* totals over the whole network *)
Definition generation : Q := total gen_p (gens n) + total store_p (stores n) + total unit_p (units n).
Definition total_demand : Q := total demand_of (loads n).
Definition conversion_loss : Q := total (fun l => link_p l * (1 - total snd (outputs l))) (links n).
Definition branch_loss : Q :=
  if losses then total (flow "Line-loss") (lines n) + total (flow "Transformer-loss") (trafos n) else 0.
End S.

(* every component is connected to buses of the network *)
Definition connected (n : net) : Prop :=
  (forall c, In c (gens n ++ stores n ++ units n) -> In (c_bus c) (buses n)) /\
  (forall b, In b (lines n ++ trafos n) -> In (b_bus0 b) (buses n) /\ In (b_bus1 b) (buses n)) /\
  (forall l, In l (links n) -> In (l_bus0 l) (buses n) /\ In (l_bus1 l) (buses n) /\
     forall pe, In pe (l_ports l) -> fst pe = "" \/ In (fst pe) (buses n)) /\
  (forall d, In d (loads n) -> In (d_bus d) (buses n)).

(* some active component with a variable is attached to bus b *)
Definition attached (n : net) (b : string) (t : nat) : Prop :=
  (exists c, In c (gens n ++ stores n ++ units n) /\ c_bus c = b /\ c_active c t = true) \/
  (exists c, In c (lines n ++ trafos n) /\ (b_bus0 c = b \/ b_bus1 c = b) /\ b_active c t = true) \/
  (exists l, In l (links n) /\ l_active l t = true /\
     (l_bus0 l = b \/ l_bus1 l = b \/ (b <> "" /\ exists e, In (b, e) (l_ports l)))).
