From Coq Require Import List String Bool QArith Arith.
From Verif Require Import LinModel BalanceModel BalanceSpec AssignModel.
Import ListNotations.
Open Scope string_scope.
Open Scope Q_scope.

Definition reports (s : series) (t : nat) (q : Q) : Prop := exists p, s t = Some p /\ p == q.

(* power the reported flows take out of bus b *)
Definition outflow (n : net) (flow : branch -> series * series) (tflow : branch -> series * series) (b : string) (t : nat) : Q :=
  total (fun c => at_bus (b_bus0 c) b (num (fst (flow c)) t) + at_bus (b_bus1 c) b (num (snd (flow c)) t)) (lines n) +
  total (fun c => at_bus (b_bus0 c) b (num (fst (tflow c)) t) + at_bus (b_bus1 c) b (num (snd (tflow c)) t)) (trafos n).
