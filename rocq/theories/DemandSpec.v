From Coq Require Import List String Bool QArith.
From Verif Require Import LinModel WholeModel.
From Verif Require BalanceModel.
Import ListNotations.
Open Scope string_scope.
Open Scope list_scope.
Open Scope Q_scope.

(* the network with other loads *)
Definition with_loads (ds : list BalanceModel.load) (n : net) : net :=
  {| assets := assets n; loads := ds; buses := buses n; nsnaps := nsnaps n;
     w_obj := w_obj n; w_gen := w_gen n; w_sto := w_sto n; tangents := tangents n; linear := linear n; emission := emission n;
     carriers := carriers n; limits := limits n; columns := columns n |}.
(* what the loads take from a bus; sign is -1 by default, p then what is taken *)
Definition taken (d : BalanceModel.load) (b : string) (t : nat) : Q :=
  if BalanceModel.d_active d && String.eqb (BalanceModel.d_bus d) b then - (BalanceModel.d_sign d * BalanceModel.d_p d t) else 0.
Fixpoint net_demand (ds : list BalanceModel.load) (b : string) (t : nat) : Q :=
  match ds with [] => 0 | d :: r => taken d b t + net_demand r b t end.
Definition same_demand (n : net) (ds ds' : list BalanceModel.load) : Prop :=
  forall b t, In b (buses n) -> (t < nsnaps n)%nat -> net_demand ds b t == net_demand ds' b t.
(* ds'' asks for a mixture of what ds and ds' ask for *)
Definition mixed_demand (n : net) (s : Q) (ds ds' ds'' : list BalanceModel.load) : Prop :=
  forall b t, In b (buses n) -> (t < nsnaps n)%nat -> net_demand ds'' b t == s * net_demand ds b t + (1 - s) * net_demand ds' b t.

(* one load instead of two at a bus *)
Definition merged (d e : BalanceModel.load) : BalanceModel.load :=
  {| BalanceModel.d_bus := BalanceModel.d_bus d; BalanceModel.d_sign := -1;
     BalanceModel.d_p := fun t => - (BalanceModel.d_sign d * BalanceModel.d_p d t) - BalanceModel.d_sign e * BalanceModel.d_p e t; BalanceModel.d_active := true |}.
(* a load scaled to a share *)
Definition share (s : Q) (d : BalanceModel.load) : BalanceModel.load :=
  {| BalanceModel.d_bus := BalanceModel.d_bus d; BalanceModel.d_sign := BalanceModel.d_sign d; BalanceModel.d_p := fun t => s * BalanceModel.d_p d t; BalanceModel.d_active := BalanceModel.d_active d |}.
