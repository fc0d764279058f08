From Coq Require Import List String Bool QArith Arith Lqa Lia.
From Verif Require Import LinModel LinProofs BalanceModel BalanceSpec BalanceProofs.
Import ListNotations.
Open Scope string_scope.
Open Scope list_scope.
Open Scope Q_scope.

(* the generated constraints hold exactly if supply meets demand at every bus, also where strongly meshed buses are
   treated separately *)
Theorem C30_bus_balance n losses x T cols thr cs :
  nodal_balance n losses T cols thr = Some cs -> (forall b, In b (meshed cols thr) -> In b (buses n)) ->
  (sat x cs <-> forall b t, In b (buses n) -> (t < T)%nat -> net_power n losses x t b == demand n t b).
Proof. exact (nodal_iff n losses x T cols thr cs). Qed.
Print Assumptions C30_bus_balance.

Theorem C30_conservation n losses x T cols thr cs :
  nodal_balance n losses T cols thr = Some cs -> (forall b, In b (meshed cols thr) -> In b (buses n)) ->
  NoDup (buses n) -> connected n -> sat x cs -> forall t, (t < T)%nat ->
  generation n x t == total_demand n t + conversion_loss n x t + branch_loss n losses x t.
Proof. exact (conservation n losses x T cols thr cs). Qed.
Print Assumptions C30_conservation.

(* without links and losses generation equals load *)
Theorem C30_lossless n x T cols thr cs :
  nodal_balance n false T cols thr = Some cs -> (forall b, In b (meshed cols thr) -> In b (buses n)) ->
  NoDup (buses n) -> connected n -> (forall l t, In l (links n) -> total snd (outputs t l) == 1) ->
  sat x cs -> forall t, (t < T)%nat -> generation n x t == total_demand n t.
Proof. exact (lossless n x T cols thr cs). Qed.
Print Assumptions C30_lossless.

(* demand at a bus without any active component is rejected, nothing else is *)
Theorem C30_unserved_rejected n losses bs T b t :
  In b bs -> (t < T)%nat -> ~ attached n b t -> ~ demand n t b == 0 -> balance n losses bs T = None.
Proof. exact (balance_raises n losses bs T b t). Qed.
Print Assumptions C30_unserved_rejected.
Theorem C30_otherwise_built n losses bs T : (exists b, In b bs /\ attached n b 0) ->
  (forall b t, In b bs -> (t < T)%nat -> attached n b t \/ demand n t b == 0) -> balance n losses bs T <> None.
Proof. exact (balance_builds n losses bs T). Qed.
Print Assumptions C30_otherwise_built.

(* a load on a bus that is not in the network disappears from the balance *)
Theorem C30_unknown_bus_refuted :
  exists n x cs, nodal_balance n false 1 [] 45 = Some cs /\ sat x cs /\ NoDup (buses n) /\
    total_demand n 0 == 10 /\ generation n x 0 == 0.
Proof. exact unknown_bus. Qed.
Print Assumptions C30_unknown_bus_refuted.

(* three buses, a line with losses, a link with two outputs and an unused port, an inactive generator *)
Example C30_ex : exists cs, nodal_balance ex_net true 1 ["A"; "A"; "A"; "B"; "B"; "C"] 2 = Some cs /\ meshed ["A"; "A"; "A"; "B"; "B"; "C"] 2 = ["A"] /\
  sat ex_sol cs /\ NoDup (buses ex_net) /\ connected ex_net /\
  generation ex_net ex_sol 0 == 102 /\ total_demand ex_net 0 == 94 /\ conversion_loss ex_net ex_sol 0 == 6 /\ branch_loss ex_net true ex_sol 0 == 2.
Proof. exact ex_ok. Qed.
Example C30_ex_lossless : exists cs, nodal_balance ex_net2 false 1 [] 45 = Some cs /\ sat ex_sol2 cs /\ connected ex_net2 /\
  (forall l t, In l (links ex_net2) -> total snd (outputs t l) == 1) /\ generation ex_net2 ex_sol2 0 == 30.
Proof. exact ex_ok2. Qed.
Example C30_ex_rejected : exists n, ~ attached n "B" 0 /\ ~ demand n 0 "B" == 0 /\ In "B" (buses n) /\ (exists b, In b (buses n) /\ attached n b 0).
Proof. exact ex_rejected. Qed.
