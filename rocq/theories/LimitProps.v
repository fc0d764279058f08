From Coq Require Import List String Bool QArith ZArith Arith Lia.
From Verif Require Import LinModel LinProofs StorageModel StorageSpec StorageProofs LimitModel LimitSpec LimitProofs.
Import ListNotations.
Open Scope string_scope.
Open Scope list_scope.
Open Scope Q_scope.

(* the snapshots a limit is applied to are those of its period, or all *)
Theorem C37_snapshots : forall n g sel, selected n g = Some sel -> NoDup sel /\ forall t, In t sel <-> about n g t.
Proof. exact selected_about. Qed.
Print Assumptions C37_snapshots.

(* the constraint says exactly that emissions of generators plus depletion of storage stand in the given relation to the constant *)
Theorem C37_primary_energy : forall n g sel c x final, NoDup (map fst (carriers n)) -> selected n g = Some sel -> primary_energy n g = Some c ->
  (forall lev s, In s (units n ++ stores n) -> s_cyclic (st_of s) = false -> ~ emission n (st_carrier s) == 0 -> final_level x lev (st_of s) sel (final lev s)) ->
  (holds x c <-> limited n x g sel (emission n) (fun gn t => weight n t / g_eff gn t) final).
Proof. exact primary_iff. Qed.
Print Assumptions C37_primary_energy.

Theorem C37_operational_limit : forall n g sel c x final, selected n g = Some sel -> operational_limit n g = Some c ->
  (forall lev s, In s (units n ++ stores n) -> s_cyclic (st_of s) = false -> st_carrier s = carrier_attr g -> final_level x lev (st_of s) sel (final lev s)) ->
  (holds x c <-> limited n x g sel (fun k => if String.eqb k (carrier_attr g) then 1 else 0) (fun _ t => weight n t) final).
Proof. exact operational_iff. Qed.
Print Assumptions C37_operational_limit.

(* one horizon, no standing losses: the depletion of a store is the energy it delivered *)
Theorem C37_depletion : forall T s hours x, s_cyclic s = false -> (0 < T)%nat -> (forall t, s_active s t = true) -> (forall t, s_stand s t == 1) ->
  sat x (store_balance T None s hours) ->
  exists q, final_level x "Store-e" s (seq 0 T) q /\ s_init s - q == total (fun t => hours t * value x s "Store-p" t) (seq 0 T).
Proof. exact depleted. Qed.
Print Assumptions C37_depletion.

(* a limit for which no constraint is written concerns nothing that emits *)
Theorem C37_skipped : forall n g x sel, NoDup (map fst (carriers n)) -> selected n g = Some sel -> primary_energy n g = None ->
  (forall gn, In gn (gens n) -> emission n (g_carrier gn) == 0) /\ (forall s, In s (units n ++ stores n) -> s_cyclic (st_of s) = true \/ emission n (st_carrier s) == 0) /\
  forall final, limited n x {| constant := 0; sense_of := Eq; inv_period := inv_period g; carrier_attr := carrier_attr g |} sel (emission n) (fun gn t => weight n t / g_eff gn t) final.
Proof. exact skipped. Qed.
Print Assumptions C37_skipped.

(* a store with default flags is refilled at every period, of which the limit sees one filling only *)
Theorem C37_refill_refuted : exists s x c, s_cyclic s = false /\ s_cyclic_pp s = true /\ s_init_pp s = false /\ (forall t, s_active s t = true /\ s_stand s t == 1) /\
  primary_energy (gas_net s (Some two_periods)) (at_most_in 10 None) = Some c /\ holds x c /\
  sat x (store_balance 4 (Some two_periods) s (fun _ => 1)) /\
  10 < total (fun t => 1 * value x s "Store-p" t) (seq 0 4).
Proof. exact refill_hides. Qed.
Print Assumptions C37_refill_refuted.
(* a limit for one period counts what a store carried over released before that period *)
Theorem C37_earlier_refuted : exists s x c, s_cyclic s = false /\ s_cyclic_pp s = false /\ s_init_pp s = false /\ (forall t, s_active s t = true /\ s_stand s t == 1) /\
  primary_energy (gas_net s (Some two_periods)) (at_most_in 5 (Some 2040%Z)) = Some c /\
  sat x (store_balance 4 (Some two_periods) s (fun _ => 1)) /\
  (forall t, two_periods t = 2040%Z -> value x s "Store-p" t == 0) /\ ~ holds x c.
Proof. exact earlier_depletion_counted. Qed.
Print Assumptions C37_earlier_refuted.
(* a store that is never active counts as having released its initial level: no solution at all *)
Theorem C37_inactive_refuted : exists s c, s_cyclic s = false /\ (forall t, s_active s t = false) /\
  primary_energy (gas_net s None) (at_most_in 5 None) = Some c /\ forall x, ~ holds x c.
Proof. exact inactive_counted. Qed.
Print Assumptions C37_inactive_refuted.

(* coal and wind, a gas store, three snapshots of weight 2 *)
Definition ex_n : net := {|
  gens := [{| g_name := "coal"; g_carrier := "coal"; g_active := fun t => (t <? 2)%nat; g_eff := fun _ => 1 # 2 |};
           {| g_name := "wind"; g_carrier := "wind"; g_active := fun _ => true; g_eff := fun _ => 1 |}];
  units := []; stores := [{| st_of := ex_s (fun _ => 1) 10 false true false; st_carrier := "gas" |}];
  carriers := [("coal", 3); ("wind", 0); ("gas", 2)]; weight := fun _ => 2; nsnaps := 3; period := None |}.
Definition ex_g : glc := {| constant := 40; sense_of := Le; inv_period := None; carrier_attr := "co2_emissions" |}.
Definition ex_x : sol := fun v => let '(w, t, a) := v in
  if String.eqb w "Store-e" then nth t [8; 8; 4] 0 else if String.eqb w "Store-p" then nth t [1; 0; 2] 0 else if String.eqb a "coal" then nth t [1; 1; 9] 0 else 50.
Definition ex_y : sol := fun v => let '(w, t, a) := v in if String.eqb a "coal" then 2 else ex_x v.
Example C37_ex : exists c, NoDup (map fst (carriers ex_n)) /\ selected ex_n ex_g = Some [0; 1; 2]%nat /\ primary_energy ex_n ex_g = Some c /\
  final_level ex_x "Store-e" (ex_s (fun _ => 1) 10 false true false) [0; 1; 2]%nat 4 /\ sat ex_x (store_balance 3 None (ex_s (fun _ => 1) 10 false true false) (fun _ => 2)) /\
  holds ex_x c /\ ~ holds ex_y c.
Proof.
  eexists. split; [|split; [|split; [|split; [|split; [|split]]]]].
  - repeat constructor; simpl; intuition discriminate.
  - reflexivity.
  - reflexivity.
  - exists 2%nat. split; [simpl; auto|]. split; [reflexivity|]. split; [|reflexivity]. intros r I L. simpl in I. lia.
  - apply satb_iff. reflexivity.
  - apply holdsb_iff. reflexivity.
  - rewrite <- holdsb_iff. discriminate.
Qed.
