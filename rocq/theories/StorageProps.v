From Coq Require Import List String Bool QArith ZArith Arith Lia.
From Verif Require Import LinModel LinProofs StorageModel StorageSpec StorageProofs.
Import ListNotations.
Open Scope string_scope.
Open Scope list_scope.
Open Scope Q_scope.

(* where the energy at the start of a snapshot comes from is determined *)
Theorem C31_one_source : forall T periods a t, regular periods -> (t < T)%nat -> s_active a t = true -> exists! src, comes_from T periods a t src.
Proof. exact one_source. Qed.
Print Assumptions C31_one_source.

(* the constraints hold exactly when the level follows the recursion *)
Theorem C31_balance : forall T periods a d x, regular periods ->
  (sat x (unit_balance T periods a d) <-> follows T periods a (value x a "StorageUnit-state_of_charge") (unit_gain x a d)).
Proof. exact unit_iff. Qed.
Print Assumptions C31_balance.

(* single period, not cyclic: level in closed form *)
Theorem C31_closed_form : forall T a d x, sat x (unit_balance T None a d) -> s_cyclic a = false -> (forall t, (t < T)%nat -> s_active a t = true) ->
  forall t, (t < T)%nat -> value x a "StorageUnit-state_of_charge" t ==
    decay (s_stand a) 0 t * s_init a + sumto (fun s => decay (s_stand a) s (t - s) * unit_gain x a d s) (seq 0 (S t)).
Proof. exact (fun T a d x H => closed_form T a _ _ (proj1 (unit_iff T None a d x I) H)). Qed.
Print Assumptions C31_closed_form.

(* a cyclic unit without standing losses neither gains nor loses energy over its cycle *)
Theorem C31_cyclic : forall T periods a d x l, regular periods -> s_cyclic a = true -> sat x (unit_balance T periods a d) -> cycle T periods a l ->
  (forall t, In t l -> s_stand a t == 1) -> sumto (unit_gain x a d) l == 0.
Proof. exact (fun T periods a d x l R C H => cycle_lossless T periods a _ _ (proj1 (unit_iff T periods a d x R) H) C l R). Qed.
Print Assumptions C31_cyclic.

(* a cyclic unit is never a net source beyond its inflow *)
Theorem C31_no_net_source : forall T periods a d x l, regular periods -> s_cyclic a = true -> sat x (unit_balance T periods a d) -> cycle T periods a l ->
  (forall t, In t l -> s_stand a t <= 1 /\ 0 <= value x a "StorageUnit-state_of_charge" t /\ 0 <= eh d t /\
     0 < eff_dispatch d t /\ eff_dispatch d t <= 1 /\ 0 <= eff_store d t /\ eff_store d t <= 1 /\
     0 <= value x a "StorageUnit-p_dispatch" t /\ 0 <= value x a "StorageUnit-p_store" t /\ 0 <= val x (spill_label a d t)) ->
  sumto (fun t => eh d t * value x a "StorageUnit-p_dispatch" t) l
    <= sumto (fun t => eh d t * value x a "StorageUnit-p_store" t) l + sumto (fun t => eh d t * inflow d t) l.
Proof. exact unit_no_source. Qed.
Print Assumptions C31_no_net_source.

(* only inflow can be spilled *)
Theorem C31_spill : forall T a d x t, spill_bounds T a d x -> (t < T)%nat ->
  0 <= val x (spill_label a d t) /\ (val x (spill_label a d t) <= inflow d t \/ val x (spill_label a d t) == 0) /\
  (inflow d t <= 0 -> val x (spill_label a d t) == 0).
Proof. exact spill_value. Qed.
Print Assumptions C31_spill.

(* the initial level is not subject to standing losses, against the documented equation *)
Theorem C31_initial_decayed_refuted : exists a x, s_cyclic a = false /\ s_active a 0%nat = true /\ s_stand a 0%nat == 1 # 2 /\
  sat x (unit_balance 1 None a ex_u) /\
  ~ value x a "StorageUnit-state_of_charge" 0 == s_stand a 0%nat * s_init a + unit_gain x a ex_u 0.
Proof. exact initial_not_decayed_unit. Qed.
Print Assumptions C31_initial_decayed_refuted.

(* default flags: a unit that is neither cyclic nor reset per period is refilled at every period *)
Theorem C31_refilled_refuted : exists a x, s_cyclic a = false /\ s_cyclic_pp a = true /\ s_init_pp a = false /\ (forall t, s_active a t = true /\ s_stand a t == 1) /\
  sat x (unit_balance 4 (Some two_periods) a ex_u) /\ s_init a == 10 /\
  value x a "StorageUnit-state_of_charge" 1 == 0 /\ value x a "StorageUnit-p_dispatch" 2 == 10 /\ value x a "StorageUnit-state_of_charge" 2 == 0.
Proof. exact refilled_unit. Qed.
Print Assumptions C31_refilled_refuted.

Theorem C32_balance : forall T periods a hours x, regular periods ->
  (sat x (store_balance T periods a hours) <-> follows T periods a (value x a "Store-e") (store_gain x a hours)).
Proof. exact store_iff. Qed.
Print Assumptions C32_balance.

Theorem C32_closed_form : forall T a hours x, sat x (store_balance T None a hours) -> s_cyclic a = false -> (forall t, (t < T)%nat -> s_active a t = true) ->
  forall t, (t < T)%nat -> value x a "Store-e" t ==
    decay (s_stand a) 0 t * s_init a + sumto (fun s => decay (s_stand a) s (t - s) * store_gain x a hours s) (seq 0 (S t)).
Proof. exact (fun T a h x H => closed_form T a _ _ (proj1 (store_iff T None a h x I) H)). Qed.
Print Assumptions C32_closed_form.

Theorem C32_cyclic : forall T periods a hours x l, regular periods -> s_cyclic a = true -> sat x (store_balance T periods a hours) -> cycle T periods a l ->
  (forall t, In t l -> s_stand a t == 1) -> sumto (store_gain x a hours) l == 0.
Proof. exact (fun T periods a h x l R C H => cycle_lossless T periods a _ _ (proj1 (store_iff T periods a h x R) H) C l R). Qed.
Print Assumptions C32_cyclic.

Theorem C32_no_net_source : forall T periods a hours x l, regular periods -> s_cyclic a = true -> sat x (store_balance T periods a hours) -> cycle T periods a l ->
  (forall t, In t l -> s_stand a t <= 1 /\ 0 <= value x a "Store-e" t) ->
  sumto (fun t => hours t * value x a "Store-p" t) l <= 0.
Proof. exact store_no_source. Qed.
Print Assumptions C32_no_net_source.

Theorem C32_initial_decayed_refuted : exists a x, s_cyclic a = false /\ s_active a 0%nat = true /\ s_stand a 0%nat == 1 # 2 /\
  sat x (store_balance 1 None a (fun _ => 1)) /\
  ~ value x a "Store-e" 0 == s_stand a 0%nat * s_init a + store_gain x a (fun _ => 1) 0.
Proof. exact initial_not_decayed_store. Qed.
Print Assumptions C32_initial_decayed_refuted.
Theorem C32_refilled_refuted : exists a x, s_cyclic a = false /\ s_cyclic_pp a = true /\ s_init_pp a = false /\ (forall t, s_active a t = true /\ s_stand a t == 1) /\
  sat x (store_balance 4 (Some two_periods) a (fun _ => 1)) /\ s_init a == 10 /\
  value x a "Store-e" 1 == 0 /\ value x a "Store-p" 2 == 10 /\ value x a "Store-e" 2 == 0.
Proof. exact refilled_store. Qed.
Print Assumptions C32_refilled_refuted.
(* cyclic over the horizon, per-period flag off: still cycles within each period when the initial-per-period flag is set *)
Theorem C32_cycles_per_period_refuted : exists a, s_cyclic a = true /\ s_cyclic_pp a = false /\ s_init_pp a = true /\ (forall t, s_active a t = true /\ s_stand a t == 1) /\ s_init a == 10 /\
  forall x, sat x (store_balance 4 (Some two_periods) a (fun _ => 1)) ->
    value x a "Store-p" 0 + value x a "Store-p" 1 == 0 /\ value x a "Store-p" 2 + value x a "Store-p" 3 == 0.
Proof. exact cycles_per_period. Qed.
Print Assumptions C32_cycles_per_period_refuted.

(* a cyclic unit active in snapshots 1, 2 and 4 of five, with losses, inflow and spill *)
Definition ex_a : storage := {| s_name := "s"; s_active := fun t => existsb (Nat.eqb t) [1; 2; 4]%nat; s_stand := fun _ => 1 # 2;
  s_init := 7; s_cyclic := true; s_cyclic_pp := true; s_init_pp := false |}.
Definition ex_d : unit_data := {| eh := fun _ => 2; eff_dispatch := fun _ => 1 # 2; eff_store := fun _ => 1 # 2;
  inflow := fun t => nth t [0; 0; 3; 0; 0] 0 |}.
Definition ex_x : sol := sol3 (fun w t =>
  if String.eqb w "StorageUnit-state_of_charge" then nth t [0; 10; 8; 0; 4] 0
  else if String.eqb w "StorageUnit-p_store" then nth t [0; 8; 0; 0; 0] 0
  else if String.eqb w "StorageUnit-p_dispatch" then 0
  else if String.eqb w "StorageUnit-spill" then nth t [0; 0; 3 # 2; 0; 0] 0 else 0).
Example C31_ex : regular None /\ cycle 5 None ex_a [1; 2; 4]%nat /\ sat ex_x (unit_balance 5 None ex_a ex_d) /\ spill_bounds 5 ex_a ex_d ex_x /\
  ~ sat (fun v => if String.eqb (fst (fst v)) "StorageUnit-p_dispatch" then 1 else ex_x v) (unit_balance 5 None ex_a ex_d).
Proof.
  split; [exact I|]. split; [reflexivity|]. split; [apply satb_iff; reflexivity|]. split.
  - intros t v L E. destruct t as [|[|[|[|[|t]]]]]; [discriminate|discriminate| |discriminate|discriminate|lia].
    injection E as <-. split; discriminate.
  - rewrite <- satb_iff. vm_compute. discriminate.
Qed.
(* a store cycling within each of two periods *)
Definition ex_b : storage := ex_s (fun _ => 1) 10 true true false.
Definition ex_y : sol := sol3 (fun w t => if String.eqb w "Store-e" then nth t [5; 0; 0; 3] 0 else nth t [-(5); 5; 3; -(3)] 0).
Example C32_ex : regular (Some two_periods) /\ cycle 4 (Some two_periods) ex_b [2; 3]%nat /\ sat ex_y (store_balance 4 (Some two_periods) ex_b (fun _ => 1)) /\
  (forall t, s_stand ex_b t == 1).
Proof.
  split; [|split; [|split]].
  - intros s r t L. unfold two_periods. destruct (Nat.ltb_spec s 2), (Nat.ltb_spec r 2), (Nat.ltb_spec t 2); intros E; auto; try discriminate; lia.
  - exists 2%nat. split; [lia|]. split; [reflexivity|]. intros; reflexivity.
  - apply satb_iff. reflexivity.
  - intros t. reflexivity.
Qed.
