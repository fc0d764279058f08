From Coq Require Import List String Bool QArith Arith Lqa Lia.
From Verif Require Import LinModel LinProofs DispatchModel RampModel RampSpec RampProofs.
Import ListNotations.
Open Scope string_scope.
Open Scope list_scope.
Open Scope Q_scope.

(* consecutive dispatch of a unit without commitment stays within its limits, also across the border of a later window *)
Theorem C29_non_committable cls nattr T rolling assets x a t :
  has_limit T assets -> has_limit_not_one T assets -> sat x (ramps cls nattr T rolling assets) ->
  In a assets -> ext a = true \/ com a = false -> active a t = true -> has_prev rolling T t ->
  ramps_within cls x a t (nom_opt cls nattr x a).
Proof. exact (non_committable cls nattr T rolling assets x a t). Qed.
Print Assumptions C29_non_committable.

(* with unidirectional dispatch the side conditions on the class are not needed *)
Theorem C29_unidirectional cls nattr T rolling assets x a t :
  sat x (ramps cls nattr T rolling assets) ->
  In a assets -> ext a = true \/ com a = false -> active a t = true -> has_prev rolling T t ->
  (0 <= p_of cls x a t /\ p_of cls x a t <= nom_opt cls nattr x a) ->
  (0 <= p_prev cls x a t /\ p_prev cls x a t <= nom_opt cls nattr x a) ->
  ramps_within cls x a t (nom_opt cls nattr x a).
Proof. exact (within_capacity cls nattr T rolling assets x a t). Qed.
Print Assumptions C29_unidirectional.

(* a committed unit: ramp limits while on, start-up and shut-down limits at transitions *)
Theorem C29_committable cls nattr T rolling assets x a t :
  has_limit T assets -> has_limit_not_one T assets -> sat x (ramps cls nattr T rolling assets) ->
  In a assets -> com a = true -> active a t = true -> has_prev rolling T t -> on_off cls x a t -> com_within cls x a t.
Proof. exact (committable cls nattr T rolling assets x a t). Qed.
Print Assumptions C29_committable.

(* nothing else is imposed *)
Theorem C29_nothing_else cls nattr T rolling (assets : list rasset) x :
  (forall a t, In a assets -> active a t = true -> has_prev rolling T t ->
     ((ext a = true \/ com a = false) -> ramps_within cls x a t (nom_opt cls nattr x a)) /\
     (com a = true -> on_off cls x a t /\ com_within cls x a t)) ->
  sat x (ramps cls nattr T rolling assets).
Proof. exact (ramps_complete cls nattr T rolling assets x). Qed.
Print Assumptions C29_nothing_else.

(* limits of 1 for the whole class are dropped: a reversible link may swing by twice its capacity *)
Theorem C29_reversal_refuted : exists (a : rasset) (x : sol), up a 1%nat = Some 1 /\ down a 1%nat = Some 1 /\ com a = false /\ ext a = false /\ nom a == 100 /\
  active a 1%nat = true /\ min_pu a 1%nat == -(1) /\ sat x (ramps "Link" "p_nom" 2 false [a]) /\
  p_of "Link" x a 0 == -(100) /\ p_of "Link" x a 1 == 100.
Proof. exact reversal. Qed.
Print Assumptions C29_reversal_refuted.

(* start-up limits without a ramp limit, or with ramp limits 1 throughout, have no effect *)
Theorem C29_start_limit_refuted : exists (a : rasset) (x : sol), com a = true /\ start_lim a == 3 # 10 /\ nom a == 100 /\ (forall t, active a t = true) /\
  sat x (ramps "Generator" "p_nom" 2 false [a]) /\
  s_of "Generator" x a 0 == 0 /\ s_of "Generator" x a 1 == 1 /\ p_of "Generator" x a 0 == 0 /\ p_of "Generator" x a 1 == 100.
Proof. exact start_ignored. Qed.
Print Assumptions C29_start_limit_refuted.
Theorem C29_start_limit_ones_refuted : exists (a : rasset) (x : sol), com a = true /\ start_lim a == 3 # 10 /\ up_static a = Some 1 /\ nom a == 100 /\
  (forall t, active a t = true) /\ sat x (ramps "Generator" "p_nom" 2 false [a]) /\
  s_of "Generator" x a 0 == 0 /\ s_of "Generator" x a 1 == 1 /\ p_of "Generator" x a 0 == 0 /\ p_of "Generator" x a 1 == 100.
Proof. exact start_ignored_one. Qed.
Print Assumptions C29_start_limit_ones_refuted.

(* time-dependent ramp limits of committable units have no effect *)
Theorem C29_series_refuted : exists (a : rasset) (x : sol), com a = true /\ (forall t, up a t = Some (1 # 10)) /\ nom a == 100 /\ (forall t, active a t = true) /\
  sat x (ramps "Generator" "p_nom" 2 false [a]) /\
  s_of "Generator" x a 0 == 1 /\ s_of "Generator" x a 1 == 1 /\ p_of "Generator" x a 0 == 0 /\ p_of "Generator" x a 1 == 100.
Proof. exact series_ignored. Qed.
Print Assumptions C29_series_refuted.

(* a unit may be unable to stop, or to start, though its shut-down and start-up limits allow it *)
Theorem C29_cannot_stop_refuted : exists a : rasset, com a = true /\ up_static a = Some (1 # 10) /\ shut_lim a == 1 /\ nom a == 100 /\ (forall t, active a t = true) /\
  forall x, sat x (ramps "Generator" "p_nom" 2 false [a]) -> on_off "Generator" x a 1 ->
    s_of "Generator" x a 0 == 1 -> p_of "Generator" x a 0 == 50 -> s_of "Generator" x a 1 == 1.
Proof. exact cannot_stop. Qed.
Print Assumptions C29_cannot_stop_refuted.
Theorem C29_cannot_start_refuted : exists a : rasset, com a = true /\ start_lim a == 1 # 2 /\ min_pu a 1%nat == 2 # 10 /\ nom a == 100 /\ (forall t, active a t = true) /\
  forall x, sat x (ramps "Generator" "p_nom" 2 false [a]) -> on_off "Generator" x a 1 ->
    s_of "Generator" x a 0 == 0 -> s_of "Generator" x a 1 == 0.
Proof. exact cannot_start. Qed.
Print Assumptions C29_cannot_start_refuted.

(* a fixed and a committable generator over three snapshots of a later window *)
Definition ex_assets : list rasset :=
  [ ex_r "f" false false 0 (Some (1 # 5)) (Some (1 # 4)) 1 1; ex_r "c" false true (1 # 10) (Some (1 # 5)) None (1 # 2) 1 ].
Definition ex_x : sol := sol_of (fun w t nm =>
  if String.eqb w "Generator-p" then if String.eqb nm "f" then nth t [70; 60; 80] 0 else nth t [60; 0; 40] 0
  else if String.eqb w "Generator-status" then nth t [1; 0; 1] 0 else 0).
Example C29_ex : has_limit 3 ex_assets /\ has_limit_not_one 3 ex_assets /\ sat ex_x (ramps "Generator" "p_nom" 3 true ex_assets) /\
  (forall t, (t < 3)%nat -> on_off "Generator" ex_x (nth 1 ex_assets (ex_r "" false false 0 None None 0 0)) t) /\
  ~ sat (fun v => let '(w, t, nm) := v in if String.eqb nm "f" then ex_x v + 1 else ex_x v) (ramps "Generator" "p_nom" 3 true ex_assets).
Proof.
  split; [|split; [|split; [|split]]].
  - exists (ex_r "f" false false 0 (Some (1 # 5)) (Some (1 # 4)) 1 1), 0%nat, (1 # 5). repeat split; simpl; auto.
  - exists (ex_r "f" false false 0 (Some (1 # 5)) (Some (1 # 4)) 1 1), 0%nat. repeat split; simpl; auto. left. intros l E. injection E as <-. lra.
  - apply satb_iff. reflexivity.
  - intros t L. destruct t as [|[|[|t]]]; [| | |lia]; unfold on_off, s_of, p_of, s_prev, p_prev, s_of, p_of, reported, op, ex_x, sol_of; cbn; lra.
  - rewrite <- satb_iff. vm_compute. discriminate.
Qed.
