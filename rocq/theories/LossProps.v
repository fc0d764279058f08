From Coq Require Import List String Bool QArith Qabs Arith Lqa Lia.
From Verif Require Import LinModel LinProofs LossModel LossSpec LossProofs.
Import ListNotations.
Open Scope string_scope.
Open Scope list_scope.
Open Scope Q_scope.

(* every tangent touches the quadratic curve at its point and lies below it *)
Theorem C33_tangents : forall N k b t, touches_at (b_r b) (p_k N k b t) (fun s => offset_k N k b t + slope_k N k b t * s).
Proof. exact tangent_touches. Qed.
Print Assumptions C33_tangents.

(* the modelled loss is at most the largest loss and misses the quadratic one by at most that of half a step *)
Theorem C33_error : forall cls N T bs cs x b t m,
  loss_constraints cls N T bs = Some cs -> sat x cs -> (1 <= N)%nat -> In b bs -> (t < T)%nat -> b_active b t = true ->
  0 <= b_r b -> 0 <= loss_of cls x b t -> largest b t m -> 0 <= m -> Qabs (flow_of cls x b t) <= m ->
  quad b (flow_of cls x b t) - quad b (m / (2 * q_of N)) <= loss_of cls x b t /\ loss_of cls x b t <= quad b m.
Proof. exact loss_error. Qed.
Print Assumptions C33_error.

Theorem C33_at_points : forall cls N T bs cs x b t k m,
  loss_constraints cls N T bs = Some cs -> sat x cs -> In b bs -> (t < T)%nat -> b_active b t = true -> (1 <= k <= N)%nat ->
  largest b t m -> flow_of cls x b t == q_of k / q_of N * m \/ flow_of cls x b t == - (q_of k / q_of N * m) ->
  quad b (flow_of cls x b t) <= loss_of cls x b t.
Proof. exact at_points. Qed.
Print Assumptions C33_at_points.

Theorem C33_exact_feasible : forall cls N T bs cs x, loss_constraints cls N T bs = Some cs ->
  (forall b t, In b bs -> (t < T)%nat -> b_active b t = true -> 0 <= b_r b /\ loss_of cls x b t == quad b (flow_of cls x b t) /\
     forall m, largest b t m -> Qabs (flow_of cls x b t) <= m) -> sat x cs.
Proof. exact exact_feasible. Qed.
Print Assumptions C33_exact_feasible.

Theorem C33_rejected : forall cls N T bs,
  loss_constraints cls N T bs = None <-> exists b, In b bs /\ (if b_ext b then b_nom_max b else b_nom b) = None.
Proof. exact rejected. Qed.
Print Assumptions C33_rejected.

Definition ex_b : branch := {| b_name := "l"; b_active := fun _ => true; b_r := 1 # 10; b_max_pu := fun _ => 1 # 2; b_ext := true;
  b_nom := Some 1; b_nom_max := Some 20 |}.
Definition ex_x (s l : Q) : sol := fun v => if String.eqb (fst (fst v)) "Line-s" then s else l.

(* the loss need not be near the quadratic one from above: an idle line may report its largest loss *)
Theorem C33_excess_refuted : exists cs, loss_constraints "Line" 2 1 [ex_b] = Some cs /\ sat (ex_x 0 10) cs /\
  quad ex_b 0 == 0 /\ loss_of "Line" (ex_x 0 10) ex_b 0 == 10.
Proof.
  exists (match loss_constraints "Line" 2 1 [ex_b] with Some cs => cs | None => [] end).
  split; [reflexivity|]. split; [apply satb_iff; reflexivity|]. split; reflexivity.
Qed.
Print Assumptions C33_excess_refuted.

(* two tangents, largest flow 10: a flow of 7 costs 4.9, forced are 4.5 *)
Example C33_ex : exists cs, loss_constraints "Line" 2 1 [ex_b] = Some cs /\ largest ex_b 0 10 /\ quad ex_b 7 == 49 # 10 /\
  sat (ex_x 7 (49 # 10)) cs /\ sat (ex_x (-(7)) (9 # 2)) cs /\ ~ sat (ex_x 7 (44 # 10)) cs /\ ~ sat (ex_x (-(7)) (44 # 10)) cs.
Proof.
  exists (match loss_constraints "Line" 2 1 [ex_b] with Some cs => cs | None => [] end).
  split; [reflexivity|]. split; [exists 20; split; [reflexivity|reflexivity]|]. split; [reflexivity|].
  split; [apply satb_iff; reflexivity|]. split; [apply satb_iff; reflexivity|].
  split; rewrite <- satb_iff; vm_compute; discriminate.
Qed.
