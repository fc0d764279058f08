From Coq Require Import List String Bool QArith ZArith Arith Lia.
From Verif Require Import LinModel LinProofs StorageModel StorageSpec StorageProofs RollingModel RollingSpec RollingProofs.
Import ListNotations.
Open Scope string_scope.
Open Scope list_scope.

Theorem C34_rejected : forall len horizon overlap, windows len horizon overlap = ValueError <-> (horizon <= overlap)%Z.
Proof. exact windows_rejected. Qed.
Print Assumptions C34_rejected.

(* the windows cover exactly the snapshots, are full except at the end, start at 0 and overlap as requested *)
Theorem C34_windows : forall len horizon overlap, (0 <= overlap < horizon)%Z -> exists l, windows len horizon overlap = Windows l /\
  (forall t, covers l t <-> (t < len)%nat) /\
  (forall a b, In (a, b) l -> (a < b <= len)%nat /\ (Z.of_nat b - Z.of_nat a <= horizon)%Z /\ (b = len \/ (Z.of_nat b - Z.of_nat a = horizon)%Z)) /\
  (forall d, (0 < len)%nat -> fst (nth 0 l d) = 0%nat) /\
  (forall i d, (S i < List.length l)%nat -> let w := nth i l d in let w' := nth (S i) l d in
     (Z.of_nat (fst w') = Z.of_nat (fst w) + (horizon - overlap))%Z /\
     ((Z.of_nat (snd w) - Z.of_nat (fst w') = overlap)%Z \/ snd w = len)).
Proof. exact windows_good. Qed.
Print Assumptions C34_windows.

(* whatever feasible solutions the windows get, the stored levels of all windows together are one trajectory *)
Theorem C34_stores : forall len horizon overlap a hours optimize n ws,
  (0 <= overlap < horizon)%Z -> windows len horizon overlap = Windows ws -> s_cyclic a = false -> (forall t, s_active a t = true) ->
  solves_store a hours optimize ws ->
  let r := res (loop optimize 0 ws n) in
  assembled len (starts ws) a (e_initial n (s_name a)) (value r a "Store-e") (store_gain r a hours).
Proof. exact store_assembled. Qed.
Print Assumptions C34_stores.
Theorem C34_storage_units : forall len horizon overlap a d optimize n ws,
  (0 <= overlap < horizon)%Z -> windows len horizon overlap = Windows ws -> s_cyclic a = false -> (forall t, s_active a t = true) ->
  solves_unit a d optimize ws ->
  let r := res (loop optimize 0 ws n) in
  assembled len (starts ws) a (soc_initial n (s_name a)) (value r a "StorageUnit-state_of_charge") (unit_gain r a d).
Proof. exact unit_assembled. Qed.
Print Assumptions C34_storage_units.
(* and, without standing losses at the window starts, feasible for the whole horizon at once *)
Theorem C34_whole_horizon : forall len st a init lvl gain, assembled len st a init lvl gain -> s_cyclic a = false -> (forall t, s_active a t = true) ->
  (forall t, In t st -> t <> 0%nat -> (s_stand a t == 1)%Q) -> follows len None (with_initial a init) lvl gain.
Proof. exact assembled_follows. Qed.
Print Assumptions C34_whole_horizon.

(* standing losses are skipped at the start of every window *)
Theorem C34_standing_loss_refuted : windows 2 1 0 = Windows [(0, 1); (1, 2)]%nat /\ solves_store st_half (fun _ => 1%Q) keep [(0, 1); (1, 2)]%nat /\
  let r := res (loop keep 0 [(0, 1); (1, 2)]%nat n0) in
  (value r st_half "Store-e" 1 == 8)%Q /\ ~ sat r (store_balance 2 None st_half (fun _ => 1%Q)).
Proof. exact standing_loss_skipped. Qed.
Print Assumptions C34_standing_loss_refuted.
(* the run leaves other initial levels behind *)
Theorem C34_initial_kept_refuted : solves_store st_half (fun _ => 1%Q) empty_it [(0, 1); (1, 2)]%nat /\
  (e_initial n0 "s" == 8)%Q /\ (e_initial (loop empty_it 0 [(0, 1); (1, 2)]%nat n0) "s" == 0)%Q.
Proof. exact initial_changed. Qed.
Print Assumptions C34_initial_kept_refuted.
(* a negative overlap is accepted and skips snapshots *)
Theorem C34_negative_overlap_refuted : windows 5 2 (-1) = Windows [(0, 2); (3, 5)]%nat /\ ~ covers [(0, 2); (3, 5)]%nat 2.
Proof.
  split; [reflexivity|]. intros [w [I L]]. destruct I as [<-|[<-|[]]]; cbn in L; lia.
Qed.
Print Assumptions C34_negative_overlap_refuted.

Example C34_ex : windows 10 4 1 = Windows [(0, 4); (3, 7); (6, 10); (9, 10)]%nat /\
  windows 2 1 0 = Windows [(0, 1); (1, 2)]%nat /\ s_cyclic st_half = false /\ (forall t, s_active st_half t = true) /\
  solves_store st_half (fun _ => 1%Q) keep [(0, 1); (1, 2)]%nat.
Proof.
  split; [reflexivity|]. split; [reflexivity|]. split; [reflexivity|]. split; [intros; reflexivity|]. exact (proj1 (proj2 standing_loss_skipped)).
Qed.
