From Coq Require Import List String Bool QArith.
From Verif Require Import ControlModel ControlSpec RunpfModel RunpfSpec RunpfProofs.
From Verif Require BalanceModel AssignModel.
Import ListNotations.
Open Scope string_scope.
Open Scope list_scope.

(* ---------- C68: controls set between optimisation and power flow ---------- *)
Theorem C68_controls subs n n' :
  NoDup (map gname (gens n)) -> NoDup (map bname (buses n)) -> with_slacks subs n -> set_controls subs n = Some n' ->
  Forall2 (controls_after subs n) (gens n) (gens n') /\ buses n' = buses n.
Proof. exact (controls_set subs n n'). Qed.
Print Assumptions C68_controls.

(* the power flow balances every listed sub-network with the same generator as before, changes no control, and
   holds the voltage at every other bus with a generator that is not the one chosen as PQ *)
Theorem C68_power_flow subs n n' s g n2 c :
  NoDup (map gname (gens n)) -> NoDup (map bname (buses n)) -> with_slacks subs n -> set_controls subs n = Some n' ->
  In (s, Some g) subs -> find_bus_controls s n' = inl (n2, c) ->
  slack_generator (ctl_slack c) = Some g /\
  (exists h, gen_in s n h /\ gname h = g /\ slack_bus (ctl_slack c) = gbus h) /\
  gens n2 = gens n' /\
  (forall h, gen_in s n h -> gbus h <> slack_bus (ctl_slack c) -> ~ follows subs n h -> In (gbus h) (pvs c)).
Proof. exact (fun NG NB W E => power_flow_controls subs n n' NG NB W E s g n2 c). Qed.
Print Assumptions C68_power_flow.

Theorem C68_one_free_bus subs n n' s g n2 c b1 b2 :
  NoDup (map gname (gens n)) -> NoDup (map bname (buses n)) -> with_slacks subs n -> set_controls subs n = Some n' ->
  In (s, Some g) subs -> find_bus_controls s n' = inl (n2, c) ->
  In b1 (pqs c) -> In b2 (pqs c) -> (exists h, gen_in s n h /\ gbus h = b1) -> (exists h, gen_in s n h /\ gbus h = b2) -> b1 = b2.
Proof. exact (one_uncontrolled subs n n' s g n2 c b1 b2). Qed.
Print Assumptions C68_one_free_bus.

(* with the slack generators found for the optimisation this works exactly if every listed sub-network has a
   generator; otherwise the generator table gets a row without a name *)
Theorem C68_defined subs n : NoDup (map gname (gens n)) -> NoDup (map bname (buses n)) -> found subs n ->
  ((exists n', set_controls subs n = Some n') <-> forall s o, In (s, o) subs -> has_generator n s) /\
  ((forall s o, In (s, o) subs -> has_generator n s) -> with_slacks subs n).
Proof. exact (found_slacks subs n). Qed.
Print Assumptions C68_defined.

Definition gn (nm b ct : string) : gen := {| gname := nm; gbus := b; gctrl := ct; gactive := true |}.
Definition bu (nm s : string) : bus := {| bname := nm; bsub := s; bctrl := "PQ"; bgen := None |}.
Definition ex : cnet :=
  {| gens := [gn "z" "a" "PQ"; gn "y" "b" "PQ"; gn "x" "c" "Slack"; gn "w" "d" "PV"; gn "v" "d" "PQ"];
     buses := [bu "a" "0"; bu "b" "0"; bu "c" "0"; bu "e" "0"; bu "d" "1"] |}.
Definition ex_subs := [("0", Some "x"); ("1", Some "w")].

Example C68_ex : found ex_subs ex /\ with_slacks ex_subs ex /\
  exists n', set_controls ex_subs ex = Some n' /\
    map (fun g => (gname g, gctrl g)) (gens n') = [("z", "PV"); ("y", "PQ"); ("x", "Slack"); ("w", "Slack"); ("v", "PQ")] /\
    exists n2 c, find_bus_controls "0" n' = inl (n2, c) /\ pvs c = ["a"] /\ pqs c = ["b"; "e"] /\ slack_bus (ctl_slack c) = "c".
Proof.
  assert (F : found ex_subs ex).
  { split; [repeat (constructor; [cbn; intuition discriminate|]); constructor|].
    intros s o [E|[E|[]]]; injection E as <- <-; do 2 eexists; (split; [vm_compute; reflexivity|reflexivity]). }
  split; [exact F|]. split.
  { apply (C68_defined ex_subs ex); auto; try (repeat (constructor; [cbn; intuition discriminate|]); constructor).
    intros s o [E|[E|[]]]; injection E as <- _.
    - exists (gn "x" "c" "Slack"). split; [cbn; auto|]. exists (bu "c" "0"). cbn; auto 10.
    - exists (gn "w" "d" "PV"). split; [cbn; auto|]. exists (bu "d" "1"). cbn; auto 10. }
  eexists. split; [vm_compute; reflexivity|]. split; [reflexivity|].
  do 2 eexists. split; [vm_compute; reflexivity|]. repeat split.
Qed.

(* "Need some PQ buses": the chosen generator can share its bus with another one, and no bus is PQ *)
Theorem C68_pq_bus_refuted : exists subs n n' s g n2 c h,
  found subs n /\ with_slacks subs n /\ set_controls subs n = Some n' /\ In (s, Some g) subs /\ follows subs n h /\
  gbus h <> slack_bus (ctl_slack c) /\ find_bus_controls s n' = inl (n2, c) /\ pqs c = [].
Proof.
  exists [("0", Some "x")], {| gens := [gn "x" "a" "Slack"; gn "y" "b" "PQ"; gn "z" "b" "PQ"]; buses := [bu "a" "0"; bu "b" "0"] |}.
  eexists. exists "0", "x". do 2 eexists. exists (gn "y" "b" "PQ").
  assert (B : forall m, bus_in "0" {| gens := m; buses := [bu "a" "0"; bu "b" "0"] |} "b") by (intros m; exists (bu "b" "0"); cbn; auto).
  assert (A : forall m, bus_in "0" {| gens := m; buses := [bu "a" "0"; bu "b" "0"] |} "a") by (intros m; exists (bu "a" "0"); cbn; auto).
  split; [split; [repeat (constructor; [cbn; intuition discriminate|]); constructor|]|].
  { intros s o [E|[]]; injection E as <- <-; do 2 eexists; (split; [vm_compute; reflexivity|reflexivity]). }
  split; [split; [repeat (constructor; [cbn; intuition discriminate|]); constructor|]|].
  { intros s o [E|[]]; injection E as <- <-. exists (gn "x" "a" "Slack"). split; [|reflexivity]. split; [cbn; auto|apply A]. }
  split; [vm_compute; reflexivity|]. split; [now left|]. split.
  { exists "0", "x". split; [now left|]. split; [split; [cbn; auto|apply B]|]. split; [discriminate|].
    intros k [[<-|[<-|[<-|[]]]] _] N; cbn in N |- *; try congruence; reflexivity. }
  split; [|split; [vm_compute; reflexivity|reflexivity]]. cbn. discriminate.
Qed.
Print Assumptions C68_pq_bus_refuted.

(* the tables p become the set points for all snapshots, also for those that were not optimised: the demand of
   these is lost *)
Theorem C68_other_snapshots_refuted : exists (d : BalanceModel.load) (sns : nat -> bool) (t : nat),
  sns t = false /\ BalanceModel.d_active d = true /\ ~ (BalanceModel.d_p d t == 0)%Q /\
  (AssignModel.num (AssignModel.load_power sns d AssignModel.none) t == 0)%Q.
Proof.
  exists {| BalanceModel.d_bus := "b"; BalanceModel.d_sign := -(1); BalanceModel.d_p := fun _ => 5%Q; BalanceModel.d_active := true |},
    (fun t => Nat.eqb t 0), 1%nat.
  repeat split. discriminate.
Qed.
Print Assumptions C68_other_snapshots_refuted.
