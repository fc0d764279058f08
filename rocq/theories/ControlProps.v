From Coq Require Import List String Bool Permutation.
From Verif Require Import TablesModel TablesSpec TablesProofs ControlModel ControlSpec ControlProofs.
Import ListNotations.
Open Scope string_scope.
Open Scope list_scope.

Theorem C23_slack_generator s n n' c :
  NoDup (map gname (gens n)) -> NoDup (map bname (buses n)) -> find_bus_controls s n = inl (n', c) ->
  ((forall g, ~ gen_in s n g) /\ slack_generator (ctl_slack c) = None /\
     hd_error (buses_i s n) = Some (slack_bus (ctl_slack c)) /\ gens n' = gens n)
  \/ exists g, chosen s n g /\ slack_generator (ctl_slack c) = Some (gname g) /\ slack_bus (ctl_slack c) = gbus g /\
        Forall2 (gen_after s n g) (gens n) (gens n').
Proof. exact (controls_gens s n n' c). Qed.
Print Assumptions C23_slack_generator.

Theorem C23_bus_controls s n n' c :
  NoDup (map bname (buses n)) -> find_bus_controls s n = inl (n', c) ->
  Forall2 (bus_after s n' (slack_bus (ctl_slack c))) (buses n) (buses n').
Proof. exact (controls_buses s n n' c). Qed.
Print Assumptions C23_bus_controls.

Theorem C23_buses_partitioned s n n' c :
  NoDup (map bname (buses n)) -> find_bus_controls s n = inl (n', c) ->
  Permutation (buses_o c) (buses_i s n) /\
  (forall x, In x (pvs c) <-> exists b, In b (buses n') /\ bsub b = s /\ bname b = x /\ bctrl b = "PV") /\
  (forall x, In x (pqs c) <-> exists b, In b (buses n') /\ bsub b = s /\ bname b = x /\ bctrl b = "PQ").
Proof. exact (controls_partition s n n' c). Qed.
Print Assumptions C23_buses_partitioned.

Theorem C23_one_slack s n n' c :
  NoDup (map gname (gens n)) -> NoDup (map bname (buses n)) -> find_bus_controls s n = inl (n', c) ->
  (exists! b, In b (buses n') /\ bsub b = s /\ bctrl b = "Slack") /\
  ((exists g, gen_in s n g) -> exists! g, gen_in s n' g /\ gctrl g = "Slack").
Proof. exact (controls_one_slack s n n' c). Qed.
Print Assumptions C23_one_slack.

Theorem C23_repeat_changes_nothing s n n' c :
  NoDup (map gname (gens n)) -> NoDup (map bname (buses n)) ->
  find_bus_controls s n = inl (n', c) -> find_bus_controls s n' = inl (n', c).
Proof. exact (controls_idem s n n' c). Qed.
Print Assumptions C23_repeat_changes_nothing.

Theorem C23_succeeds s n : (exists x, bus_in s n x) -> exists r, find_bus_controls s n = inl r.
Proof. exact (controls_total s n). Qed.
Print Assumptions C23_succeeds.

(* two sub-networks; the first has two declared Slack generators and one more at a third bus *)
Definition ex : cnet :=
  {| gens := [ {| gname := "g0"; gbus := "c"; gctrl := "PV"; gactive := true |};
               {| gname := "g1"; gbus := "b"; gctrl := "Slack"; gactive := true |};
               {| gname := "g2"; gbus := "c"; gctrl := "Slack"; gactive := true |};
               {| gname := "g3"; gbus := "z"; gctrl := "Slack"; gactive := true |} ];
     buses := [ {| bname := "a"; bsub := "0"; bctrl := "PV"; bgen := Some "old" |};
                {| bname := "b"; bsub := "0"; bctrl := "PQ"; bgen := None |};
                {| bname := "z"; bsub := "1"; bctrl := "PQ"; bgen := None |};
                {| bname := "c"; bsub := "0"; bctrl := "PQ"; bgen := None |} ] |}.
Example C23_ex :
  NoDup (map gname (gens ex)) /\ NoDup (map bname (buses ex)) /\
  exists n' c, find_bus_controls "0" ex = inl (n', c) /\ buses_o c = ["b"; "c"; "a"] /\
    map gctrl (gens n') = ["PV"; "Slack"; "PV"; "Slack"] /\ map bctrl (buses n') = ["PQ"; "Slack"; "PQ"; "PV"].
Proof.
  split; [apply nodupb_spec; reflexivity|]. split; [apply nodupb_spec; reflexivity|].
  eexists. eexists. split; [reflexivity|]. repeat split.
Qed.

(* an inactive generator may be chosen although an active one exists: sub_network.generators() does not filter *)
Theorem C23_inactive_slack_refuted :
  exists s n n' c g, find_bus_controls s n = inl (n', c) /\ chosen s n g /\ gactive g = false /\
    slack_generator (ctl_slack c) = Some (gname g) /\ exists h, gen_in s n h /\ gactive h = true.
Proof.
  exists "0", {| gens := [ {| gname := "off"; gbus := "a"; gctrl := "PQ"; gactive := false |};
                           {| gname := "on"; gbus := "a"; gctrl := "PQ"; gactive := true |} ];
                 buses := [ {| bname := "a"; bsub := "0"; bctrl := "PQ"; bgen := None |} ] |}.
  eexists. eexists. exists {| gname := "off"; gbus := "a"; gctrl := "PQ"; gactive := false |}.
  split; [reflexivity|].
  assert (B : forall l, bus_in "0" {| gens := l; buses := [ {| bname := "a"; bsub := "0"; bctrl := "PQ"; bgen := None |} ] |} "a").
  { intros l. eexists. split; [left; reflexivity|]. auto. }
  split.
  - split; [split; [simpl; auto|apply B]|]. exists []. eexists. split; [reflexivity|]. right. split.
    + intros h [[<-|[<-|[]]] _]; discriminate.
    + intros h [].
  - split; [reflexivity|]. split; [reflexivity|].
    eexists. split; [split; [right; left; reflexivity|apply B]|reflexivity].
Qed.
Print Assumptions C23_inactive_slack_refuted.

(* a bus that no longer hosts a controlling generator keeps its stale "generator" entry *)
Theorem C23_stale_generator_refuted :
  exists s n n' c b, find_bus_controls s n = inl (n', c) /\ In b (buses n') /\ bctrl b = "PQ" /\
    exists g, bgen b = Some g /\ ~ In g (map gname (gens n')).
Proof.
  exists "0", ex. eexists. eexists. exists {| bname := "a"; bsub := "0"; bctrl := "PQ"; bgen := Some "old" |}.
  split; [reflexivity|]. split; [simpl; auto|]. split; [reflexivity|]. exists "old". split; [reflexivity|].
  simpl. intuition discriminate.
Qed.
Print Assumptions C23_stale_generator_refuted.
