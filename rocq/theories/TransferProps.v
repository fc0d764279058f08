From Coq Require Import List String Bool ZArith.
From Verif Require Import Assoc TablesModel TablesSpec TablesProofs TransferModel TransferProofs.
Import ListNotations.
Open Scope string_scope.
Open Scope list_scope.

(* A small registry used by the concrete cases. *)
Definition tr_bus : meta :=
  [("v_nom", {| akind := KStatic; adefault := VNum 1 |});
   ("sub_network", {| akind := KStatic; adefault := VStr "" |});
   ("v_mag_pu", {| akind := KSeries; adefault := VNum 1 |})].
Definition tr_gen : meta :=
  [("bus", {| akind := KStatic; adefault := VStr "" |});
   ("p_nom", {| akind := KStatic; adefault := VNum 0 |});
   ("p_max_pu", {| akind := KBoth; adefault := VNum 1 |});
   ("p", {| akind := KSeries; adefault := VNum 0 |})].
Definition tr_link : meta :=
  [("bus0", {| akind := KStatic; adefault := VStr "" |});
   ("bus1", {| akind := KStatic; adefault := VStr "" |});
   ("p_nom", {| akind := KStatic; adefault := VNum 0 |})].
Definition tr_metas : dict meta := [("Bus", tr_bus); ("Generator", tr_gen); ("Link", tr_link)].
Definition tr_role (cls : string) : role :=
  if String.eqb cls "Bus" then RBus else if String.eqb cls "Generator" then ROnePort else RBranch.

Lemma tr_metas_ok cls m : dget tr_metas cls = Some m -> NoDup (dkeys m).
Proof.
  intros H. apply dget_In in H. destruct H as [H|[H|[H|[]]]]; injection H as <- <-;
    apply nodupb_spec; reflexivity.
Qed.

Definition tr_ops (pre : string) : list nop :=
  [SetSnapshots ["t0"; "t1"; "t2"] (VNum 1);
   Add "Bus" false ["a"; "b"; "c"] pre false [("v_nom", List1 [VNum 110; VNum 380; VNum 220])];
   Add "Generator" false ["g"; "h"] pre false
     [("bus", List1 [VStr "a"; VStr "c"]);
      ("p_max_pu", Frame ["t0"; "t1"; "t2"] [("g", [VNum 5; VNum 6; VNum 7]); ("h", [VNum 7; VNum 8; VNum 9])])];
   Add "Link" false ["l"; "k"] pre false
     [("bus0", Scalar (VStr "a")); ("bus1", List1 [VStr "b"; VStr "c"]);
      ("bus2", List1 [VStr "c"; VStr "b"])]].
Definition tr_net (pre : string) : net := nrun tr_metas (init_net tr_metas) (tr_ops pre).

Definition comp_of (n : net) (cls : string) : comp :=
  match dget (comps n) cls with Some c => c | None => empty_comp [] end.

Definition eff_of (n : net) (cls name attr s : string) : option val :=
  eff (meta_of tr_metas cls) (comp_of n cls) name attr s.

Definition opt_net (o : option net) : net := match o with Some n => n | None => init_net tr_metas end.

(* C09: n[time, buses] holds exactly the selected buses, the one-port components attached to them and
   the branches between them; every value read from it at a selected snapshot is the one of n. *)
Theorem C09_slice :
  forall (metas : dict meta), (forall cls m, dget metas cls = Some m -> NoDup (dkeys m)) ->
  forall (role_of : string -> role) (n : net) (key time : list string) (n' : net)
         (cls : string) (m : meta) (c c' : comp),
    Inv metas n -> slice metas role_of n key time = Some n' ->
    dget metas cls = Some m -> dget (comps n) cls = Some c -> dget (comps n') cls = Some c' ->
    is_series m "sub_network" = false -> filled m c ->
    names_of c' =
      (match role_of cls with
       | RBus => key
       | ROnePort => map fst (filter (fun e => is_name_in (cell (snd e) "bus") key) (static c))
       | RBranch => map fst (filter (fun e => is_name_in (cell (snd e) "bus0") key &&
                                              is_name_in (cell (snd e) "bus1") key) (static c))
       | ROther => names_of c
       | RSkip => []
       end) /\
    NoDup (names_of c') /\
    (forall x, In x (names_of c') -> In x (names_of c)) /\
    (forall name attr s, In name (names_of c') -> In s time ->
       (role_of cls = RBus -> attr <> "sub_network") ->
       eff m c' name attr s = eff m c name attr s).
Proof. exact slice_correct. Qed.
Print Assumptions C09_slice.

(* hence every bus that a one-port component or a branch end of the slice refers to is in the slice *)
Theorem C09_slice_closed :
  forall (metas : dict meta), (forall cls m, dget metas cls = Some m -> NoDup (dkeys m)) ->
  forall (role_of : string -> role) (n : net) (key time : list string) (n' : net)
         (cls : string) (m : meta) (c c' : comp) (name s attr : string),
    Inv metas n -> slice metas role_of n key time = Some n' ->
    dget metas cls = Some m -> dget (comps n) cls = Some c -> dget (comps n') cls = Some c' ->
    is_series m "sub_network" = false -> filled m c ->
    (role_of cls = ROnePort /\ attr = "bus" \/
     role_of cls = RBranch /\ (attr = "bus0" \/ attr = "bus1")) ->
    is_series m attr = false -> dget (dyn c) attr = None ->
    In name (names_of c') -> In s time ->
    exists b, eff m c' name attr s = Some (VStr b) /\ In b key.
Proof. exact slice_closed. Qed.
Print Assumptions C09_slice_closed.

(* ... with the selected snapshots and their weightings *)
Theorem C09_slice_snapshots :
  forall (metas : dict meta) (role_of : string -> role) (n : net) (key time : list string) (n' : net),
    slice metas role_of n key time = Some n' ->
    (forall s, In s time -> In s (snaps n)) /\ time <> [] /\ snaps n' = time /\
    tindex (weights n') = time /\
    (forall w s, In s time -> In w (dkeys (tcols (weights n))) ->
       tget (weights n') w s = Some (match tget (weights n) w s with Some v => v | None => VNaN end)).
Proof.
  exact (fun metas role_of n key time n' H =>
    let x := slice_inv metas role_of n key time n' H in
    match x with
    | conj a (conj b (conj c (conj d (conj e _)))) => conj a (conj b (conj c (conj d e)))
    end).
Qed.
Print Assumptions C09_slice_snapshots.

(* known snapshots and buses: the slice exists; an unknown snapshot or bus, or no snapshot: it raises *)
Theorem C09_slice_defined :
  forall (metas : dict meta) (role_of : string -> role) (n : net) (key time : list string),
    Inv metas n -> NoDup (dkeys metas) ->
    (forall s, In s time -> In s (snaps n)) -> time <> [] -> NoDup key ->
    (forall cls c, role_of cls = RBus -> dget (comps n) cls = Some c ->
       forall b, In b key -> In b (names_of c)) ->
    exists n', slice metas role_of n key time = Some n'.
Proof. exact slice_defined. Qed.
Print Assumptions C09_slice_defined.

Theorem C09_slice_refused :
  forall (metas : dict meta) (role_of : string -> role) (n : net) (key time : list string),
    time = [] \/ (exists s, In s time /\ ~ In s (snaps n)) \/
    (exists cls c b, role_of cls = RBus /\ dget (comps n) cls = Some c /\ In b key /\ ~ In b (names_of c)) ->
    slice metas role_of n key time = None.
Proof. exact slice_refused. Qed.
Print Assumptions C09_slice_refused.

Example C09_example :
  let n' := opt_net (slice tr_metas tr_role (tr_net "") ["b"; "a"] ["t2"; "t0"]) in
  names_of (comp_of n' "Bus") = ["b"; "a"] /\
  names_of (comp_of n' "Generator") = ["g"] /\ names_of (comp_of n' "Link") = ["l"] /\
  eff_of n' "Generator" "g" "p_max_pu" "t2" = Some (VNum 7) /\ snaps n' = ["t2"; "t0"].
Proof. repeat split; reflexivity. Qed.

(* DEFECT (networks.py:1639-1647): only bus0 and bus1 of a branch are checked, so a link whose bus2
   is outside the selection is kept and refers to a bus the slice does not have. *)
Theorem C09_multiport_refuted :
  exists n key time n',
    slice tr_metas tr_role n key time = Some n' /\
    exists name b, In name (names_of (comp_of n' "Link")) /\
      eff_of n' "Link" name "bus2" (hd "" time) = Some (VStr b) /\
      ~ In b (names_of (comp_of n' "Bus")).
Proof.
  exists (tr_net ""), ["a"; "b"], ["t0"].
  eexists. split; [reflexivity|]. exists "l", "c".
  split; [now left|]. split; [reflexivity|]. intros [H|[H|[]]]; discriminate.
Qed.
Print Assumptions C09_multiport_refuted.

(* C12: a merge that succeeds has, for every merged class, the components of both networks, all those
   of n untouched and all those of other reading the same values *)
Theorem C12_merge :
  forall (metas : dict meta), (forall cls m, dget metas cls = Some m -> NoDup (dkeys m)) ->
  forall (n other : net) (classes : list string) (wt : bool) (n' : net)
         (cls : string) (m : meta) (c oc c' : comp),
    Inv metas n -> Inv metas other -> NoDup classes ->
    merge metas n other classes wt = inl n' -> In cls classes ->
    dget metas cls = Some m -> dget (comps n) cls = Some c -> dget (comps other) cls = Some oc ->
    dget (comps n') cls = Some c' -> filled m oc ->
    snaps n' = snaps n /\ weights n' = weights n /\
    names_of c' = names_of c ++ names_of oc /\ NoDup (names_of c') /\
    (forall name attr s, In name (names_of c) ->
       dget (static c') name = dget (static c) name /\
       eff m c' name attr s = eff m c name attr s) /\
    (forall name attr s, In name (names_of oc) -> In s (snaps n) -> wt = true ->
       (varying m attr = true \/ dget (dyn c) attr = None \/ dget (dyn oc) attr = None) ->
       eff m c' name attr s = eff m oc name attr s) /\
    (forall name attr s row, In name (names_of oc) -> In s (snaps n) -> wt = false ->
       dget (static oc) name = Some row ->
       eff m c' name attr s = Some (if is_series m attr then default_of m attr else cell row attr)).
Proof. exact merge_correct. Qed.
Print Assumptions C12_merge.

Theorem C12_merge_skipped_classes :
  forall (metas : dict meta) (n other : net) (classes : list string) (wt : bool) (n' : net) (cls : string),
    NoDup classes -> merge metas n other classes wt = inl n' -> ~ In cls classes ->
    dget (comps n') cls = dget (comps n) cls.
Proof. exact merge_skipped. Qed.
Print Assumptions C12_merge_skipped_classes.

(* a name in both networks, or other snapshots when time series are merged: ValueError *)
Theorem C12_overlap_refused :
  forall (metas : dict meta) (n other : net) (classes : list string) (wt : bool)
         (cls : string) (oc c : comp) (x : string),
    In cls classes -> dget (comps other) cls = Some oc -> dget (comps n) cls = Some c ->
    In x (names_of oc) -> In x (names_of c) -> merge metas n other classes wt = inr ValueErr.
Proof. exact merge_refused. Qed.
Print Assumptions C12_overlap_refused.

Theorem C12_other_snapshots_refused :
  forall (metas : dict meta) (n other : net) (classes : list string),
    snaps n <> snaps other -> merge metas n other classes true = inr ValueErr.
Proof. exact merge_refused_snapshots. Qed.
Print Assumptions C12_other_snapshots_refused.

Theorem C12_other_weightings_refused :
  forall (metas : dict meta) (n other : net) (classes : list string),
    weights n <> weights other -> merge metas n other classes true = inr ValueErr.
Proof. exact merge_refused_weights. Qed.
Print Assumptions C12_other_weightings_refused.

(* nothing else is refused *)
Theorem C12_merge_defined :
  forall (metas : dict meta) (n other : net) (classes : list string) (wt : bool),
    Inv metas n -> Inv metas other -> (forall cls, In cls classes -> dmem metas cls = true) ->
    (forall cls oc c, In cls classes -> dget (comps other) cls = Some oc -> dget (comps n) cls = Some c ->
       forall x, In x (names_of oc) -> ~ In x (names_of c)) ->
    (wt = true -> snaps n = snaps other /\ weights n = weights other) ->
    exists n', merge metas n other classes wt = inl n'.
Proof. exact merge_defined. Qed.
Print Assumptions C12_merge_defined.

Definition or_init (r : net + nerr) : net := match r with inl n => n | inr _ => init_net tr_metas end.

Example C12_example :
  let n' := or_init (merge tr_metas (tr_net "") (tr_net "2") ["Bus"; "Generator"; "Link"] true) in
  names_of (comp_of n' "Generator") = ["g"; "h"; "g2"; "h2"] /\
  eff_of n' "Generator" "h2" "p_max_pu" "t1" = Some (VNum 8) /\
  eff_of n' "Generator" "g" "p_max_pu" "t1" = Some (VNum 6) /\
  merge tr_metas (tr_net "") (tr_net "") ["Bus"; "Generator"; "Link"] true = inr ValueErr.
Proof. repeat split; vm_compute; reflexivity. Qed.

(* DEFECT: a custom time series both networks have is taken from n only (io.py:1488-1496 skips it),
   so other's values are lost without an error. *)
Definition tr_custom (pre : string) : net :=
  fst (nstep tr_metas (tr_net pre)
    (Add "Generator" false ["x"] pre false
       [("extra", Frame ["t0"; "t1"; "t2"] [(String.append "x" pre, [VNum 1; VNum 2; VNum 3])])])).
Theorem C12_custom_series_refuted :
  exists n other n',
    merge tr_metas n other ["Bus"; "Generator"; "Link"] true = inl n' /\
    exists name s v, In name (names_of (comp_of other "Generator")) /\ v <> VNaN /\
      eff_of other "Generator" name "extra" s = Some v /\
      eff_of n' "Generator" name "extra" s = Some VNaN.
Proof.
  exists (tr_custom ""), (tr_custom "2"). eexists. split; [vm_compute; reflexivity|].
  exists "x2", "t1", (VNum 2). split; [vm_compute; auto|]. split; [discriminate|].
  split; vm_compute; reflexivity.
Qed.
Print Assumptions C12_custom_series_refuted.

(* C13: writing a class and reading it back succeeds and gives the same components; every value read
   is unchanged although default-valued columns are not written, except for the columns PyPSA derives
   and for a time series that is the default at all snapshots on top of a non-default static value *)
Theorem C13_round_trip :
  forall (m : meta) (sns : list string) (c c' : comp),
    NoDup (dkeys m) -> good_comp sns m c -> filled m c ->
    import_comp m sns (export_comp m c) = inl c' ->
    names_of c' = names_of c /\ good_comp sns m c' /\
    forall name attr s, In name (names_of c) -> In s sns -> ~ In attr derived ->
      ~ hidden_default m c name attr ->
      eff m c' name attr s = eff m c name attr s.
Proof. exact roundtrip. Qed.
Print Assumptions C13_round_trip.

Theorem C13_import_succeeds :
  forall (m : meta) (sns : list string) (c : comp),
    NoDup (dkeys m) -> good_comp sns m c ->
    exists c', import_comp m sns (export_comp m c) = inl c'.
Proof. exact import_never_fails. Qed.
Print Assumptions C13_import_succeeds.

Definition rt (c : comp) : comp :=
  match import_comp tr_gen ["t0"; "t1"; "t2"] (export_comp tr_gen c) with inl c => c | inr _ => c end.

(* the default-valued p_nom is not written and comes back, the series too *)
Example C13_example :
  let c := comp_of (tr_net "") "Generator" in
  map (fun e => dkeys (snd e)) (match export_comp tr_gen c with Some x => x_static x | None => [] end)
    = [["bus"]; ["bus"]] /\
  eff tr_gen (rt c) "g" "p_nom" "t0" = Some (VNum 0) /\
  eff tr_gen (rt c) "h" "p_max_pu" "t1" = Some (VNum 8).
Proof. repeat split; vm_compute; reflexivity. Qed.

(* DEFECT (io.py:824-836): p_max_pu = 5 with a series of ones is written without the series *)
Theorem C13_hidden_default_refuted :
  exists n name s,
    Inv tr_metas n /\
    (exists c, dget (comps n) "Generator" = Some c /\ In name (names_of c) /\ In s (snaps n) /\
       eff tr_gen (rt c) name "p_max_pu" s <> eff tr_gen c name "p_max_pu" s).
Proof.
  pose (ops := tr_ops "" ++ [Add "Generator" true ["z"] "" false [("p_max_pu", Scalar (VNum 5))];
                            Add "Generator" true ["z"] "" false
                              [("p_max_pu", Ser ["t0"; "t1"; "t2"] [VNum 1; VNum 1; VNum 1])]]).
  exists (nrun tr_metas (init_net tr_metas) ops), "z", "t0". split.
  - apply run_Inv.
    + exact tr_metas_ok.
    + apply nodupb_spec. reflexivity.
    + repeat constructor; simpl; try discriminate;
      intuition (try congruence).
      all: try (repeat match goal with H : _ \/ _ |- _ => destruct H end;
                match goal with
                | H : (_, _) = (_, _) |- _ => injection H as <- <-; simpl; auto
                | H : False |- _ => destruct H
                | _ => idtac end).
      all: try (intros e [<-|[<-|[]]]; reflexivity).
  - eexists. split; [vm_compute; reflexivity|]. split; [vm_compute; auto|]. split; [vm_compute; auto|].
    vm_compute. discriminate.
Qed.
Print Assumptions C13_hidden_default_refuted.

(* C48: n.copy(snapshots=S) keeps every component and every value at the snapshots of S *)
Theorem C48_copy_snapshots :
  forall (metas : dict meta), (forall cls m, dget metas cls = Some m -> NoDup (dkeys m)) ->
  forall (n : net) (sns : list string) (n' : net) (cls : string) (m : meta) (c c' : comp),
    Inv metas n -> copy metas n (Some sns) None = Some n' -> sns <> [] ->
    dget metas cls = Some m -> dget (comps n) cls = Some c -> dget (comps n') cls = Some c' ->
    filled m c ->
    snaps n' = sns /\ names_of c' = names_of c /\
    (forall name attr s, In name (names_of c) -> In s sns ->
       eff m c' name attr s = eff m c name attr s).
Proof. exact copy_correct. Qed.
Print Assumptions C48_copy_snapshots.

Theorem C48_copy_defined :
  forall (metas : dict meta) (n : net) (sns : list string),
    Inv metas n -> NoDup (dkeys metas) -> (forall s, In s sns -> In s (snaps n)) -> sns <> [] ->
    exists n', copy metas n (Some sns) None = Some n'.
Proof. exact copy_defined. Qed.
Print Assumptions C48_copy_defined.

Theorem C48_unknown_snapshot_refused :
  forall (metas : dict meta) (n : net) (sns : list string) (wt : option bool) (s : string),
    In s sns -> ~ In s (snaps n) -> copy metas n (Some sns) wt = None.
Proof. exact copy_refused. Qed.
Print Assumptions C48_unknown_snapshot_refused.

(* without arguments the copy is the network *)
Theorem C48_plain_copy :
  forall (metas : dict meta) (n : net), copy metas n None None = Some n.
Proof. exact (fun metas n => eq_refl). Qed.
Print Assumptions C48_plain_copy.

Example C48_example :
  let n' := opt_net (copy tr_metas (tr_net "") (Some ["t2"; "t0"]) None) in
  snaps n' = ["t2"; "t0"] /\ names_of (comp_of n' "Generator") = ["g"; "h"] /\
  eff_of n' "Generator" "h" "p_max_pu" "t2" = Some (VNum 9).
Proof. repeat split; vm_compute; reflexivity. Qed.

(* DEFECT (networks.py:1511-1528): with_time is inverted. copy(with_time=True) drops the snapshots and
   all time series, copy(with_time=False) keeps them. *)
Theorem C48_with_time_refuted :
  exists n nt nf,
    copy tr_metas n None (Some true) = Some nt /\ copy tr_metas n None (Some false) = Some nf /\
    snaps nt <> snaps n /\ eff_of nt "Generator" "g" "p_max_pu" "t0" <> eff_of n "Generator" "g" "p_max_pu" "t0" /\
    nf = n /\ snaps n = ["t0"; "t1"; "t2"].
Proof.
  exists (tr_net ""). eexists. eexists. split; [vm_compute; reflexivity|]. split; [reflexivity|].
  split; [vm_compute; discriminate|]. split; [vm_compute; discriminate|]. split; reflexivity.
Qed.
Print Assumptions C48_with_time_refuted.
