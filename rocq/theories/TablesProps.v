From Coq Require Import List String Bool ZArith.
From Verif Require Import Assoc TablesModel TablesSpec TablesProofs.
Import ListNotations.
Open Scope string_scope.
Open Scope list_scope.

(* A small registry used by the concrete cases. *)
Definition bus_attrs : meta :=
  [("v_nom", {| akind := KStatic; adefault := VNum 1 |});
   ("v_mag_pu", {| akind := KSeries; adefault := VNum 1 |})].
Definition gen_attrs : meta :=
  [("bus", {| akind := KStatic; adefault := VStr "" |});
   ("p_nom", {| akind := KStatic; adefault := VNum 0 |});
   ("p_max_pu", {| akind := KBoth; adefault := VNum 1 |});
   ("p", {| akind := KSeries; adefault := VNum 0 |})].
Definition ex_metas : dict meta := [("Bus", bus_attrs); ("Generator", gen_attrs)].

Lemma ex_metas_ok cls m : dget ex_metas cls = Some m -> NoDup (dkeys m).
Proof.
  intros H. apply dget_In in H. destruct H as [H|[H|[]]]; injection H as <- <-;
    apply nodupb_spec; reflexivity.
Qed.
Lemma ex_metas_nd : NoDup (dkeys ex_metas).
Proof. apply nodupb_spec. reflexivity. Qed.

Definition ex_ops : list nop :=
  [SetSnapshots ["t0"; "t1"] (VNum 1);
   Add "Bus" false ["a"; "b"] "" false [("v_nom", List1 [VNum 110; VNum 380])];
   Add "Generator" false ["g"; "h"] " x" false
     [("bus", Scalar (VStr "a"));
      ("p_max_pu", Frame ["t0"; "t1"] [("g", [VNum 5; VNum 6]); ("h", [VNum 7; VNum 8])])];
   Add "Generator" true ["k"] "" false [("p_nom", Scalar (VNum 9)); ("p", Scalar (VNum 3))];
   Remove "Bus" ["zzz"] "";
   Remove "Generator" ["g"] " x"].
Definition ex_net : net := nrun ex_metas (init_net ex_metas) ex_ops.

Lemma ex_ops_ok : Forall op_ok ex_ops.
Proof.
  repeat constructor; simpl; try discriminate;
    try (intros k v H; repeat (destruct H as [H|H]; [injection H as <- <-; simpl; auto|]); now destruct H);
    try tauto; try (intuition congruence).
  intros k v H. destruct H as [H|[H|[]]]; injection H as <- <-; simpl; auto.
  intros e [<-|[<-|[]]]; reflexivity.
Qed.

(* C04: whatever the history of add, remove and set_snapshots calls, including calls that raise, the
   tables stay aligned: unique names, every time-series frame indexed by the snapshots with columns
   that are existing components, weightings indexed by the snapshots, no missing static attribute. *)
Theorem C04_tables_invariant :
  forall (metas : dict meta) (ops : list nop),
    NoDup (dkeys metas) -> (forall cls m, dget metas cls = Some m -> NoDup (dkeys m)) ->
    Forall op_ok ops ->
    Inv metas (nrun metas (init_net metas) ops).
Proof. exact (fun metas ops ND OK H => run_Inv metas OK ops ND H). Qed.
Print Assumptions C04_tables_invariant.

Example C04_example : names_of (match dget (comps ex_net) "Generator" with Some c => c | None => empty_comp [] end)
  = ["h x"; "k"] /\ Inv ex_metas ex_net.
Proof.
  split; [reflexivity|]. apply C04_tables_invariant.
  - apply ex_metas_nd.
  - apply ex_metas_ok.
  - apply ex_ops_ok.
Qed.

(* add and remove calls that raise change nothing; the same for set_snapshots with a non-empty index *)
Theorem C04_raising_call_changes_nothing :
  forall (metas : dict meta) (n : net) (o : nop),
    (forall sns dw, o = SetSnapshots sns dw -> sns <> []) ->
    snd (nstep metas n o) <> None -> fst (nstep metas n o) = n.
Proof. exact step_err_unchanged. Qed.
Print Assumptions C04_raising_call_changes_nothing.

Example C04_raising_example :
  snd (nstep ex_metas ex_net (Remove "Bus" ["a"; "zzz"] "")) = Some KeyErr /\
  snd (nstep ex_metas ex_net
         (Add "Bus" false ["c"; "d"] "" false [("v_nom", List1 [VNum 1; VNum 2; VNum 3])])) = Some ValueErr.
Proof. split; reflexivity. Qed.

(* DEFECT (networks.py:741-745): set_snapshots with an empty index raises ValueError, but only after
   the snapshots were replaced, and the network is left inconsistent. *)
Theorem C04_empty_snapshots_refuted :
  exists n : net, Inv ex_metas n /\ snd (nstep ex_metas n (SetSnapshots [] (VNum 1))) = Some ValueErr /\
    ~ Inv ex_metas (fst (nstep ex_metas n (SetSnapshots [] (VNum 1)))).
Proof.
  exists ex_net. split; [exact (proj2 C04_example)|]. split; [reflexivity|].
  intros [_ [H _]]. now apply H.
Qed.
Print Assumptions C04_empty_snapshots_refuted.

(* C05: components not named in a successful add keep their row and every value that can be read.
   With overwrite=True this needs the time-series keywords to be registered attributes. *)
Theorem C05_add_leaves_others :
  forall (metas : dict meta) (n n' : net) (cls : string) (single : bool) (raw : list string)
         (sfx : string) (ow : bool) (kw : list (string * kwval)) (m : meta) (c c' : comp)
         (name attr s : string),
    (forall cls m, dget metas cls = Some m -> NoDup (dkeys m)) -> Inv metas n ->
    NoDup (map fst kw) -> (forall k v, In (k, v) kw -> kw_ok v) ->
    add metas n cls single raw sfx ow kw = (n', None) ->
    dget metas cls = Some m -> dget (comps n) cls = Some c -> dget (comps n') cls = Some c' ->
    (ow = true -> custom_free m single kw) ->
    In name (names_of c) -> ~ In name (map (fun s => String.append s sfx) raw) ->
    dget (static c') name = dget (static c) name /\
    eff m c' name attr s = eff m c name attr s.
Proof.
  exact (fun metas n n' cls single raw sfx ow kw m c c' name attr s OK =>
           add_other metas OK n cls single raw sfx ow kw n' m c c' name attr s).
Qed.
Print Assumptions C05_add_leaves_others.

Definition ex_gen (n : net) : comp :=
  match dget (comps n) "Generator" with Some c => c | None => empty_comp [] end.
Definition ex_add : net :=
  fst (add ex_metas ex_net "Generator" true ["new"] "" false [("p", Scalar (VNum 4))]).

Example C05_others_example :
  snd (add ex_metas ex_net "Generator" true ["new"] "" false [("p", Scalar (VNum 4))]) = None /\
  In "h x" (names_of (ex_gen ex_net)) /\
  eff gen_attrs (ex_gen ex_add) "h x" "p_max_pu" "t1" = Some (VNum 8) /\
  eff gen_attrs (ex_gen ex_add) "k" "p" "t0" = Some (VNum 3) /\
  eff gen_attrs (ex_gen ex_add) "new" "p" "t0" = Some (VNum 4).
Proof. repeat split; vm_compute; auto. Qed.

(* C05: a freshly added component reads back exactly what was passed, NaN and omitted attributes
   reading as the registered default, whatever form the keyword had. *)
Theorem C05_added_values_read_back :
  forall (metas : dict meta) (n n' : net) (cls : string) (single : bool) (raw : list string)
         (sfx : string) (ow : bool) (kw : list (string * kwval)) (m : meta) (c c' : comp)
         (i : nat) (name : string) (j : nat) (s attr : string),
    (forall cls m, dget metas cls = Some m -> NoDup (dkeys m)) -> Inv metas n ->
    NoDup (map fst kw) -> (forall k v, In (k, v) kw -> kw_ok v) ->
    add metas n cls single raw sfx ow kw = (n', None) ->
    dget metas cls = Some m -> dget (comps n) cls = Some c -> dget (comps n') cls = Some c' ->
    nth_error (map (fun s => String.append s sfx) raw) i = Some name ->
    ~ In name (names_of c) ->
    nth_error (snaps n) j = Some s ->
    (forall v, dget kw attr = Some v -> gives_series single v = true -> varying m attr = false ->
       ow = true \/ dget (dyn c) attr = None) ->
    eff m c' name attr s = Some
      (match dget kw attr with
       | Some v => if gives_series single v then given single v i j
                   else if is_nan (given single v i j) && dmem m attr then default_of m attr
                   else given single v i j
       | None => default_of m attr
       end).
Proof.
  exact (fun metas n n' cls single raw sfx ow kw m c c' i name j s attr OK =>
           add_fresh metas OK n cls single raw sfx ow kw n' m c c' i name j s attr).
Qed.
Print Assumptions C05_added_values_read_back.

Example C05_read_back_example :
  let r := add ex_metas ex_net "Generator" false ["u"; "w"] "!" false
             [("p_max_pu", Array2 2 [[VNum 11; VNum 12]; [VNum 13; VNum 14]]);
              ("p_nom", List1 [VNum 21; VNaN])] in
  snd r = None /\
  eff gen_attrs (ex_gen (fst r)) "w!" "p_max_pu" "t0" = Some (VNum 13) /\
  eff gen_attrs (ex_gen (fst r)) "u!" "p_nom" "t0" = Some (VNum 21) /\
  eff gen_attrs (ex_gen (fst r)) "w!" "p_nom" "t0" = Some (VNum 0) /\
  eff gen_attrs (ex_gen (fst r)) "w!" "bus" "t0" = Some (VStr "").
Proof. repeat split. Qed.

(* C05: adding fresh components and removing them again restores every row (and the row order) and
   every value that can be read, for all components and attributes. *)
Theorem C05_add_then_remove :
  forall (metas : dict meta) (n n' : net) (cls : string) (single : bool) (raw : list string)
         (sfx : string) (ow : bool) (kw : list (string * kwval)) (m : meta) (c : comp),
    (forall cls m, dget metas cls = Some m -> NoDup (dkeys m)) -> Inv metas n ->
    NoDup (map fst kw) -> (forall k v, In (k, v) kw -> kw_ok v) ->
    add metas n cls single raw sfx ow kw = (n', None) ->
    dget metas cls = Some m -> dget (comps n) cls = Some c ->
    (ow = true -> custom_free m single kw) ->
    (forall x, In x (map (fun s => String.append s sfx) raw) -> ~ In x (names_of c)) ->
    exists n'' c'',
      remove metas n' cls raw sfx = (n'', None) /\ dget (comps n'') cls = Some c'' /\
      static c'' = static c /\ snaps n'' = snaps n /\ weights n'' = weights n /\
      (forall cls', cls' <> cls -> dget (comps n'') cls' = dget (comps n) cls') /\
      (forall name attr s, eff m c'' name attr s = eff m c name attr s).
Proof.
  exact (fun metas n n' cls single raw sfx ow kw m c OK =>
           add_remove metas OK n cls single raw sfx ow kw n' m c).
Qed.
Print Assumptions C05_add_then_remove.

Example C05_add_remove_example :
  snd (add ex_metas ex_net "Generator" true ["new"] "" false [("p", List1 [VNum 4; VNum 5])]) = None /\
  ~ In "new" (names_of (ex_gen ex_net)).
Proof. split; [reflexivity|]. vm_compute. intuition discriminate. Qed.

(* C05: naming existing components again without overwrite keeps their row, and every value read stays
   the same, with one exception spelled out in full: an attribute passed as a series for which the
   component has no column yet is written, unless the attribute is unregistered and has a frame. *)
Theorem C05_existing_ignored :
  forall (metas : dict meta) (n n' : net) (cls : string) (single : bool) (raw : list string)
         (sfx : string) (kw : list (string * kwval)) (m : meta) (c c' : comp) (i : nat) (name : string),
    (forall cls m, dget metas cls = Some m -> NoDup (dkeys m)) -> Inv metas n ->
    NoDup (map fst kw) -> (forall k v, In (k, v) kw -> kw_ok v) ->
    add metas n cls single raw sfx false kw = (n', None) ->
    dget metas cls = Some m -> dget (comps n) cls = Some c -> dget (comps n') cls = Some c' ->
    nth_error (map (fun s => String.append s sfx) raw) i = Some name ->
    In name (names_of c) ->
    dget (static c') name = dget (static c) name /\
    forall attr j s, nth_error (snaps n) j = Some s ->
      eff m c' name attr s =
      match dget kw attr with
      | None => eff m c name attr s
      | Some v =>
          if gives_series single v then
            match dget (dyn c) attr with
            | None => Some (given single v i j)
            | Some t => if dmem (tcols t) name then eff m c name attr s
                        else if varying m attr then Some (given single v i j)
                        else eff m c name attr s
            end
          else eff m c name attr s
      end.
Proof.
  exact (fun metas n n' cls single raw sfx kw m c c' i name OK =>
           add_existing_full metas OK n cls single raw sfx kw n' m c c' i name).
Qed.
Print Assumptions C05_existing_ignored.

Example C05_existing_example :
  let r := add ex_metas ex_net "Generator" true ["h x"] "" false
             [("p_max_pu", List1 [VNum 70; VNum 80]); ("p_nom", Scalar (VNum 99))] in
  snd r = None /\ eff gen_attrs (ex_gen (fst r)) "h x" "p_max_pu" "t0" = Some (VNum 7) /\
  eff gen_attrs (ex_gen (fst r)) "h x" "p_nom" "t0" = Some (VNum 0).
Proof. repeat split. Qed.

(* DEFECT: the exception is real. add without overwrite says existing components are skipped, yet the
   series passed with them takes effect (io.py:1541-1546 only drops columns already present). *)
Theorem C05_existing_ignored_refuted :
  exists (n : net) (kw : list (string * kwval)),
    Inv ex_metas n /\ In "k" (names_of (ex_gen n)) /\
    snd (add ex_metas n "Generator" true ["k"] "" false kw) = None /\
    eff gen_attrs (ex_gen n) "k" "p_max_pu" "t0" = Some (VNum 1) /\
    eff gen_attrs (ex_gen (fst (add ex_metas n "Generator" true ["k"] "" false kw))) "k" "p_max_pu" "t0"
      = Some (VNum 42).
Proof.
  exists ex_net, [("p_max_pu", List1 [VNum 42; VNum 43])].
  split; [exact (proj2 C04_example)|]. repeat split; vm_compute; auto.
Qed.
Print Assumptions C05_existing_ignored_refuted.

(* DEFECT: overwrite=True with a static value leaves the old time series, which keeps winning. *)
Theorem C05_overwrite_static_refuted :
  exists n : net,
    Inv ex_metas n /\ In "h x" (names_of (ex_gen n)) /\
    let r := add ex_metas n "Generator" true ["h x"] "" true [("p_max_pu", Scalar (VNum 50))] in
    snd r = None /\ sget (ex_gen (fst r)) "h x" "p_max_pu" = Some (VNum 50) /\
    eff gen_attrs (ex_gen (fst r)) "h x" "p_max_pu" "t0" = Some (VNum 7).
Proof.
  exists ex_net. split; [exact (proj2 C04_example)|]. repeat split; vm_compute; auto.
Qed.
Print Assumptions C05_overwrite_static_refuted.

(* DEFECT: series of unregistered attributes. A second add without overwrite silently loses the new
   series; with overwrite the series of all other components are lost (io.py:1563-1566). *)
Theorem C05_custom_series_refuted :
  exists n : net,
    Inv ex_metas n /\ eff gen_attrs (ex_gen n) "h x" "note" "t0" = Some (VNum 1) /\
    (let r := add ex_metas n "Generator" true ["z"] "" false [("note", List1 [VNum 3; VNum 4])] in
     snd r = None /\ eff gen_attrs (ex_gen (fst r)) "z" "note" "t0" = Some VNaN) /\
    (let r := add ex_metas n "Generator" true ["z"] "" true [("note", List1 [VNum 3; VNum 4])] in
     snd r = None /\ eff gen_attrs (ex_gen (fst r)) "h x" "note" "t0" = Some VNaN).
Proof.
  exists (fst (add ex_metas ex_net "Generator" true ["h x"] "" true [("note", List1 [VNum 1; VNum 2])])).
  split.
  - apply add_Inv; [apply ex_metas_ok|exact (proj2 C04_example)| |].
    + repeat constructor; simpl; tauto.
    + intros k v [H|[]]. injection H as <- <-. exact I.
  - repeat split.
Qed.
Print Assumptions C05_custom_series_refuted.

(* C06: after set_snapshots every value at a kept snapshot reads as before, a new snapshot reads as the
   default in every existing series (NaN for unregistered ones), weightings are kept or defaulted. *)
Theorem C06_set_snapshots :
  forall (metas : dict meta) (n n' : net) (sns : list string) (dw : val) (cls : string)
         (m : meta) (c c' : comp),
    Inv metas n -> set_snapshots metas n sns dw = (n', None) ->
    dget metas cls = Some m -> dget (comps n) cls = Some c -> dget (comps n') cls = Some c' ->
    snaps n' = sns /\ static c' = static c /\
    (forall name attr s, In s sns -> In s (snaps n) ->
       eff m c' name attr s = eff m c name attr s) /\
    (forall name attr s t, In s sns -> ~ In s (snaps n) -> In name (names_of c) ->
       dget (dyn c) attr = Some t -> In name (dkeys (tcols t)) ->
       eff m c' name attr s = Some (if varying m attr then default_of m attr else VNaN)) /\
    (forall w s, In w (dkeys (tcols (weights n))) -> In s sns ->
       tget (weights n') w s = Some (match tget (weights n) w s with Some v => v | None => dw end)).
Proof. exact (fun metas n n' sns dw => set_snapshots_eff metas n sns dw n'). Qed.
Print Assumptions C06_set_snapshots.

Example C06_example :
  let r := set_snapshots ex_metas ex_net ["t9"; "t1"] (VNum 5) in
  snd r = None /\
  eff gen_attrs (ex_gen (fst r)) "h x" "p_max_pu" "t1" = Some (VNum 8) /\
  eff gen_attrs (ex_gen (fst r)) "h x" "p_max_pu" "t9" = Some (VNum 1) /\
  tget (weights (fst r)) "stores" "t9" = Some (VNum 5).
Proof. repeat split. Qed.

(* C07: the dense view of a non-output attribute has one column per (selected) component in table
   order, one row per selected snapshot, each cell the value read at that component and snapshot;
   it raises for snapshots outside the network and otherwise never for a registered attribute. *)
Theorem C07_dense_view :
  forall (metas : dict meta) (n : net) (cls : string) (m : meta) (c : comp) (attr : string)
         (sel inds : option (list string)) (r : list (string * list val)),
    Inv metas n -> dget metas cls = Some m -> dget (comps n) cls = Some c ->
    is_series m attr = false ->
    dense n c attr sel inds = Some r ->
    let sns := match sel with Some s => s | None => snaps n end in
    dkeys r = (match inds with None => names_of c
               | Some l => filter (fun x => mem x l) (names_of c) end) /\
    (forall name vals j s, dget r name = Some vals -> nth_error sns j = Some s ->
       eff m c name attr s = nth_error vals j) /\
    (forall name vals, dget r name = Some vals -> List.length vals = List.length sns) /\
    (forall s, In s sns -> In s (snaps n)).
Proof. exact dense_spec. Qed.
Print Assumptions C07_dense_view.

Theorem C07_dense_view_defined :
  forall (metas : dict meta) (n : net) (cls : string) (m : meta) (c : comp) (attr : string)
         (sel inds : option (list string)) (am : ameta),
    Inv metas n -> dget metas cls = Some m -> dget (comps n) cls = Some c ->
    dget m attr = Some am -> akind am <> KSeries ->
    (forall s, In s (match sel with Some l => l | None => snaps n end) -> In s (snaps n)) ->
    exists r, dense n c attr sel inds = Some r.
Proof. exact dense_total. Qed.
Print Assumptions C07_dense_view_defined.

Example C07_example :
  dense ex_net (ex_gen ex_net) "p_max_pu" (Some ["t1"]) (Some ["k"; "h x"; "gone"])
  = Some [("h x", [VNum 8]); ("k", [VNum 1])] /\
  dense ex_net (ex_gen ex_net) "p_max_pu" (Some ["t7"]) None = None.
Proof. split; reflexivity. Qed.
