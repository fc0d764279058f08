(* C87: a network written to a file or folder that holds an earlier export, and read back. *)
From Coq Require Import List String Bool ZArith Ascii Permutation Lia.
From Verif Require Import Assoc TablesModel TablesSpec TablesProofs TransferModel TransferProofs
  FileModel FileSpec FileProofs FileRead FileRound TransferProps.
Import ListNotations.
Open Scope string_scope.
Open Scope list_scope.

(* Writing onto a store that fits succeeds and is read like a first export, whatever the order in which
   the classes are visited *)
Theorem C87_again :
  forall (reg : dict class), registry reg ->
  forall (f : format) (d : doc) (order order' : list string) (old : store),
    any_order reg order -> any_order reg order' -> Inv (metas_of reg) (d_net d) ->
    NoDup (dkeys old) -> fits reg f (d_net d) old ->
    exists st st', export reg f d order old = (st, None) /\ export reg f d order' [] = (st', None) /\
      read_alike (import reg f st) (import reg f st').
Proof. exact again_full. Qed.
Print Assumptions C87_again.

(* in particular onto the export of a network that has grown since *)
Theorem C87_onto_former :
  forall (reg : dict class), registry reg ->
  forall (f : format) (before after : doc) (order1 order2 order3 : list string),
    any_order reg order1 -> any_order reg order2 ->
    Inv (metas_of reg) (d_net before) -> Inv (metas_of reg) (d_net after) ->
    grown f (d_net before) (d_net after) -> any_order reg order3 ->
    exists st1 st2 st3,
      export reg f before order1 [] = (st1, None) /\ export reg f after order2 st1 = (st2, None) /\
      export reg f after order3 [] = (st3, None) /\
      read_alike (import reg f st2) (import reg f st3).
Proof. exact onto_former. Qed.
Print Assumptions C87_onto_former.

(* Excel and HDF5: without time series of attributes of the user's own, any network may follow any *)
Lemma registered (reg : dict class) (R : registry reg)
  (f : format) (before after : doc) (order1 order2 order3 : list string) :
  f <> CSV ->
  any_order reg order1 -> any_order reg order2 -> any_order reg order3 ->
  Inv (metas_of reg) (d_net before) -> Inv (metas_of reg) (d_net after) ->
  (forall cls k c a, In (cls, k) reg -> dget (comps (d_net before)) cls = Some c ->
     In a (dkeys (dyn c)) -> varying (k_meta k) a = true) ->
  exists st1 st2 st3,
    export reg f before order1 [] = (st1, None) /\ export reg f after order2 st1 = (st2, None) /\
    export reg f after order3 [] = (st3, None) /\
    read_alike (import reg f st2) (import reg f st3).
Proof.
  intros N O1 O2 O3 IV IV' V. apply onto_former; auto.
  intros cls c c' Dc Dc' _. split; [congruence|]. intros a Ia.
  assert (Ic : In cls (dkeys reg)).
  { destruct IV as (_ & _ & _ & _ & K & _). apply dget_Some_keys in Dc. rewrite K in Dc.
    unfold metas_of, dkeys in Dc. rewrite map_map in Dc. exact Dc. }
  assert (Ik := in_reg reg cls Ic). set (k := class_of reg cls) in *.
  assert (Va := V cls k c a Ik Dc Ia). unfold varying in Va.
  destruct (dget (k_meta k) a) as [am|] eqn:Da; [|discriminate].
  assert (G := good_class reg R _ _ _ IV' Ik).
  assert (Ec : comp_or_empty (d_net after) cls = c') by (unfold comp_or_empty; now rewrite Dc').
  rewrite Ec in G. destruct G as (_ & _ & _ & _ & G & _). apply (G a am Da).
  intros Z. rewrite Z in Va. discriminate.
Qed.

Theorem C87_registered :
  forall (reg : dict class), registry reg ->
  forall (f : format) (before after : doc) (order1 order2 order3 : list string),
    f <> CSV ->
    any_order reg order1 -> any_order reg order2 -> any_order reg order3 ->
    Inv (metas_of reg) (d_net before) -> Inv (metas_of reg) (d_net after) ->
    (forall cls k c a, In (cls, k) reg -> dget (comps (d_net before)) cls = Some c ->
       In a (dkeys (dyn c)) -> varying (k_meta k) a = true) ->
    exists st1 st2 st3,
      export reg f before order1 [] = (st1, None) /\ export reg f after order2 st1 = (st2, None) /\
      export reg f after order3 [] = (st3, None) /\
      read_alike (import reg f st2) (import reg f st3).
Proof. exact registered. Qed.
Print Assumptions C87_registered.

(* what is read is the network that was written: names, texts, snapshots, weightings, and every value
   (with the two exceptions of C13) *)
Theorem C87_round_trip :
  forall (reg : dict class), registry reg ->
  forall (f : format) (d : doc) (order : list string) (old : store),
    any_order reg order -> Inv (metas_of reg) (d_net d) ->
    NoDup (dkeys old) -> fits reg f (d_net d) old ->
    (exists c, dget (comps (d_net d)) "Bus" = Some c /\ static c <> []) ->
    exists st d', export reg f d order old = (st, None) /\ import reg f st = inl d' /\
      d_network d' = d_network d /\ d_crs d' = d_crs d /\ d_meta d' = d_meta d /\
      d_periods d' = d_periods d /\
      snaps (d_net d') = snaps (d_net d) /\
      (forall col s, In col ["objective"; "generators"; "stores"] ->
         In col (dkeys (tcols (weights (d_net d)))) ->
         tget (weights (d_net d')) col s = tget (weights (d_net d)) col s) /\
      (forall cls k c, In (cls, k) reg -> dget (comps (d_net d)) cls = Some c -> filled (k_meta k) c ->
         exists c', dget (comps (d_net d')) cls = Some c' /\ names_of c' = names_of c /\
           forall name attr s, In name (names_of c) -> In s (snaps (d_net d)) -> ~ In attr derived ->
             ~ hidden_default (k_meta k) c name attr ->
             eff (k_meta k) c' name attr s = eff (k_meta k) c name attr s).
Proof. exact round_trip. Qed.
Print Assumptions C87_round_trip.

(* ---- a concrete registry and concrete networks ---- *)
Definition f_reg : dict class :=
  [("Bus", {| k_list := "buses"; k_meta := tr_bus |});
   ("Generator", {| k_list := "generators"; k_meta := tr_gen |});
   ("Link", {| k_list := "links"; k_meta := tr_link |})].
Definition f_order : list string := ["Link"; "Bus"; "Generator"].

Lemma f_reg_ok : registry f_reg.
Proof.
  split; [apply nodupb_spec; reflexivity|]. split; [apply nodupb_spec; reflexivity|].
  split; [now left|].
  intros cls k [H|[H|[H|[]]]]; injection H as <- <-; (split; [|apply nodupb_spec; reflexivity]);
    (split; [reflexivity|]; split; [reflexivity|]; cbn; intuition discriminate).
Qed.

Lemma f_order_ok : any_order f_reg f_order.
Proof.
  unfold any_order, f_reg, f_order. cbn.
  apply Permutation_trans with ["Bus"; "Link"; "Generator"].
  - constructor. constructor.
  - constructor.
Qed.

Definition in_doc (n : net) : doc :=
  {| d_net := n; d_network := "net"; d_crs := "EPSG:4326"; d_meta := "{}"; d_periods := "" |}.
Definition f_run (ops : list nop) : net := nrun tr_metas (init_net tr_metas) (tr_ops "" ++ ops).

Lemma tr_ops_ok : Forall op_ok (tr_ops "").
Proof.
  repeat constructor; simpl; try discriminate; intuition (try congruence).
  all: try (repeat match goal with H : _ \/ _ |- _ => destruct H end;
            match goal with
            | H : (_, _) = (_, _) |- _ => injection H as <- <-; simpl; auto
            | H : False |- _ => destruct H
            | _ => idtac end).
  all: try (intros e [<-|[<-|[]]]; reflexivity).
Qed.

Lemma f_run_ok ops : Forall op_ok ops -> Inv (metas_of f_reg) (f_run ops).
Proof.
  intros H. change (metas_of f_reg) with tr_metas. apply run_Inv.
  - exact tr_metas_ok.
  - apply nodupb_spec. reflexivity.
  - apply Forall_app. split; [exact tr_ops_ok|exact H].
Qed.

(* two buses, two generators with series, two links; then one more generator *)
Definition f_before : doc := in_doc (f_run []).
Definition f_more : doc := in_doc (f_run [Add "Generator" true ["i"] "" false [("bus", Scalar (VStr "b"))]]).
(* then without generators *)
Definition f_less : doc := in_doc (f_run [Remove "Generator" ["g"; "h"] ""]).
Definition f_short : doc :=
  in_doc (f_run [Remove "Generator" ["g"; "h"] ""; SetSnapshots ["t1"] (VNum 1)]).

Lemma f_before_ok : Inv (metas_of f_reg) (d_net f_before).
Proof. apply f_run_ok. constructor. Qed.
Lemma f_more_ok : Inv (metas_of f_reg) (d_net f_more).
Proof.
  apply f_run_ok. repeat constructor; simpl; auto. intros k v [H|[]]. injection H as <- <-. exact I.
Qed.
Lemma f_less_ok : Inv (metas_of f_reg) (d_net f_less).
Proof. apply f_run_ok. repeat constructor. Qed.
Lemma f_short_ok : Inv (metas_of f_reg) (d_net f_short).
Proof. apply f_run_ok. repeat constructor; simpl; auto; discriminate. Qed.

Definition exported (f : format) (d : doc) (old : store) : store := fst (export f_reg f d f_order old).
Definition read_names (f : format) (st : store) (cls : string) : list string :=
  match import f_reg f st with
  | inl d => names_of (comp_or_empty (d_net d) cls)
  | inr _ => ["error"]
  end.
Definition read_eff (f : format) (st : store) (name attr s : string) : option val :=
  match import f_reg f st with
  | inl d => eff tr_gen (comp_or_empty (d_net d) "Generator") name attr s
  | inr _ => None
  end.

(* the files of the folder, and a value read back from a folder written twice *)
Example C87_ex :
  dkeys (exported CSV f_before []) =
    ["network.csv"; "crs.json"; "meta.json"; "snapshots.csv"; "investment_periods.csv"; "links.csv";
     "buses.csv"; "generators.csv"; "generators-p_max_pu.csv"] /\
  (forall f, grown f (d_net f_before) (d_net f_more)) /\
  read_names CSV (exported CSV f_more (exported CSV f_before [])) "Generator" = ["g"; "h"; "i"] /\
  read_eff CSV (exported CSV f_more (exported CSV f_before [])) "h" "p_max_pu" "t1" = Some (VNum 8) /\
  read_eff Excel (exported Excel f_more (exported Excel f_before [])) "i" "bus" "t0" = Some (VStr "b") /\
  (* Excel and HDF5 forget the generators that were removed *)
  read_names Excel (exported Excel f_less (exported Excel f_before [])) "Generator" = [] /\
  read_names HDF5 (exported HDF5 f_less (exported HDF5 f_before [])) "Generator" = [].
Proof.
  split; [vm_compute; reflexivity|]. split.
  - intros f cls c c' H H'. unfold f_before, f_more in *.
    assert (Ic : In cls ["Bus"; "Generator"; "Link"]).
    { apply dget_Some_keys in H. exact H. }
    destruct Ic as [<-|[<-|[<-|[]]]]; vm_compute in H, H'; injection H as <-; injection H' as <-;
      intros _; (split; [intros _; discriminate|]); intros a; cbn; tauto.
  - repeat split; vm_compute; reflexivity.
Qed.

(* DEFECT (io.py:271-275): remove_static looks into a folder named like the class, so the table of a
   class that has no components any more stays and its components are back after reading *)
Theorem C87_csv_removed_refuted :
  exists before after st1 st2 st3 : _,
    Inv (metas_of f_reg) (d_net before) /\ Inv (metas_of f_reg) (d_net after) /\
    export f_reg CSV before f_order [] = (st1, None) /\
    export f_reg CSV after f_order st1 = (st2, None) /\
    export f_reg CSV after f_order [] = (st3, None) /\
    names_of (comp_or_empty (d_net after) "Generator") = [] /\
    read_names CSV st2 "Generator" = ["g"; "h"] /\ read_names CSV st3 "Generator" = [] /\
    ~ read_alike (import f_reg CSV st2) (import f_reg CSV st3).
Proof.
  exists f_before, f_less, (exported CSV f_before []),
    (exported CSV f_less (exported CSV f_before [])), (exported CSV f_less []).
  split; [exact f_before_ok|]. split; [exact f_less_ok|].
  do 6 (split; [vm_compute; reflexivity|]).
  intros A. vm_compute in A. destruct A as ((_ & _ & _ & A) & _).
  specialize (A "Generator" _ _ eq_refl eq_refl). destruct A as [A _]. discriminate.
Qed.
Print Assumptions C87_csv_removed_refuted.

(* the same with fewer snapshots: the folder cannot be read at all *)
Theorem C87_csv_unreadable_refuted :
  exists before after st1 st2 : _,
    Inv (metas_of f_reg) (d_net before) /\ Inv (metas_of f_reg) (d_net after) /\
    export f_reg CSV before f_order [] = (st1, None) /\
    export f_reg CSV after f_order st1 = (st2, None) /\
    import f_reg CSV st2 = inr FValue.
Proof.
  exists f_before, f_short, (exported CSV f_before []), (exported CSV f_short (exported CSV f_before [])).
  split; [exact f_before_ok|]. split; [exact f_short_ok|].
  do 2 (split; [vm_compute; reflexivity|]). vm_compute. reflexivity.
Qed.
Print Assumptions C87_csv_unreadable_refuted.

(* and a file of the user's in a folder named like an empty class is deleted before the export fails *)
Theorem C87_csv_subfolder_refuted :
  exists (d : doc) (old st : store) (e : ferr),
    Inv (metas_of f_reg) (d_net d) /\ NoDup (dkeys old) /\
    dget old "generators/mine.csv" <> None /\
    export f_reg CSV d f_order old = (st, Some e) /\ dget st "generators/mine.csv" = None.
Proof.
  exists f_less, [("generators/mine.csv", IText "1")],
    (exported CSV f_less [("generators/mine.csv", IText "1")]), FType.
  split; [exact f_less_ok|]. split; [apply nodupb_spec; reflexivity|].
  split; [discriminate|]. split; vm_compute; reflexivity.
Qed.
Print Assumptions C87_csv_subfolder_refuted.

(* a time series of an attribute of the user's own is never removed (io.py:827-844 visits the
   attributes of the network that is written) *)
Definition f_own : doc := in_doc (f_run
  [Add "Generator" false ["i"; "j"] "" false
     [("mine", Frame ["t0"; "t1"; "t2"] [("i", [VNum 4; VNum 4; VNum 4]); ("j", [VNum 4; VNum 4; VNum 4])])]]).
Lemma f_own_ok : Inv (metas_of f_reg) (d_net f_own).
Proof.
  apply f_run_ok. repeat constructor; simpl; auto. intros k v [H|[]]. injection H as <- <-.
  intros e [<-|[<-|[]]]; reflexivity.
Qed.

Theorem C87_own_series_refuted :
  forall f, f <> HDF5 ->
  exists before after st1 st2 st3 : _,
    Inv (metas_of f_reg) (d_net before) /\ Inv (metas_of f_reg) (d_net after) /\
    export f_reg f before f_order [] = (st1, None) /\
    export f_reg f after f_order st1 = (st2, None) /\
    export f_reg f after f_order [] = (st3, None) /\
    dget (dyn (comp_or_empty (d_net after) "Generator")) "mine" = None /\
    ~ read_alike (import f_reg f st2) (import f_reg f st3).
Proof.
  intros f N. exists f_own, f_more, (exported f f_own []),
    (exported f f_more (exported f f_own [])), (exported f f_more []).
  split; [exact f_own_ok|]. split; [exact f_more_ok|].
  destruct f; [| |congruence].
  - do 4 (split; [vm_compute; reflexivity|]).
    intros A. vm_compute in A. destruct A as ((_ & _ & _ & A) & _).
    specialize (A "Generator" _ _ eq_refl eq_refl). destruct A as [_ A].
    specialize (A "mine"). discriminate.
  - do 4 (split; [vm_compute; reflexivity|]).
    intros A. vm_compute in A. destruct A as ((_ & _ & _ & A) & _).
    specialize (A "Generator" _ _ eq_refl eq_refl). destruct A as [_ A].
    specialize (A "mine"). discriminate.
Qed.
Print Assumptions C87_own_series_refuted.

(* without buses nothing is read: the other components of the file are lost without an exception *)
Definition f_nobus : doc := in_doc (f_run [Remove "Bus" ["a"; "b"; "c"] ""]).
Lemma f_nobus_ok : Inv (metas_of f_reg) (d_net f_nobus).
Proof. apply f_run_ok. repeat constructor. Qed.

Theorem C87_no_bus_refuted :
  forall f, exists d st d',
    Inv (metas_of f_reg) (d_net d) /\ export f_reg f d f_order [] = (st, None) /\
    import f_reg f st = inl d' /\
    names_of (comp_or_empty (d_net d) "Generator") = ["g"; "h"] /\
    names_of (comp_or_empty (d_net d') "Generator") = [].
Proof.
  intros f. exists f_nobus, (exported f f_nobus []).
  eexists. split; [exact f_nobus_ok|].
  destruct f; (split; [vm_compute; reflexivity|]; split; [vm_compute; reflexivity|]; split; vm_compute; reflexivity).
Qed.
Print Assumptions C87_no_bus_refuted.
