(* What is read back is what was written. *)
From Coq Require Import List String Bool ZArith Ascii Permutation Lia.
From Verif Require Import Assoc TablesModel TablesSpec TablesProofs TransferModel TransferProofs
  FileModel FileSpec FileProofs FileRead.
Import ListNotations.
Open Scope string_scope.
Open Scope list_scope.

Lemma import_classes_def f sns st l :
  NoDup (dkeys l) -> (forall cls k, In (cls, k) l -> exists c, import_class f k sns st = inl c) ->
  exists cs, import_classes f sns st l = inl cs /\
    forall cls k, In (cls, k) l -> exists c, import_class f k sns st = inl c /\ dget cs cls = Some c.
Proof.
  induction l as [|[cls k] l IH]; intros ND H; cbn [import_classes].
  - exists []. split; [reflexivity|]. intros cls k [].
  - inversion ND as [|? ? NI ND']; subst.
    destruct (H cls k (or_introl eq_refl)) as [c Hc]. rewrite Hc.
    destruct IH as (cs & E & A); auto. { intros x y X. apply (H x). now right. }
    rewrite E. exists ((cls, c) :: cs). split; [reflexivity|].
    intros x y [X|X].
    + injection X as <- <-. exists c. cbn [dget]. now rewrite String.eqb_refl.
    + destruct (A x y X) as (c' & P & Q). exists c'. split; auto. cbn [dget].
      destruct (String.eqb_spec cls x) as [->|N]; auto.
      exfalso. apply NI. now apply (in_map fst) in X.
Qed.

Lemma eff_same m c c' name attr s : same_tables c c' -> eff m c name attr s = eff m c' name attr s.
Proof. intros [S D]. unfold eff. now rewrite S, D. Qed.

Section Reg.
Variable reg : dict class.
Hypothesis R : registry reg.

Lemma good_class n cls k : Inv (metas_of reg) n -> In (cls, k) reg ->
  good_comp (snaps n) (k_meta k) (comp_or_empty n cls).
Proof.
  intros IV Ik. assert (Ic : In cls (dkeys reg)) by now apply (in_map fst) in Ik.
  assert (D := comp_known reg n cls IV Ic).
  destruct IV as (_ & _ & _ & _ & _ & G). apply (G cls); auto.
  destruct R as (ND & _). unfold metas_of.
  rewrite (dget_map_val (fun _ k => k_meta k)). now rewrite (In_dget _ _ _ ND Ik).
Qed.

Lemma fresh_class f d order st cls k :
  any_order reg order -> Inv (metas_of reg) (d_net d) -> export reg f d order [] = (st, None) ->
  In (cls, k) reg ->
  exists c' c'', import_class f k (snaps (d_net d)) st = inl c' /\
    import_comp (k_meta k) (snaps (d_net d)) (export_comp (k_meta k) (comp_or_empty (d_net d) cls))
      = inl c'' /\ same_tables c' c''.
Proof.
  intros O1 IV E Ik. assert (OK := Inv_dyn_ok reg _ IV).
  assert (Ic : In cls (dkeys reg)) by now apply (in_map fst) in Ik.
  assert (Ek := class_of_in reg R cls k Ik).
  assert (G := good_class _ _ _ IV Ik).
  set (c := comp_or_empty (d_net d) cls) in *. set (sns := snaps (d_net d)) in *.
  assert (S1 := st_static reg R f d order [] st O1 OK E cls Ic).
  cbn zeta in S1. rewrite Ek, start_empty in S1. fold c in S1.
  unfold import_class. rewrite S1. unfold static_effect, export_comp.
  assert (ND : NoDup (dkeys (dyn c))) by now destruct G as (_ & X & _).
  assert (T : forall a, dget st (series_name f (k_list k) a) =
             match static c with [] => None | _ => series_effect f (k_meta k) c a None end).
  { intros a. assert (X := st_series reg R f d order [] st O1 OK E cls a Ic).
    cbn zeta in X. rewrite Ek, start_empty in X. exact X. }
  destruct (static c) as [|e0 rest] eqn:Z.
  - exists (fresh k sns), (fresh k sns). split; [now destruct f|]. split; [reflexivity|]. now split.
  - rewrite <- Z in *.
    assert (NDst : NoDup (dkeys st)) by (apply (st_nodup reg f d order [] st); [constructor|exact E]).
    set (l := get_series f (k_list k) st).
    assert (NDl : NoDup (dkeys l)) by now apply NoDup_get_series.
    assert (Dl : forall a, dget l a = series_effect f (k_meta k) c a None).
    { intros a. unfold l. rewrite dget_get_series, T. first [now rewrite Z|reflexivity]. }
    assert (Fit : forall a t, dget (dyn c) a = Some t -> tindex t = sns).
    { intros a t H. apply dget_In in H. destruct G as (_ & _ & _ & _ & _ & G).
      now destruct (G a t H) as [X _]. }
    destruct (read_series_def sns l) as [ts Rd].
    { intros a x X. apply (In_dget _ _ _ NDl) in X. rewrite Dl in X. unfold series_effect in X.
      destruct (dget (dyn c) a) as [t|] eqn:Da; [|discriminate].
      destruct (filter (fun g => keep_series (k_meta k) a (snd g)) (tcols t)) as [|y ys].
      - destruct f; discriminate.
      - injection X as <-. rewrite (Fit a t Da). eexists. reflexivity. }
    rewrite Rd. destruct (read_series_ok _ _ _ Rd) as (K & Gt & _).
    unfold import_comp. cbn [x_static x_series]. fold (fresh k sns). fold (kept_rows (k_meta k) c).
    assert (NDr : NoDup (dkeys (kept_rows (k_meta k) c))).
    { unfold kept_rows, dkeys. rewrite map_map. cbn [fst]. now destruct G as (X & _). }
    unfold transfer. rewrite !add_frame_eq by exact NDr.
    eexists. eexists. split; [reflexivity|]. split; [reflexivity|].
    apply (import_all_alike (k_meta k) sns).
    + rewrite K. exact NDl.
    + apply NoDup_map_filter. rewrite map_map. cbn [fst]. exact ND.
    + intros a. rewrite Gt, Dl. rewrite dget_filter_entry.
      2:{ unfold dkeys. rewrite map_map. cbn [fst]. exact ND. }
      rewrite (dget_map_val (fun b t => {| tindex := tindex t;
          tcols := filter (fun g => keep_series (k_meta k) b (snd g)) (tcols t) |})).
      unfold series_effect. destruct (dget (dyn c) a) as [t|] eqn:Da; [|reflexivity].
      cbn [option_map snd tcols].
      destruct (filter (fun g => keep_series (k_meta k) a (snd g)) (tcols t)) as [|y ys] eqn:Fl.
      * now destruct f.
      * cbn [as_table]. now rewrite (Fit a t Da).
Qed.

Lemma round_trip_fresh f d order st :
  any_order reg order -> Inv (metas_of reg) (d_net d) -> export reg f d order [] = (st, None) ->
  static (comp_or_empty (d_net d) "Bus") <> [] ->
  exists d', import reg f st = inl d' /\
    d_network d' = d_network d /\ d_crs d' = d_crs d /\ d_meta d' = d_meta d /\
    d_periods d' = d_periods d /\
    snaps (d_net d') = snaps (d_net d) /\
    (forall col s, In col ["objective"; "generators"; "stores"] ->
       In col (dkeys (tcols (weights (d_net d)))) ->
       tget (weights (d_net d')) col s = tget (weights (d_net d)) col s) /\
    (forall cls k c, In (cls, k) reg -> dget (comps (d_net d)) cls = Some c ->
       exists c', dget (comps (d_net d')) cls = Some c' /\
         (filled (k_meta k) c -> names_of c' = names_of c /\
          forall name attr s, In name (names_of c) -> In s (snaps (d_net d)) -> ~ In attr derived ->
            ~ hidden_default (k_meta k) c name attr ->
            eff (k_meta k) c' name attr s = eff (k_meta k) c name attr s)).
Proof.
  intros O1 IV E Bu. assert (OK := Inv_dyn_ok reg _ IV).
  assert (H := st_head reg R f d order [] st O1 OK E).
  set (sns := snaps (d_net d)).
  assert (Ti : tindex (weights (d_net d)) = sns) by now destruct IV as (_ & _ & X & _).
  assert (Ne : sns <> []) by now destruct IV as (_ & X & _).
  destruct (import_classes_def f sns st reg) as (cs & Ecs & Acs).
  { now destruct R. }
  { intros cls k Ik. destruct (fresh_class f d order st cls k O1 IV E Ik) as (c' & _ & X & _). eauto. }
  unfold import, read_snapshots. rewrite H by (unfold reserved; simpl; tauto).
  change (head_item d "snapshots") with (ISnaps (weights (d_net d))). cbn match. rewrite Ti.
  assert (Nb : dget st (static_name f (k_list (class_of reg "Bus"))) <> None).
  { rewrite (st_static reg R f d order [] st O1 OK E "Bus" (bus_in reg R)).
    unfold static_effect. destruct (static (comp_or_empty (d_net d) "Bus")); congruence. }
  destruct sns as [|s0 sr] eqn:Es; [congruence|]. rewrite <- Es in *.
  destruct (dget st (static_name f (k_list (class_of reg "Bus")))) as [x|]; [|congruence].
  rewrite Ecs. eexists. split; [reflexivity|].
  cbn [d_net d_network d_crs d_meta d_periods snaps weights comps].
  unfold text. rewrite !H by (unfold reserved; simpl; tauto).
  split; [reflexivity|]. split; [reflexivity|]. split; [reflexivity|]. split; [reflexivity|].
  split; [reflexivity|]. split.
  - intros col s Ic Iw. unfold tget, reindex_cols. cbn [tcols tindex].
    rewrite (dget_map_names (fun n => match dget (tcols (weights (d_net d))) n with
                                      | Some col => col
                                      | None => map (fun _ => VNaN) (tindex (weights (d_net d))) end)).
    apply dget_keys_Some in Iw. destruct Iw as [v Hv].
    assert (M : mem col ["objective"; "generators"; "stores"] = true).
    { unfold mem. apply existsb_exists. exists col. split; auto. apply String.eqb_refl. }
    rewrite M, Hv. reflexivity.
  - intros cls k c Ik Dc.
    destruct (Acs cls k Ik) as (c1 & I1 & D1). exists c1. split; [exact D1|]. intros Fl.
    destruct (fresh_class f d order st cls k O1 IV E Ik) as (c' & c'' & I2 & I3 & Sm).
    fold sns in I2, I3. rewrite Es in *. rewrite I1 in I2. injection I2 as <-.
    assert (Ec : comp_or_empty (d_net d) cls = c) by (unfold comp_or_empty; now rewrite Dc).
    assert (G := good_class _ _ _ IV Ik). rewrite Ec in *.
    destruct R as (_ & _ & _ & Pm). destruct (Pm cls k Ik) as [_ NDm].
    fold sns in G. rewrite Es in G.
    destruct (roundtrip (k_meta k) _ c c'' NDm G Fl I3) as (Nm & _ & Ef).
    split.
    + destruct Sm as [S0 _]. unfold names_of in *. now rewrite S0.
    + intros name attr s In1 Is Nd Nh. rewrite (eff_same _ _ _ _ _ _ Sm). now apply Ef.
Qed.

Lemma round_trip f d order old :
  any_order reg order -> Inv (metas_of reg) (d_net d) ->
  NoDup (dkeys old) -> fits reg f (d_net d) old ->
  (exists c, dget (comps (d_net d)) "Bus" = Some c /\ static c <> []) ->
  exists st d', export reg f d order old = (st, None) /\ import reg f st = inl d' /\
    d_network d' = d_network d /\ d_crs d' = d_crs d /\ d_meta d' = d_meta d /\
    d_periods d' = d_periods d /\
    snaps (d_net d') = snaps (d_net d) /\
    (forall col s, In col ["objective"; "generators"; "stores"] ->
       In col (dkeys (tcols (weights (d_net d)))) ->
       tget (weights (d_net d')) col s = tget (weights (d_net d)) col s) /\
    (forall cls k c, In (cls, k) reg -> dget (comps (d_net d)) cls = Some c -> filled (k_meta k) c ->
       exists c', dget (comps (d_net d')) cls = Some c' /\ names_of c' = names_of c /\
         forall name attr s, In name (names_of c) -> In s (snaps (d_net d)) -> ~ In attr derived ->
           ~ hidden_default (k_meta k) c name attr ->
           eff (k_meta k) c' name attr s = eff (k_meta k) c name attr s).
Proof.
  intros O1 IV ND F (cb & Db & Nb).
  destruct (export_ok reg R f d order old O1 IV F) as [st E].
  destruct (export_ok reg R f d order [] O1 IV (fits_empty reg f _)) as [st0 E0].
  assert (A := again reg R f d order order old st st0 O1 O1 IV ND F E E0).
  destruct (round_trip_fresh f d order st0 O1 IV E0) as (d0 & I0 & T1 & T2 & T3 & T4 & Sn & W & C).
  { unfold comp_or_empty. now rewrite Db. }
  rewrite I0 in A. unfold read_alike in A.
  destruct (import reg f st) as [d'|e] eqn:Im; [|contradiction].
  destruct A as ((S1 & S2 & S3 & S4) & U1 & U2 & U3 & U4).
  exists st, d'. rewrite E, S1, S2, U1, U2, U3, U4.
  split; [reflexivity|]. split; [exact Im|]. split; [exact T1|]. split; [exact T2|]. split; [exact T3|].
  split; [exact T4|]. split; [exact Sn|]. split; [exact W|].
  intros cls k c Ik Dc Fl. destruct (C cls k c Ik Dc) as (c0 & D0 & X).
  assert (Kc : In cls (dkeys (comps (d_net d')))) by (rewrite S3; eapply dget_Some_keys; eauto).
  apply dget_keys_Some in Kc. destruct Kc as [c' Dc']. exists c'. split; [exact Dc'|].
  destruct (X Fl) as [Nm Ef]. assert (Sm := S4 cls c' c0 Dc' D0).
  split.
  - destruct Sm as [Z _]. unfold names_of in *. now rewrite Z.
  - intros name attr s I1 I2 I3 I4. rewrite (eff_same _ _ _ _ _ _ Sm). now apply Ef.
Qed.

Lemma onto_former f before after order1 order2 order3 :
  any_order reg order1 -> any_order reg order2 ->
  Inv (metas_of reg) (d_net before) -> Inv (metas_of reg) (d_net after) ->
  grown f (d_net before) (d_net after) -> any_order reg order3 ->
  exists st1 st2 st3,
    export reg f before order1 [] = (st1, None) /\ export reg f after order2 st1 = (st2, None) /\
    export reg f after order3 [] = (st3, None) /\
    read_alike (import reg f st2) (import reg f st3).
Proof.
  intros O1 O2 IV IV' G O3.
  destruct (export_ok reg R f before order1 [] O1 IV (fits_empty reg f _)) as [st1 E1].
  assert (F := grown_fits reg R f before order1 (d_net after) st1 O1 IV IV' G E1).
  destruct (export_ok reg R f after order2 st1 O2 IV' F) as [st2 E2].
  destruct (export_ok reg R f after order3 [] O3 IV' (fits_empty reg f _)) as [st3 E3].
  exists st1, st2, st3. repeat (split; [assumption|]).
  apply (again reg R f after order2 order3 st1 st2 st3); auto.
  apply (st_nodup reg f before order1 [] st1); [constructor|exact E1].
Qed.

Lemma again_full f d order order' old :
  any_order reg order -> any_order reg order' -> Inv (metas_of reg) (d_net d) ->
  NoDup (dkeys old) -> fits reg f (d_net d) old ->
  exists st st', export reg f d order old = (st, None) /\ export reg f d order' [] = (st', None) /\
    read_alike (import reg f st) (import reg f st').
Proof.
  intros O1 O2 IV ND F.
  destruct (export_ok reg R f d order old O1 IV F) as [st E].
  destruct (export_ok reg R f d order' [] O2 IV (fits_empty reg f _)) as [st' E'].
  exists st, st'. split; [exact E|]. split; [exact E'|].
  exact (again reg R f d order order' old st st' O1 O2 IV ND F E E').
Qed.
End Reg.
