(* Reading a store back depends on a few entries only; export after export, and the round trip. *)
From Coq Require Import List String Bool ZArith Ascii Permutation Lia.
From Verif Require Import Assoc TablesModel TablesSpec TablesProofs TransferModel TransferProofs
  FileModel FileSpec FileProofs.
Import ListNotations.
Open Scope string_scope.
Open Scope list_scope.

(* ---------- the series of a class ---------- *)
Lemma dget_get_series f l st a : dget (get_series f l st) a = dget st (series_name f l a).
Proof.
  unfold get_series. induction st as [|[k x] st IH]; [reflexivity|]. cbn [flat_map fst snd dget].
  destruct (series_attr f l k) as [b|] eqn:A; cbn [app dget].
  - destruct (String.eqb_spec b a) as [->|N].
    + apply series_attr_spec in A. subst k. now rewrite String.eqb_refl.
    + destruct (String.eqb_spec k (series_name f l a)) as [E|E].
      * apply series_attr_spec in E. congruence.
      * exact IH.
  - destruct (String.eqb_spec k (series_name f l a)) as [E|E].
    + apply series_attr_spec in E. congruence.
    + exact IH.
Qed.

Lemma NoDup_get_series f l st : NoDup (dkeys st) -> NoDup (dkeys (get_series f l st)).
Proof.
  induction st as [|[k x] st IH]; intros ND; [constructor|].
  inversion ND as [|? ? NI ND']; subst. unfold get_series. cbn [flat_map fst snd].
  fold (get_series f l st).
  destruct (series_attr f l k) as [b|] eqn:A; cbn [app]; auto.
  constructor; auto. intros Ib. apply dget_keys_Some in Ib. destruct Ib as [v Hv].
  rewrite dget_get_series in Hv. apply series_attr_spec in A. subst k.
  apply NI. eapply dget_Some_keys; eauto.
Qed.

Definition as_table (sns : list string) (x : option item) : option table :=
  match x with Some (ISeries _ cols) => Some {| tindex := sns; tcols := cols |} | _ => None end.

Definition good_item (sns : list string) (x : item) : Prop :=
  exists cols, x = ISeries (List.length sns) cols.

Lemma read_series_ok sns l ts : read_series sns l = inl ts ->
  dkeys ts = dkeys l /\ (forall a, dget ts a = as_table sns (dget l a)) /\
  (forall a x, In (a, x) l -> good_item sns x).
Proof.
  revert ts. induction l as [|[a x] l IH]; intros ts H; cbn [read_series] in H.
  - injection H as <-. split; [reflexivity|]. split; [reflexivity|]. intros a x [].
  - destruct x as [s|w|rows|n cols]; try discriminate.
    destruct (Nat.eqb n (List.length sns)) eqn:E; [|discriminate].
    apply Nat.eqb_eq in E. subst n.
    destruct (read_series sns l) as [ts'|e]; [|discriminate]. injection H as <-.
    destruct (IH ts' eq_refl) as (K & G & A). split; [|split].
    + cbn. now f_equal.
    + intros b. cbn [dget]. destruct (String.eqb a b); auto.
    + intros b x [X|X]; [|eauto]. injection X as _ <-. now exists cols.
Qed.

Lemma read_series_def sns l : (forall a x, In (a, x) l -> good_item sns x) ->
  exists ts, read_series sns l = inl ts.
Proof.
  induction l as [|[a x] l IH]; intros H; cbn [read_series]; [eauto|].
  destruct (H a x (or_introl eq_refl)) as [cols ->].
  rewrite Nat.eqb_refl. destruct IH as [ts ->]; [|eauto]. intros b y Y. apply (H b y). now right.
Qed.

(* ---------- transfer depends on the frames, not on their order ---------- *)
Lemma transfer_cases m sns rows c :
  (exists e, forall ts', transfer m sns rows ts' c = inr e) \/
  exists c1, forall ts', transfer m sns rows ts' c = inl (import_all m sns false ts' c1).
Proof.
  unfold transfer. destruct (add_frame m sns rows c) as [c1|e].
  - right. exists c1. reflexivity.
  - left. exists e. reflexivity.
Qed.

Definition class_alike (x y : comp + ferr) : Prop :=
  match x, y with
  | inl c, inl c' => same_tables c c'
  | inr _, inr _ => True
  | _, _ => False
  end.

Lemma import_all_alike m sns ts ts' c : NoDup (dkeys ts) -> NoDup (dkeys ts') ->
  (forall a, dget ts a = dget ts' a) ->
  same_tables (import_all m sns false ts c) (import_all m sns false ts' c).
Proof.
  intros ND ND' E. split.
  - now rewrite !ia_static.
  - intros a. rewrite !ia_dyn_get by auto. now rewrite E.
Qed.

Lemma import_class_alike f k sns st st' : NoDup (dkeys st) -> NoDup (dkeys st') ->
  dget st (static_name f (k_list k)) = dget st' (static_name f (k_list k)) ->
  (dget st (static_name f (k_list k)) <> None ->
   forall a, dget st (series_name f (k_list k) a) = dget st' (series_name f (k_list k) a)) ->
  class_alike (import_class f k sns st) (import_class f k sns st').
Proof.
  intros ND ND' E S. unfold import_class. rewrite <- E.
  destruct (dget st (static_name f (k_list k))) as [x|]; [|split; reflexivity].
  assert (S' : forall a, dget (get_series f (k_list k) st) a = dget (get_series f (k_list k) st') a).
  { intros a. rewrite !dget_get_series. apply S. discriminate. }
  assert (N := NoDup_get_series f (k_list k) st ND).
  assert (N' := NoDup_get_series f (k_list k) st' ND').
  destruct x as [s|w|rows|n cols]; try exact I.
  set (l := get_series f (k_list k) st) in *. set (l' := get_series f (k_list k) st') in *.
  assert (T : forall g g' : list (string * item), NoDup (dkeys g) -> NoDup (dkeys g') ->
            (forall a, dget g a = dget g' a) -> forall a x, In (a, x) g' -> In (a, x) g).
  { intros g g' Ng Ng' Eg a x X. apply dget_In. rewrite Eg. now apply In_dget. }
  destruct (read_series sns l) as [ts|e] eqn:Rd.
  - destruct (read_series_ok _ _ _ Rd) as (K & G & A).
    destruct (read_series_def sns l') as [ts' Rd'].
    { intros a x X. apply (A a x). now apply (T l l'). }
    rewrite Rd'. destruct (read_series_ok _ _ _ Rd') as (K' & G' & _).
    destruct (transfer_cases (k_meta k) sns rows (fresh k sns)) as [[e H]|[c1 H]].
    + rewrite !H. exact I.
    + rewrite !H. apply import_all_alike.
      * now rewrite K.
      * now rewrite K'.
      * intros a. rewrite G, G', S'. reflexivity.
  - destruct (read_series sns l') as [ts'|e'] eqn:Rd'; [|exact I].
    destruct (read_series_ok _ _ _ Rd') as (_ & _ & A).
    destruct (read_series_def sns l) as [ts Rd2]; [|congruence].
    intros a x X. apply (A a x). apply (T l' l); auto.
Qed.

Definition classes_alike (x y : dict comp + ferr) : Prop :=
  match x, y with
  | inl c, inl c' => Forall2 (fun e e' => fst e = fst e' /\ same_tables (snd e) (snd e')) c c'
  | inr _, inr _ => True
  | _, _ => False
  end.

Lemma import_classes_alike f sns st st' l :
  (forall cls k, In (cls, k) l -> class_alike (import_class f k sns st) (import_class f k sns st')) ->
  classes_alike (import_classes f sns st l) (import_classes f sns st' l).
Proof.
  induction l as [|[cls k] l IH]; intros H; cbn [import_classes]; [constructor|].
  assert (A := H cls k (or_introl eq_refl)).
  assert (B : classes_alike (import_classes f sns st l) (import_classes f sns st' l)).
  { apply IH. intros c k' X. apply (H c). now right. }
  destruct (import_class f k sns st) as [c|e], (import_class f k sns st') as [c'|e'];
    try contradiction; [|exact I].
  destruct (import_classes f sns st l) as [cs|e], (import_classes f sns st' l) as [cs'|e'];
    try contradiction; [|exact I].
  constructor; auto.
Qed.

Lemma Forall2_same (cs cs' : dict comp) :
  Forall2 (fun e e' => fst e = fst e' /\ same_tables (snd e) (snd e')) cs cs' ->
  dkeys cs = dkeys cs' /\
  forall cls c c', dget cs cls = Some c -> dget cs' cls = Some c' -> same_tables c c'.
Proof.
  induction 1 as [|[k c] [k' c'] cs cs' [E S] H [K IH]]; cbn [fst snd] in *.
  - split; [reflexivity|]. intros cls c c' X. discriminate.
  - subst k'. split; [cbn; now f_equal|]. intros cls x x'. cbn [dget].
    destruct (String.eqb k cls); [|apply IH]. intros X X'. injection X as <-. injection X' as <-. exact S.
Qed.

Section Reg.
Variable reg : dict class.
Hypothesis R : registry reg.

Lemma bus_in : In "Bus" (dkeys reg).
Proof. now destruct R as (_ & _ & B & _). Qed.

(* ---------- equal entries, equal networks ---------- *)
Lemma import_alike f st st' : NoDup (dkeys st) -> NoDup (dkeys st') ->
  (forall h, In h reserved -> dget st (head_name f h) = dget st' (head_name f h)) ->
  (forall cls k, In (cls, k) reg ->
     dget st (static_name f (k_list k)) = dget st' (static_name f (k_list k)) /\
     (dget st (static_name f (k_list k)) <> None ->
      forall a, dget st (series_name f (k_list k) a) = dget st' (series_name f (k_list k) a))) ->
  read_alike (import reg f st) (import reg f st').
Proof.
  intros ND ND' H S. unfold import.
  assert (Sn : read_snapshots f st = read_snapshots f st').
  { unfold read_snapshots. rewrite (H "snapshots"); auto. unfold reserved. simpl. tauto. }
  assert (Tx : forall h, In h reserved -> text f st h = text f st' h).
  { intros h Rh. unfold text. now rewrite H. }
  rewrite <- Sn. destruct (read_snapshots f st) as [[sns w]|e]; [|exact I].
  assert (Bs := S "Bus" _ (in_reg reg "Bus" bus_in)). destruct Bs as [Bs _]. rewrite <- Bs.
  set (x := match dget st (static_name f (k_list (class_of reg "Bus"))) with
            | Some _ => import_classes f sns st reg | None => _ end).
  set (y := match dget st (static_name f (k_list (class_of reg "Bus"))) with
            | Some _ => import_classes f sns st' reg | None => _ end).
  assert (A : classes_alike x y).
  { unfold x, y. destruct (dget st (static_name f (k_list (class_of reg "Bus")))).
    - apply import_classes_alike. intros cls k Ik. destruct (S cls k Ik) as [S1 S2].
      apply import_class_alike; auto.
    - cbn. clear. induction reg as [|e l IH]; cbn [map]; constructor; auto.
      split; [reflexivity|split; reflexivity]. }
  clearbody x y. destruct x as [cs|e], y as [cs'|e']; try contradiction; [|exact I].
  apply Forall2_same in A. destruct A as [K A].
  assert (Rm : forall h, In h ["network"; "crs"; "meta"; "snapshots"; "investment_periods"] -> In h reserved)
    by auto.
  unfold read_alike, same_doc, same_net.
  cbn [d_net d_network d_crs d_meta d_periods snaps weights comps].
  split; [|split; [|split; [|split]]]; try (apply Tx, Rm; simpl; tauto).
  split; [reflexivity|]. split; [reflexivity|]. split; [exact K|exact A].
Qed.

Lemma comp_known n cls : Inv (metas_of reg) n -> In cls (dkeys reg) ->
  dget (comps n) cls = Some (comp_or_empty n cls).
Proof.
  intros (_ & _ & _ & _ & K & _) Ic. unfold comp_or_empty.
  destruct (dget (comps n) cls) as [c|] eqn:D; auto.
  apply dget_None_keys in D. exfalso. apply D. rewrite K. unfold metas_of, dkeys.
  rewrite map_map. exact Ic.
Qed.

(* ---------- exporting onto what is there ---------- *)
Lemma export_ok f d order old :
  any_order reg order -> Inv (metas_of reg) (d_net d) -> fits reg f (d_net d) old ->
  exists st, export reg f d order old = (st, None).
Proof.
  intros OR IV F. unfold export. apply export_classes_ok; [exact R| |eapply Inv_dyn_ok; eauto|].
  - intros x X. eapply Permutation_in; [apply Permutation_sym; exact OR|exact X].
  - intros -> cls key Ic Sc S. apply in_subfolder_spec in S. destruct S as [file ->].
    rewrite dget_head_other by (intros h Rh; now apply sub_not_head).
    assert (Ir : In cls (dkeys reg)) by (eapply Permutation_in; [apply Permutation_sym; exact OR|exact Ic]).
    destruct F as [F _].
    destruct (F cls _ _ (in_reg reg cls Ir) (comp_known _ cls IV Ir) Sc) as [_ X]. apply X.
Qed.

Lemma fits_empty f n : fits reg f n [].
Proof.
  destruct f; cbn [fits]; [split| |exact I].
  - intros cls k c _ _ _. split; reflexivity.
  - intros cls k c a x _ _ _ X. discriminate.
  - intros cls k c a x _ _ _ X. discriminate.
Qed.

Lemma start_empty f key : dget (start f []) key = None.
Proof. now destruct f. Qed.

Lemma again f d order order' old st st' :
  any_order reg order -> any_order reg order' -> Inv (metas_of reg) (d_net d) ->
  NoDup (dkeys old) -> fits reg f (d_net d) old ->
  export reg f d order old = (st, None) -> export reg f d order' [] = (st', None) ->
  read_alike (import reg f st) (import reg f st').
Proof.
  intros O1 O2 IV ND F E1 E2.
  assert (OK := Inv_dyn_ok reg _ IV).
  assert (ND0 : NoDup (dkeys ([] : store))) by constructor.
  apply import_alike.
  - exact (st_nodup reg f d order old st ND E1).
  - exact (st_nodup reg f d order' [] st' ND0 E2).
  - intros h Rh. rewrite (st_head reg R f d order old st) by auto.
    now rewrite (st_head reg R f d order' [] st') by auto.
  - intros cls k Ik.
    assert (Ic : In cls (dkeys reg)) by now apply (in_map fst) in Ik.
    assert (Ek := class_of_in reg R cls k Ik).
    assert (Dc := comp_known _ cls IV Ic).
    assert (S1 := st_static reg R f d order old st O1 OK E1 cls Ic).
    assert (S2 := st_static reg R f d order' [] st' O2 OK E2 cls Ic).
    cbn zeta in S1, S2. rewrite Ek in S1, S2. rewrite start_empty in S2.
    set (c := comp_or_empty (d_net d) cls) in *.
    assert (P : static c = [] -> dget st (static_name f (k_list k)) = None).
    { intros Z. rewrite S1. unfold static_effect. rewrite Z. destruct f; auto.
      destruct F as [F _]. now destruct (F cls k c Ik Dc Z) as [X _]. }
    split.
    + destruct (static c) as [|e0 rest] eqn:Z.
      * rewrite P by auto. rewrite S2. unfold static_effect. rewrite Z. now destruct f.
      * rewrite S1, S2. unfold static_effect. now rewrite Z.
    + intros Pr a.
      assert (Z : static c <> []) by (intros Z; apply Pr; auto).
      assert (T1 := st_series reg R f d order old st O1 OK E1 cls a Ic).
      assert (T2 := st_series reg R f d order' [] st' O2 OK E2 cls a Ic).
      cbn zeta in T1, T2. rewrite Ek in T1, T2. rewrite start_empty in T2. fold c in T1, T2.
      assert (Y : dget (dyn c) a = None -> dget (start f old) (series_name f (k_list k) a) = None).
      { intros N. apply dget_None_keys in N. destruct f; cbn [start]; auto.
        - destruct F as [_ F]. destruct (dget old (series_name CSV (k_list k) a)) as [x|] eqn:X; auto.
          exfalso. apply N. exact (F cls k c a x Ik Dc Z X).
        - destruct (dget old (series_name Excel (k_list k) a)) as [x|] eqn:X; auto.
          exfalso. apply N. exact (F cls k c a x Ik Dc Z X). }
      rewrite T1, T2. destruct (static c) as [|e0 rest]; [congruence|].
      unfold series_effect. destruct (dget (dyn c) a) as [t|].
      * destruct (filter _ _); [|reflexivity]. destruct f; auto.
      * now apply Y.
Qed.

(* ---------- onto a former export ---------- *)
Lemma st_other f d order old st key :
  any_order reg order -> dyn_ok (d_net d) -> export reg f d order old = (st, None) ->
  (forall h, In h reserved -> head_name f h <> key) ->
  (forall cls, In cls (dkeys reg) -> ~ owns f (k_list (class_of reg cls)) key) ->
  dget st key = dget (start f old) key.
Proof.
  intros O1 OK E Nh No. unfold export in E.
  assert (inc : incl order (dkeys reg)).
  { intros x X. eapply Permutation_in; [apply Permutation_sym; exact O1|exact X]. }
  rewrite (export_classes_get reg R _ _ _ _ _ _ inc OK E).
  rewrite fold_none by (intros cls Ic; apply No; auto). now apply dget_head_other.
Qed.

Lemma grown_fits f before order after st :
  any_order reg order -> Inv (metas_of reg) (d_net before) -> Inv (metas_of reg) after ->
  grown f (d_net before) after -> export reg f before order [] = (st, None) ->
  fits reg f after st.
Proof.
  intros O1 IV IV' G E. assert (OK := Inv_dyn_ok reg _ IV).
  assert (SE : forall cls k a x, In (cls, k) reg ->
     dget st (series_name f (k_list k) a) = Some x ->
     static (comp_or_empty (d_net before) cls) <> [] /\
     In a (dkeys (dyn (comp_or_empty (d_net before) cls)))).
  { intros cls k a x Ik X.
    assert (Ic : In cls (dkeys reg)) by now apply (in_map fst) in Ik.
    assert (T := st_series reg R f before order [] st O1 OK E cls a Ic).
    cbn zeta in T. rewrite (class_of_in reg R cls k Ik), X, start_empty in T.
    destruct (static (comp_or_empty (d_net before) cls)); [discriminate|].
    split; [discriminate|]. unfold series_effect in T.
    destruct (dget (dyn (comp_or_empty (d_net before) cls)) a) eqn:D; [|discriminate].
    eapply dget_Some_keys; eauto. }
  assert (SE' : forall cls k c a x, In (cls, k) reg -> dget (comps after) cls = Some c ->
     dget st (series_name f (k_list k) a) = Some x -> In a (dkeys (dyn c))).
  { intros cls k c a x Ik Dc X. destruct (SE cls k a x Ik X) as [Z Ia].
    assert (Ic : In cls (dkeys reg)) by now apply (in_map fst) in Ik.
    destruct (G cls _ c (comp_known _ cls IV Ic) Dc Z) as [_ Y]. now apply Y. }
  destruct f; cbn [fits]; auto.
  - split.
    + intros cls k c Ik Dc Z.
      assert (Ic : In cls (dkeys reg)) by now apply (in_map fst) in Ik.
      split.
      * assert (S1 := st_static reg R CSV before order [] st O1 OK E cls Ic).
        cbn zeta in S1. rewrite (class_of_in reg R cls k Ik), start_empty in S1.
        unfold static_effect in S1. cbn [static_name] in S1. rewrite S1.
        destruct (static (comp_or_empty (d_net before) cls)) eqn:Z'; auto.
        exfalso. destruct (G cls _ c (comp_known _ cls IV Ic) Dc) as [Y _]; [congruence|].
        now apply Y.
      * intros file. change (dget st (String.append (k_list k) (String.append "/" file)) = None).
        rewrite (st_other CSV before order [] st); auto.
        -- intros h Rh. now apply sub_not_head.
        -- intros cls' Ic'. apply sub_not_owned; [|now apply class_plain].
           rewrite <- (class_of_in reg R cls k Ik). now apply class_plain.
    + intros cls k c a x Ik Dc _ X. exact (SE' cls k c a x Ik Dc X).
  - intros cls k c a x Ik Dc _ X. exact (SE' cls k c a x Ik Dc X).
Qed.

End Reg.
