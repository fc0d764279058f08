From Coq Require Import List String Bool ZArith Lia Arith.
From Verif Require Import Assoc TablesModel TablesSpec TablesProofs TransferModel.
Import ListNotations.
Open Scope string_scope.
Open Scope list_scope.

(* ---------- strings ---------- *)
Lemma append_nil_r s : String.append s "" = s.
Proof. induction s; simpl; auto. now rewrite IHs. Qed.

Lemma ends_with_nil s : ends_with s "" = true.
Proof. induction s; simpl; auto. Qed.

Lemma add_suffix_nil s : add_suffix "" s = s.
Proof. unfold add_suffix. now rewrite ends_with_nil. Qed.

Lemma map_append_nil l : map (fun s => String.append s "") l = l.
Proof. induction l; simpl; auto. now rewrite append_nil_r, IHl. Qed.

Lemma map_suffix_nil l : map (add_suffix "") l = l.
Proof. induction l; simpl; auto. now rewrite add_suffix_nil, IHl. Qed.

(* ---------- n.add(cls, df.index, **df) ---------- *)
Definition stc (rows : dict (dict val)) : dict (list val) :=
  map (fun a => (a, map (fun e => cell (snd e) a) rows)) (columns rows).

Lemma load_static_kwargs rows sns :
  load_kwargs false (dkeys rows) sns "" (static_kwargs rows) = inl (stc rows, []).
Proof.
  unfold static_kwargs, stc. induction (columns rows) as [|a r IH]; simpl; auto.
  rewrite IH, map_suffix_nil.
  replace (list_eqb (dkeys rows) (dkeys rows)) with true by (symmetry; now apply list_eqb_eq).
  destruct rows as [|[x row] [|e2 rest]]; simpl; auto.
Qed.

Lemma add_frame_eq m sns rows c :
  NoDup (dkeys rows) ->
  add_frame m sns rows c = inl (import_components m sns false (dkeys rows) (stc rows) c).
Proof.
  intros ND. unfold add_frame, add_comp. rewrite map_append_nil.
  assert (H : nodupb (dkeys rows) = true) by now apply nodupb_spec.
  rewrite H, load_static_kwargs. reflexivity.
Qed.

Lemma add_frame_dup m sns rows c :
  ~ NoDup (dkeys rows) -> add_frame m sns rows c = inr ValueErr.
Proof.
  intros ND. unfold add_frame, add_comp. rewrite map_append_nil.
  destruct (nodupb (dkeys rows)) eqn:H; auto. apply nodupb_spec in H. contradiction.
Qed.

Lemma dget_stc rows a :
  dget (stc rows) a = if mem a (columns rows) then Some (map (fun e => cell (snd e) a) rows) else None.
Proof. unfold stc. apply (dget_map_names (fun a => map (fun e => cell (snd e) a) rows)). Qed.

Lemma NoDup_stc rows : NoDup (dkeys (stc rows)).
Proof.
  unfold stc. rewrite (dkeys_map_names (fun a => map (fun e => cell (snd e) a) rows)).
  apply NoDup_nodup.
Qed.

Lemma In_columns rows a : In a (columns rows) <-> exists name row, In (name, row) rows /\ In a (dkeys row).
Proof.
  unfold columns. rewrite nodup_In, in_flat_map. split.
  - intros [[name row] [H1 H2]]. eauto.
  - intros [name [row [H1 H2]]]. exists (name, row). auto.
Qed.

Definition no_series_cells (m : meta) (rows : dict (dict val)) : Prop :=
  forall name row a, In (name, row) rows -> In a (dkeys row) -> is_series m a = false.

Section Frame.
Variables (m : meta) (sns : list string) (rows : dict (dict val)) (c : comp).
Hypothesis (NDm : NoDup (dkeys m)) (NDr : NoDup (dkeys rows)).
Hypothesis (Fresh : forall x, In x (dkeys rows) -> ~ In x (names_of c)).
Let c1 := import_components m sns false (dkeys rows) (stc rows) c.

Lemma frame_dyn : no_series_cells m rows -> dyn c1 = dyn c.
Proof.
  intros NS. unfold c1, import_components; simpl.
  replace (filter (fun a => is_series m a) (dkeys (stc rows))) with (@nil string); auto.
  symmetry. apply filter_none. intros a Ia.
  unfold stc in Ia. rewrite (dkeys_map_names (fun a => map (fun e => cell (snd e) a) rows)) in Ia.
  apply In_columns in Ia. destruct Ia as [name [row [I1 I2]]]. eauto.
Qed.

Lemma frame_names : names_of c1 = names_of c ++ dkeys rows.
Proof.
  unfold c1, import_components, names_of; simpl. rewrite dkeys_app. f_equal.
  rewrite (dkeys_filter_key (fun x => negb (mem x (names_of c)))).
  rewrite (dkeys_map_val (fun _ row => drop_series m row)), dkeys_df_rows.
  apply filter_all. intros x Ix. apply negb_true_iff, mem_false. auto.
Qed.

Lemma frame_old name : In name (names_of c) -> dget (static c1) name = dget (static c) name.
Proof.
  intros I. unfold c1. rewrite ic_static_get. apply mem_In in I. rewrite I. simpl.
  now rewrite andb_false_r.
Qed.

Lemma frame_row name row :
  In (name, row) rows ->
  exists r, dget (static c1) name = Some r /\
    forall a, is_series m a = false -> cell r a = fill m a (cell row a).
Proof.
  intros I. apply In_nth_error in I. destruct I as [i I].
  assert (Hi : nth_error (dkeys rows) i = Some name).
  { unfold dkeys. now rewrite nth_error_map, I. }
  exists (drop_series m (full_row m (stc rows) i)). split.
  - unfold c1. rewrite ic_static_get; auto.
    assert (M : mem name (dkeys rows) = true) by (eapply mem_In, nth_error_In; eauto).
    assert (M' : mem name (names_of c) = false).
    { apply mem_false, Fresh. now apply mem_In. }
    rewrite M, M'. simpl. rewrite (dget_df_rows m (dkeys rows) (stc rows) i name NDr Hi). reflexivity.
  - intros a Sa. unfold cell at 1. rewrite dget_drop_series, Sa.
    destruct (mem a (columns rows)) eqn:Ma.
    + rewrite (dget_full_row_given m (stc rows) i a (map (fun e => cell (snd e) a) rows)).
      * f_equal. erewrite nth_error_nth; [|now rewrite nth_error_map, I]. reflexivity.
      * rewrite dget_stc, Ma. reflexivity.
    + rewrite (dget_full_row_missing m (stc rows) i a NDm) by (rewrite dget_stc, Ma; reflexivity).
      assert (Ca : cell row a = VNaN).
      { unfold cell. destruct (dget row a) eqn:D; auto. exfalso. apply mem_false in Ma. apply Ma.
        apply In_columns. exists name, row. split; [eapply nth_error_In; eauto|].
        now apply dget_Some_keys in D. }
      rewrite Ca. unfold fill. simpl. unfold dmem, default_of, is_series in *.
      destruct (dget m a) as [am|]; auto. apply negb_false_iff in Sa. now rewrite Sa.
Qed.

End Frame.

(* ---------- the value read after importing a frame into a column-less table ---------- *)
Lemma imp_get m sns N attr t old name s :
  good_table sns N t ->
  (forall t0, old = Some t0 -> good_table sns N t0 /\ ~ In name (dkeys (tcols t0))) ->
  In s sns -> In name N ->
  (varying m attr = true \/ old = None) ->
  let o := match imp_table m sns false N attr t old with Some t' => tget t' name s | None => None end in
    o = tget t name s \/
    (is_series m attr = true /\ o = Some (default_of m attr) /\ tget t name s = None).
Proof.
  intros G Go Is In1 Hv. pose proof G as [Ti [ND _]].
  set (df1 := match old with Some t0 => drop_cols (dkeys (tcols t0)) t | None => t end).
  assert (E1 : tget df1 name s = tget t name s).
  { unfold df1. destruct old as [t0|]; auto. rewrite tget_drop_cols.
    destruct (Go t0 eq_refl) as [_ Nn]. apply mem_false in Nn. now rewrite Nn. }
  assert (D1 : dmem (tcols df1) name = dmem (tcols t) name).
  { unfold df1. destruct old as [t0|]; auto. unfold dmem, drop_cols; simpl.
    rewrite (dget_filter_key (fun x => negb (mem x (dkeys (tcols t0))))).
    destruct (Go t0 eq_refl) as [_ Nn]. apply mem_false in Nn. now rewrite Nn. }
  assert (ND1 : NoDup (dkeys (tcols df1))).
  { unfold df1. destruct old; auto. unfold drop_cols; simpl. now apply NoDup_map_filter. }
  assert (I1 : tindex df1 = sns) by (unfold df1; destruct old; auto).
  assert (I0 : tindex (old_table sns old) = sns).
  { destruct old as [t0|]; auto. now destruct (Go t0 eq_refl) as [[A _] _]. }
  assert (N0' : dmem (tcols (old_table sns old)) name = false).
  { destruct old as [t0|]; auto. destruct (Go t0 eq_refl) as [_ Nn].
    simpl. destruct (dmem (tcols t0) name) eqn:E; auto. apply dmem_In in E. contradiction. }
  apply mem_In in Is as Ms.
  unfold imp_table. fold df1. fold (old_table sns old).
  destruct (varying m attr) eqn:V; simpl.
  - rewrite I1, forallb_mem_refl, tget_set_cols by exact ND1. rewrite D1, E1.
    destruct (dmem (tcols t) name) eqn:Dt.
    + destruct (tget_good_Some sns N t name s G Dt Is) as [v ->].
      destruct (is_series m attr); simpl; rewrite I0, Ms; now left.
    + assert (Nt : tget t name s = None) by now apply tget_dmem_false.
      destruct (is_series m attr) eqn:Sr; rewrite tget_reindex_cols, N0', I0, Ms.
      * assert (Mu : mem name (union_names (dkeys (tcols df1)) N) = true)
          by (apply mem_In, In_union; auto).
        rewrite Mu. right. auto.
      * left. rewrite Nt.
        assert (Mu : mem name (union_names (dkeys (tcols df1)) (dkeys (tcols (old_table sns old)))) = false).
        { apply mem_false. rewrite In_union, <- !dmem_In, D1, N0'. intuition congruence. }
        now rewrite Mu.
  - destruct Hv as [Hv|Hv]; [discriminate|]. subst old. simpl. now left.
Qed.

(* ---------- transfer ---------- *)
Section Transfer.
Variables (m : meta) (sns : list string) (rows : dict (dict val)) (tables : dict table) (c : comp).
Hypothesis (NDm : NoDup (dkeys m)) (NDr : NoDup (dkeys rows)).
Hypothesis (Fresh : forall x, In x (dkeys rows) -> ~ In x (names_of c)).
Hypothesis (NS : no_series_cells m rows).
Hypothesis (NDt : NoDup (dkeys tables)).
Hypothesis (Gt : forall a t, In (a, t) tables -> good_table sns (dkeys rows) t).
Hypothesis (Gc : good_comp sns m c).

Definition c1 := import_components m sns false (dkeys rows) (stc rows) c.
Definition c2 := import_all m sns false tables c1.

Lemma transfer_eq : transfer m sns rows tables c = inl c2.
Proof. unfold transfer. now rewrite add_frame_eq. Qed.

Lemma transfer_names : names_of c2 = names_of c ++ dkeys rows.
Proof. unfold c2. rewrite ia_names. now apply frame_names. Qed.

Lemma c1_good : good_comp sns m c1.
Proof. apply ic_good; auto. apply NoDup_stc. Qed.

Lemma tables_good a t : In (a, t) tables -> good_table sns (names_of c1) t.
Proof.
  intros I. eapply good_table_mono; [|apply (Gt a t I)].
  intros x Ix. unfold c1. rewrite frame_names by assumption. apply in_app_iff. now right.
Qed.

Lemma transfer_good : good_comp sns m c2.
Proof. apply ia_good; [apply c1_good|]. intros a t I. now apply tables_good with (a := a). Qed.

Lemma transfer_old name attr s :
  In name (names_of c) ->
  dget (static c2) name = dget (static c) name /\
  eff m c2 name attr s = eff m c name attr s.
Proof.
  intros I.
  assert (Hs : dget (static c2) name = dget (static c) name).
  { unfold c2. rewrite ia_static. now apply frame_old. }
  split; auto. symmetry. apply eff_same; [now symmetry|].
  unfold dval. unfold c2. rewrite ia_dyn_get by exact NDt.
  assert (D1 : dyn c1 = dyn c) by now apply frame_dyn. rewrite D1.
  destruct (dget tables attr) as [t|] eqn:T; [|apply same_read_refl].
  apply dget_In in T. pose proof (Gt attr t T) as [Ti [Tn Tc]].
  apply imp_other; auto.
  - discriminate.
  - intros t0 E0. destruct c1_good as [_ [_ [_ [_ [_ G]]]]].
    apply (G attr). rewrite D1. now apply dget_In.
  - left. intros X. unfold dkeys in X. apply in_map_iff in X. destruct X as [[x col] [E X]].
    simpl in E. subst x. destruct (Tc name col X) as [Y _]. now apply (Fresh name Y).
Qed.

Lemma transfer_new name row attr s :
  In (name, row) rows -> In s sns ->
  (varying m attr = true \/ dget (dyn c) attr = None \/ dget tables attr = None) ->
  eff m c2 name attr s =
  Some (match (match dget tables attr with Some t => tget t name s | None => None end) with
        | Some v => v
        | None => if is_series m attr then default_of m attr else fill m attr (cell row attr)
        end).
Proof.
  intros I Is Hv.
  assert (Ik : In name (dkeys rows)) by now apply (in_map fst) in I.
  destruct (frame_row m sns rows c NDm NDr Fresh name row I) as [r [Hr Hc]].
  rewrite eff_unfold. unfold dval, c2. rewrite ia_static, ia_dyn_get by exact NDt.
  fold c1 in Hr. rewrite Hr.
  assert (D1 : dyn c1 = dyn c) by now apply frame_dyn. rewrite D1.
  assert (Hold : forall t0, dget (dyn c) attr = Some t0 ->
            good_table sns (names_of c1) t0 /\ ~ In name (dkeys (tcols t0))).
  { intros t0 E0. apply dget_In in E0. split.
    - destruct c1_good as [_ [_ [_ [_ [_ G]]]]]. apply (G attr). now rewrite D1.
    - intros X. apply (Fresh name Ik). destruct Gc as [_ [_ [_ [_ [_ G]]]]].
      destruct (G attr t0 E0) as [_ [_ Z]]. unfold dkeys in X. apply in_map_iff in X.
      destruct X as [[x col] [E X]]. simpl in E. subst x. now apply (Z name col). }
  assert (Hfb : is_series m attr = false ->
     match dget r attr with Some v => v | None => VNaN end = fill m attr (cell row attr)).
  { intros Sr. apply Hc. exact Sr. }
  destruct (dget tables attr) as [t|] eqn:T.
  - assert (Hv' : varying m attr = true \/ dget (dyn c) attr = None).
    { destruct Hv as [?|[?|?]]; auto. discriminate. }
    pose proof (dget_In _ _ _ T) as It.
    assert (Nn : In name (names_of c1)).
    { unfold c1. rewrite frame_names by assumption. apply in_app_iff. now right. }
    destruct (imp_get m sns (names_of c1) attr t (dget (dyn c) attr) name s
                (tables_good attr t It) Hold Is Nn Hv') as [E|[Sr [E Nt]]].
    + rewrite E. destruct (tget t name s); auto. destruct (is_series m attr) eqn:Sr; auto.
      now rewrite Hfb.
    + rewrite E, Nt, Sr. reflexivity.
  - assert (Nd : match dget (dyn c) attr with Some t => tget t name s | None => None end = None).
    { destruct (dget (dyn c) attr) as [t0|] eqn:E0; auto.
      destruct (Hold t0 eq_refl) as [_ X]. apply tget_dmem_false.
      destruct (dmem (tcols t0) name) eqn:E; auto. apply dmem_In in E. contradiction. }
    rewrite Nd. destruct (is_series m attr) eqn:Sr; auto. now rewrite Hfb.
Qed.

End Transfer.

(* every cell holding NaN belongs to an attribute whose default is NaN (or is unregistered): what
   add itself guarantees through fillna *)
Definition filled (m : meta) (c : comp) : Prop :=
  forall name row a, In (name, row) (static c) -> is_series m a = false ->
    cell row a = VNaN -> dmem m a = true -> default_of m a = VNaN.

Lemma filled_fill m c name row a :
  filled m c -> In (name, row) (static c) -> is_series m a = false ->
  fill m a (cell row a) = cell row a.
Proof.
  intros F I Sa. unfold fill. destruct (is_nan (cell row a)) eqn:N; auto.
  destruct (dmem m a) eqn:D; auto.
  assert (E : cell row a = VNaN) by (destruct (cell row a); try discriminate; auto).
  rewrite E. eapply F; eauto.
Qed.

(* the value read, written with cell *)
Lemma eff_row m c name row attr s :
  dget (static c) name = Some row ->
  eff m c name attr s =
  Some (match (match dget (dyn c) attr with Some t => tget t name s | None => None end) with
        | Some v => v
        | None => if is_series m attr then default_of m attr else cell row attr
        end).
Proof.
  intros H. unfold eff. rewrite H.
  destruct (match dget (dyn c) attr with Some t => tget t name s | None => None end); auto.
  destruct (is_series m attr); auto.
Qed.

(* ---------- rebuild (slice, copy) ---------- *)
Lemma empty_comp_good m : NoDup (dkeys m) -> good_comp ["now"] m (empty_comp m).
Proof.
  intros ND. pose proof (init_Inv [("x", m)]) as H.
  assert (Hok : forall cls m0, dget [("x", m)] cls = Some m0 -> NoDup (dkeys m0)).
  { intros cls m0 E. apply dget_In in E. destruct E as [E|[]]. now injection E as _ <-. }
  specialize (H Hok). destruct H as [_ [_ [_ [_ [_ F]]]]].
  - constructor; [simpl; tauto|constructor].
  - apply (F "x"); reflexivity.
Qed.

Lemma set_empty_comp m sns : set_snapshots_comp m sns (empty_comp m)
  = {| static := []; dyn := map (fun e => (fst e, {| tindex := sns; tcols := [] |}))
                                 (filter (fun e => is_varying_kind (akind (snd e))) m) |}.
Proof.
  unfold set_snapshots_comp, empty_comp; simpl. f_equal. rewrite map_map. reflexivity.
Qed.

Lemma tget_restrict time names t name s :
  tget (restrict time names t) name s =
  if mem name names && dmem (tcols t) name && mem s time
  then Some (match tget t name s with Some v => v | None => VNaN end) else None.
Proof.
  unfold tget, restrict; simpl.
  rewrite (dget_map_val (fun _ col => reindex_col (tindex t) time VNaN col)).
  rewrite (dget_filter_key (fun x => mem x names)). unfold dmem.
  destruct (mem name names); simpl; auto.
  destruct (dget (tcols t) name) as [col|]; simpl; auto.
  unfold reindex_col.
  apply (colget_map time (fun s => match colget (tindex t) col s with Some v => v | None => VNaN end)).
Qed.

Lemma restrict_good S time N names t :
  NoDup names -> good_table S N t -> good_table time names (restrict time names t).
Proof.
  intros NDn [A [B C]]. split; [reflexivity|]. split; simpl.
  - rewrite (dkeys_map_val (fun _ col => reindex_col (tindex t) time VNaN col)).
    now apply NoDup_map_filter.
  - intros name col I. apply in_map_iff in I. destruct I as [[x cl] [E I]]. simpl in E.
    injection E as <- <-. apply filter_In in I. destruct I as [I M]. simpl in M.
    apply mem_In in M. split; auto. apply map_length.
Qed.

Lemma rebuild_spec m S rows time src c' :
  NoDup (dkeys m) -> no_series_cells m rows -> good_comp S m src ->
  rebuild m rows time src = inl c' ->
  NoDup (dkeys rows) /\
  names_of c' = dkeys rows /\
  good_comp time m c' /\
  forall name row attr s, In (name, row) rows -> In s time ->
    eff m c' name attr s =
    Some (match (match dget (dyn src) attr with
                 | Some t => if dmem (tcols t) name
                             then Some (match tget t name s with Some v => v | None => VNaN end)
                             else None
                 | None => None end) with
          | Some v => v
          | None => if is_series m attr then default_of m attr else fill m attr (cell row attr)
          end).
Proof.
  intros NDm NS Gs. unfold rebuild.
  destruct (nodupb (dkeys rows)) eqn:NDr.
  2:{ rewrite add_frame_dup; [discriminate|]. intros X. apply nodupb_spec in X. congruence. }
  apply nodupb_spec in NDr. rewrite add_frame_eq by exact NDr.
  set (k1 := import_components m ["now"] false (dkeys rows) (stc rows) (empty_comp m)).
  intros E. apply (f_equal (fun x => match x with inl c => c | inr _ => c' end)) in E.
  cbv beta iota zeta in E. subst c'.
  assert (Fresh : forall x, In x (dkeys rows) -> ~ In x (names_of (empty_comp m))).
  { intros x _ H. exact H. }
  pose proof (empty_comp_good m NDm) as G0.
  assert (G1 : good_comp ["now"] m k1) by (apply ic_good; auto; apply NoDup_stc).
  assert (N1 : names_of k1 = dkeys rows).
  { unfold k1. rewrite frame_names by assumption. reflexivity. }
  pose proof (set_snapshots_comp_good ["now"] time m k1 G1) as G2.
  destruct Gs as [_ [Gs2 [_ [_ [Gs5 Gs6]]]]].
  assert (DG : forall attr, dget (fold_left (fun d e => dset d (fst e) (restrict time (dkeys rows) (snd e)))
                        (dyn src) (dyn (set_snapshots_comp m time k1))) attr =
            match dget (dyn src) attr with
            | Some t => Some (restrict time (dkeys rows) t)
            | None => dget (dyn (set_snapshots_comp m time k1)) attr end).
  { intros attr. apply (fold_dset_entries_get (fun _ t => restrict time (dkeys rows) t)). exact Gs2. }
  split; [exact NDr|]. split; [exact N1|]. split.
  - destruct G2 as [A [B [C [C' [D E]]]]]. split; [exact A|]. split; simpl.
    { apply (fold_dset_entries_NoDup (fun _ t => restrict time (dkeys rows) t)). exact B. }
    split; [exact C|]. split; [exact C'|]. split.
    + intros a am Ha K. apply dmem_In, dmem_true. rewrite DG.
      destruct (dget (dyn src) a); eauto. apply dget_keys_Some. eauto.
    + intros a t I. apply In_dget in I.
      2:{ apply (fold_dset_entries_NoDup (fun _ t => restrict time (dkeys rows) t)). exact B. }
      rewrite DG in I. destruct (dget (dyn src) a) as [t0|] eqn:T.
      * injection I as <-. apply dget_In in T. eapply good_table_mono.
        2:{ eapply restrict_good; [exact NDr|]. apply (Gs6 a t0 T). }
        intros x Ix. change (In x (names_of k1)). now rewrite N1.
      * apply dget_In in I. exact (E a t I).
  - intros name row attr s I Is.
    destruct (frame_row m ["now"] rows (empty_comp m) NDm NDr Fresh name row I) as [r [Hr Hc]].
    assert (Ik : In name (dkeys rows)) by now apply (in_map fst) in I.
    fold k1 in Hr. unfold eff. cbn [static dyn].
    change (static (set_snapshots_comp m time k1)) with (static k1). rewrite Hr, DG.
    apply mem_In in Ik as Mk. apply mem_In in Is as Ms.
    destruct (dget (dyn src) attr) as [t|] eqn:T.
    + rewrite tget_restrict, Mk, Ms, andb_true_r. simpl.
      destruct (dmem (tcols t) name); auto.
      destruct (is_series m attr) eqn:Sr; auto. fold (cell r attr). now rewrite (Hc attr Sr).
    + assert (X : match dget (dyn (set_snapshots_comp m time k1)) attr with
                  | Some t => tget t name s | None => None end = None).
      { change (dyn (set_snapshots_comp m time k1))
          with (map (fun e => (fst e, set_snapshots_table m time (fst e) (snd e))) (dyn k1)).
        rewrite (dget_map_val (fun a t => set_snapshots_table m time a t)).
        assert (D1 : dyn k1 = dyn (empty_comp m)) by (apply frame_dyn; auto). rewrite D1.
        destruct (dget (dyn (empty_comp m)) attr) as [t|] eqn:T1; auto. simpl.
        rewrite set_snapshots_table_get.
        assert (Et : tcols t = []).
        { apply dget_In in T1. unfold empty_comp in T1; simpl in T1. apply in_map_iff in T1.
          destruct T1 as [e [E1 _]]. now injection E1 as _ <-. }
        rewrite Et. reflexivity. }
      rewrite X. destruct (is_series m attr) eqn:Sr; auto.
      fold (cell r attr). now rewrite (Hc attr Sr).
Qed.

(* for rows taken over unchanged, every read at a kept snapshot is as in the source *)
Lemma rebuild_same m S rows time src c' name row attr s :
  NoDup (dkeys m) -> no_series_cells m rows -> good_comp S m src -> filled m src ->
  (forall s, In s time -> In s S) ->
  rebuild m rows time src = inl c' ->
  In (name, row) rows -> In s time ->
  (exists row0, In (name, row0) (static src) /\ cell row attr = cell row0 attr) ->
  eff m c' name attr s = eff m src name attr s.
Proof.
  intros NDm NS Gs F Sub E I Is [row0 [I0 Hrow]].
  destruct (rebuild_spec m S rows time src c' NDm NS Gs E) as [_ [_ [_ H]]].
  rewrite (H name row attr s I Is).
  assert (R0 : dget (static src) name = Some row0).
  { apply In_dget; auto. destruct Gs as [A _]. exact A. }
  rewrite (eff_row m src name row0 attr s R0). f_equal.
  destruct (dget (dyn src) attr) as [t|] eqn:T.
  - destruct (dmem (tcols t) name) eqn:D.
    + assert (Gt : good_table S (names_of src) t).
      { destruct Gs as [_ [_ [_ [_ [_ G]]]]]. apply dget_In in T. eauto. }
      destruct (tget_good_Some _ _ _ _ _ Gt D (Sub s Is)) as [v ->]. reflexivity.
    + rewrite tget_dmem_false by exact D. destruct (is_series m attr) eqn:Sr; auto.
      rewrite Hrow. eapply filled_fill; eauto.
  - destruct (is_series m attr) eqn:Sr; auto. rewrite Hrow. eapply filled_fill; eauto.
Qed.

(* ---------- slice ---------- *)
Lemma map_opt_keys {A B} (f : string * A -> option (string * B)) (d : dict A) r :
  (forall e y, f e = Some y -> fst y = fst e) ->
  map_opt f d = Some r -> dkeys r = dkeys d.
Proof.
  intros Hf. revert r. induction d as [|e d IH]; intros r E; simpl in E.
  - now injection E as <-.
  - destruct (f e) as [y|] eqn:Fe; [|discriminate].
    destruct (map_opt f d) as [ys|] eqn:M; [|discriminate]. injection E as <-.
    unfold dkeys in *. simpl. rewrite (Hf _ _ Fe). f_equal. now apply IH.
Qed.

Lemma map_opt_get {A B} (f : string * A -> option (string * B)) (d : dict A) r k x :
  (forall e y, f e = Some y -> fst y = fst e) ->
  map_opt f d = Some r -> dget d k = Some x ->
  exists y, f (k, x) = Some (k, y) /\ dget r k = Some y.
Proof.
  intros Hf. revert r. induction d as [|[k0 x0] d IH]; intros r E G; simpl in *; [discriminate|].
  destruct (f (k0, x0)) as [[k1 y]|] eqn:Fe; [|discriminate].
  destruct (map_opt f d) as [ys|] eqn:M; [|discriminate]. injection E as <-.
  pose proof (Hf _ _ Fe) as K. simpl in K. subst k1. simpl.
  destruct (String.eqb k0 k) eqn:Ek.
  - apply String.eqb_eq in Ek. subst k0. injection G as ->. eauto.
  - apply IH; auto.
Qed.

Section Nets.
Variable metas : dict meta.
Hypothesis metas_ok : forall cls m, dget metas cls = Some m -> NoDup (dkeys m).
Variable role_of : string -> role.

Definition slice_f (key time : list string) (e : string * comp) : option (string * comp) :=
  match slice_rows (role_of (fst e)) key (snd e) with
  | None => None
  | Some rows => match rebuild (meta_of metas (fst e)) rows time (snd e) with
                 | inl c => Some (fst e, c)
                 | inr _ => None
                 end
  end.

Lemma slice_inv n key time n' :
  slice metas role_of n key time = Some n' ->
  (forall s, In s time -> In s (snaps n)) /\ time <> [] /\ snaps n' = time /\
  tindex (weights n') = time /\
  (forall w s, In s time -> In w (dkeys (tcols (weights n))) ->
     tget (weights n') w s = Some (match tget (weights n) w s with Some v => v | None => VNaN end)) /\
  map_opt (slice_f key time) (comps n) = Some (comps n').
Proof.
  unfold slice. destruct (forallb _ time) eqn:F; simpl; [|discriminate].
  destruct time as [|s0 r]; [discriminate|]. remember (s0 :: r) as time.
  fold (slice_f key time).
  destruct (map_opt (slice_f key time) (comps n)) as [cs|] eqn:M; [|discriminate].
  intros E. injection E as <-. simpl.
  split. { intros s Is. rewrite forallb_forall in F. specialize (F s Is). now apply mem_In in F. }
  split; [subst; discriminate|]. split; [reflexivity|]. split; [reflexivity|]. split; [|reflexivity].
  intros w s Is Iw. pose proof (tget_reindex_rows time VNaN (weights n) w s) as H.
  unfold reindex_rows in H. rewrite H. apply dmem_In in Iw. apply mem_In in Is.
  now rewrite Iw, Is.
Qed.

Lemma slice_f_keys key time e y : slice_f key time e = Some y -> fst y = fst e.
Proof.
  unfold slice_f. destruct (slice_rows _ _ _); [|discriminate].
  destruct (rebuild _ _ _ _); [|discriminate]. intros E. now injection E as <-.
Qed.

Lemma slice_rows_no_series m r key c rows :
  good_comp [] m c \/ (exists S, good_comp S m c) -> is_series m "sub_network" = false ->
  slice_rows r key c = Some rows -> no_series_cells m rows.
Proof.
  intros G Ss.
  assert (C : forall name row a, In (name, row) (static c) -> In a (dkeys row) -> is_series m a = false).
  { destruct G as [G|[S G]]; destruct G as [_ [_ [_ [G _]]]]; exact G. }
  destruct r; simpl.
  - destruct (forallb _ key) eqn:F; [|discriminate]. intros E. injection E as <-.
    intros name row a I Ia. apply in_map_iff in I. destruct I as [b [Eb I]]. injection Eb as -> <-.
    apply dmem_In, dmem_true in Ia. destruct Ia as [v Ia].
    destruct (string_dec a "sub_network") as [->|N]; auto.
    rewrite dget_dset_neq in Ia by congruence.
    destruct (dget (static c) name) as [row0|] eqn:R; [|discriminate].
    apply dget_In in R. apply (C name row0); auto. now apply dget_Some_keys in Ia.
  - intros E. injection E as <-. intros name row a I. apply filter_In in I. destruct I. eauto.
  - intros E. injection E as <-. intros name row a I. apply filter_In in I. destruct I. eauto.
  - intros E. injection E as <-. exact C.
  - intros E. injection E as <-. intros name row a [].
Qed.

Lemma slice_correct n key time n' cls m c c' :
  Inv metas n -> slice metas role_of n key time = Some n' ->
  dget metas cls = Some m -> dget (comps n) cls = Some c -> dget (comps n') cls = Some c' ->
  is_series m "sub_network" = false -> filled m c ->
  names_of c' =
    (match role_of cls with
     | RBus => key
     | ROnePort => map fst (filter (fun e => is_name_in (cell (snd e) "bus") key) (static c))
     | RBranch => map fst (filter (fun e => is_name_in (cell (snd e) "bus0") key &&
                                            is_name_in (cell (snd e) "bus1") key) (static c))
     | ROther => names_of c
     | RSkip => []
     end) /\
  NoDup (names_of c') /\
  (forall x, In x (names_of c') -> In x (names_of c)) /\
  (forall name attr s, In name (names_of c') -> In s time ->
     (role_of cls = RBus -> attr <> "sub_network") ->
     eff m c' name attr s = eff m c name attr s).
Proof.
  intros I E Hm Hc Hc' Ss F.
  destruct (slice_inv n key time n' E) as [Sub [Ne [_ [_ [_ M]]]]].
  destruct (map_opt_get (slice_f key time) (comps n) (comps n') cls c (slice_f_keys key time) M Hc)
    as [y [Fy Gy]].
  rewrite Hc' in Gy. injection Gy as <-.
  unfold slice_f in Fy. simpl in Fy.
  destruct (slice_rows (role_of cls) key c) as [rows|] eqn:R; [|discriminate].
  unfold meta_of in Fy. rewrite Hm in Fy.
  destruct (rebuild m rows time c) as [c0|] eqn:B; [|discriminate]. injection Fy as ->.
  pose proof (metas_ok cls m Hm) as NDm.
  pose proof I as [_ [_ [_ [_ [_ FI]]]]]. pose proof (FI cls c m Hc Hm) as G.
  assert (NS : no_series_cells m rows) by (eapply slice_rows_no_series; eauto).
  destruct (rebuild_spec m (snaps n) rows time c c' NDm NS G B) as [NDr [N' [G' _]]].
  assert (Hnames : dkeys rows = (match role_of cls with
     | RBus => key
     | ROnePort => map fst (filter (fun e => is_name_in (cell (snd e) "bus") key) (static c))
     | RBranch => map fst (filter (fun e => is_name_in (cell (snd e) "bus0") key &&
                                            is_name_in (cell (snd e) "bus1") key) (static c))
     | ROther => names_of c
     | RSkip => []
     end)).
  { destruct (role_of cls); simpl in R.
    - destruct (forallb _ key); [|discriminate]. injection R as <-.
      apply (dkeys_map_names (fun b => dset (match dget (static c) b with Some row => row | None => [] end)
                                        "sub_network" (VStr ""))).
    - injection R as <-. reflexivity.
    - injection R as <-. reflexivity.
    - injection R as <-. reflexivity.
    - injection R as <-. reflexivity. }
  (* where each row comes from *)
  assert (Hsrc : forall name row, In (name, row) rows -> exists row0, In (name, row0) (static c) /\
            forall a, (role_of cls = RBus -> a <> "sub_network") -> cell row a = cell row0 a).
  { intros name row Ir. destruct (role_of cls) eqn:Er; simpl in R.
    - destruct (forallb _ key) eqn:Fk; [|discriminate]. injection R as <-.
      apply in_map_iff in Ir. destruct Ir as [b [Eb Ib]]. injection Eb as -> <-.
      rewrite forallb_forall in Fk. specialize (Fk name Ib). apply mem_In in Fk.
      unfold names_of in Fk. apply dget_keys_Some in Fk. destruct Fk as [row0 Fk]. rewrite Fk.
      exists row0. split; [now apply dget_In|]. intros a Na. unfold cell.
      rewrite dget_dset_neq by (intros X; symmetry in X; now apply Na). reflexivity.
    - injection R as <-. apply filter_In in Ir. destruct Ir. eauto.
    - injection R as <-. apply filter_In in Ir. destruct Ir. eauto.
    - injection R as <-. eauto.
    - injection R as <-. destruct Ir. }
  split; [now rewrite N'|]. split; [now rewrite N'|]. split.
  - intros x Ix. rewrite N' in Ix. apply dget_keys_Some in Ix. destruct Ix as [row Ix].
    apply dget_In in Ix. destruct (Hsrc x row Ix) as [row0 [I0 _]].
    now apply (in_map fst) in I0.
  - intros name attr s Ix Is Na. rewrite N' in Ix. apply dget_keys_Some in Ix.
    destruct Ix as [row Ix]. apply dget_In in Ix. destruct (Hsrc name row Ix) as [row0 [I0 Hr]].
    apply (rebuild_same m (snaps n) rows time c c' name row attr s); auto.
    exists row0. split; auto.
Qed.

(* every bus a kept one-port or branch refers to is in the slice *)
Lemma slice_closed n key time n' cls m c c' name s attr :
  Inv metas n -> slice metas role_of n key time = Some n' ->
  dget metas cls = Some m -> dget (comps n) cls = Some c -> dget (comps n') cls = Some c' ->
  is_series m "sub_network" = false -> filled m c ->
  (role_of cls = ROnePort /\ attr = "bus" \/
   role_of cls = RBranch /\ (attr = "bus0" \/ attr = "bus1")) ->
  is_series m attr = false -> dget (dyn c) attr = None ->
  In name (names_of c') -> In s time ->
  exists b, eff m c' name attr s = Some (VStr b) /\ In b key.
Proof.
  intros I E Hm Hc Hc' Ss F Hr Sa Da In1 Is.
  destruct (slice_correct n key time n' cls m c c' I E Hm Hc Hc' Ss F) as [N' [_ [_ He]]].
  assert (Hv : role_of cls = RBus -> attr <> "sub_network").
  { intros X. destruct Hr as [[Y _]|[Y _]]; congruence. }
  rewrite (He name attr s In1 Is Hv).
  pose proof I as [_ [_ [_ [_ [_ FI]]]]]. destruct (FI cls c m Hc Hm) as [ND _].
  assert (X : exists row, In (name, row) (static c) /\ is_name_in (cell row attr) key = true).
  { rewrite N' in In1. destruct Hr as [[Y ->]|[Y Z]]; rewrite Y in In1;
      apply in_map_iff in In1; destruct In1 as [[x row] [Ex In1]]; simpl in Ex; subst x;
      apply filter_In in In1; destruct In1 as [I1 I2]; simpl in I2.
    - eauto.
    - apply andb_true_iff in I2. destruct I2. destruct Z as [-> | ->]; eauto. }
  destruct X as [row [Ir Ib]].
  rewrite (eff_row m c name row attr s (In_dget _ _ _ ND Ir)), Da, Sa.
  destruct (cell row attr) as [|b| |]; try discriminate. exists b. split; auto. now apply mem_In.
Qed.

(* ---------- copy ---------- *)
Lemma copy_inv n sns n' :
  copy metas n (Some sns) None = Some n' -> sns <> [] ->
  (forall s, In s sns -> In s (snaps n)) /\ snaps n' = sns /\
  (forall w s, In s sns -> In w (dkeys (tcols (weights n))) ->
     tget (weights n') w s = Some (match tget (weights n) w s with Some v => v | None => VNaN end)) /\
  map_opt (fun e => match rebuild (meta_of metas (fst e)) (static (snd e)) sns (snd e) with
                    | inl c => Some (fst e, c) | inr _ => None end) (comps n) = Some (comps n').
Proof.
  unfold copy. destruct (forallb _ sns) eqn:F; simpl; [|discriminate].
  destruct sns as [|s0 r]; [congruence|]. remember (s0 :: r) as sns.
  set (f := fun e => match rebuild (meta_of metas (fst e)) (static (snd e)) sns (snd e) with
                    | inl c => Some (fst e, c) | inr _ => None end).
  destruct (map_opt f (comps n)) as [cs|] eqn:M; [|discriminate].
  intros E _. injection E as <-. simpl.
  split. { intros s Is. rewrite forallb_forall in F. specialize (F s Is). now apply mem_In in F. }
  split; [reflexivity|]. split; [|reflexivity].
  intros w s Is Iw. pose proof (tget_reindex_rows sns VNaN (weights n) w s) as H.
  unfold reindex_rows in H. rewrite H. apply dmem_In in Iw. apply mem_In in Is.
  now rewrite Iw, Is.
Qed.

Lemma copy_correct n sns n' cls m c c' :
  Inv metas n -> copy metas n (Some sns) None = Some n' -> sns <> [] ->
  dget metas cls = Some m -> dget (comps n) cls = Some c -> dget (comps n') cls = Some c' ->
  filled m c ->
  snaps n' = sns /\ names_of c' = names_of c /\
  (forall name attr s, In name (names_of c) -> In s sns ->
     eff m c' name attr s = eff m c name attr s).
Proof.
  intros I E Ne Hm Hc Hc' F.
  destruct (copy_inv n sns n' E Ne) as [Sub [Sn [_ M]]].
  assert (Kf : forall (e : string * comp) (y : string * comp),
     match rebuild (meta_of metas (fst e)) (static (snd e)) sns (snd e) with
     | inl c => Some (fst e, c) | inr _ => None end = Some y -> fst y = fst e).
  { intros e y. destruct (rebuild _ _ _ _); [|discriminate]. intros X. now injection X as <-. }
  destruct (map_opt_get _ (comps n) (comps n') cls c Kf M Hc) as [y [Fy Gy]].
  rewrite Hc' in Gy. injection Gy as <-. simpl in Fy. unfold meta_of in Fy. rewrite Hm in Fy.
  destruct (rebuild m (static c) sns c) as [c0|] eqn:B; [|discriminate]. injection Fy as ->.
  pose proof (metas_ok cls m Hm) as NDm.
  pose proof I as [_ [_ [_ [_ [_ FI]]]]]. pose proof (FI cls c m Hc Hm) as G.
  assert (NS : no_series_cells m (static c)) by (destruct G as [_ [_ [_ [H _]]]]; exact H).
  destruct (rebuild_spec m (snaps n) (static c) sns c c' NDm NS G B) as [NDr [N' _]].
  split; [exact Sn|]. split; [exact N'|].
  intros name attr s In1 Is. apply dget_keys_Some in In1. destruct In1 as [row In1].
  apply dget_In in In1.
  apply (rebuild_same m (snaps n) (static c) sns c c' name row attr s); eauto.
Qed.

(* ---------- merge ---------- *)
Definition merge_step (other : net) (with_time : bool) (acc : net + nerr) (cls : string) : net + nerr :=
  match acc with
  | inr e => inr e
  | inl n1 =>
      match dget (comps other) cls, dget (comps n1) cls with
      | Some oc, Some c =>
          match merge_comp with_time (meta_of metas cls) (snaps n1) oc c with
          | inl c' => inl {| snaps := snaps n1; weights := weights n1;
                             comps := dset (comps n1) cls c' |}
          | inr e => inr e
          end
      | _, _ => inr KeyErr
      end
  end.

Lemma merge_fold other wt classes n n' :
  NoDup classes ->
  fold_left (merge_step other wt) classes (inl n) = inl n' ->
  snaps n' = snaps n /\ weights n' = weights n /\ dkeys (comps n') = dkeys (comps n) /\
  (forall cls, ~ In cls classes -> dget (comps n') cls = dget (comps n) cls) /\
  (forall cls, In cls classes -> exists oc c c',
     dget (comps other) cls = Some oc /\ dget (comps n) cls = Some c /\
     merge_comp wt (meta_of metas cls) (snaps n) oc c = inl c' /\ dget (comps n') cls = Some c').
Proof.
  revert n. induction classes as [|k r IH]; intros n ND E.
  - simpl in E. injection E as <-. repeat split; auto. intros cls [].
  - inversion ND as [|? ? NI ND']; subst.
    cbn [fold_left] in E.
    destruct (merge_step other wt (inl n) k) as [n1|e1] eqn:St.
    2:{ exfalso. clear - E. induction r; simpl in E; [discriminate|auto]. }
    unfold merge_step in St.
    destruct (dget (comps other) k) as [oc|] eqn:Ho; [|discriminate].
    destruct (dget (comps n) k) as [c|] eqn:Hc; [|discriminate].
    destruct (merge_comp wt (meta_of metas k) (snaps n) oc c) as [c'|] eqn:Mc; [|discriminate].
    injection St as <-.
    destruct (IH _ ND' E) as [A [A' [K [B C]]]]. simpl in A, A', K, B, C.
    split; [exact A|]. split; [exact A'|]. split.
    { rewrite K. apply dkeys_dset_in. now apply dget_Some_keys in Hc. }
    split.
    + intros cls Nc. rewrite B.
      * apply dget_dset_neq. intros ->. apply Nc. now left.
      * intros X. apply Nc. now right.
    + intros cls [->|Ic].
      * exists oc, c, c'. repeat split; auto. rewrite B by exact NI. apply dget_dset_eq.
      * destruct (C cls Ic) as [oc0 [d0 [d' [H1 [H2 [H3 H4]]]]]].
        exists oc0, d0, d'. repeat split; auto.
        rewrite dget_dset_neq in H2; auto. intros ->. contradiction.
Qed.

Lemma merge_unfold n other classes wt n' :
  merge metas n other classes wt = inl n' ->
  (forall cls oc c, In cls classes -> dget (comps other) cls = Some oc ->
     dget (comps n) cls = Some c -> forall x, In x (names_of oc) -> ~ In x (names_of c)) /\
  (wt = true -> snaps n = snaps other) /\
  fold_left (merge_step other wt) classes (inl n) = inl n'.
Proof.
  unfold merge. destruct (existsb _ classes) eqn:Ov; [discriminate|].
  destruct (wt && negb (list_eqb (snaps n) (snaps other))) eqn:Sn; [discriminate|].
  destruct (wt && negb (table_eqb (weights n) (weights other))); [discriminate|].
  fold (merge_step other wt).
  destruct (fold_left (merge_step other wt) classes (inl n)) eqn:Fd; [|discriminate].
  intros E. injection E as ->. split; [|split; [|reflexivity]].
  - intros cls oc c Ic Ho Hc x Ix Iy.
    assert (X : existsb (fun cls => match dget (comps other) cls, dget (comps n) cls with
                         | Some oc, Some c => overlap oc c | _, _ => false end) classes = true).
    { apply existsb_exists. exists cls. split; auto. rewrite Ho, Hc. unfold overlap.
      apply existsb_exists. exists x. split; auto. now apply mem_In. }
    congruence.
  - intros ->. simpl in Sn. apply negb_false_iff, list_eqb_eq in Sn. exact Sn.
Qed.

Lemma merge_correct n other classes wt n' cls m c oc c' :
  Inv metas n -> Inv metas other -> NoDup classes ->
  merge metas n other classes wt = inl n' -> In cls classes ->
  dget metas cls = Some m -> dget (comps n) cls = Some c -> dget (comps other) cls = Some oc ->
  dget (comps n') cls = Some c' -> filled m oc ->
  snaps n' = snaps n /\ weights n' = weights n /\
  names_of c' = names_of c ++ names_of oc /\ NoDup (names_of c') /\
  (forall name attr s, In name (names_of c) ->
     dget (static c') name = dget (static c) name /\
     eff m c' name attr s = eff m c name attr s) /\
  (forall name attr s, In name (names_of oc) -> In s (snaps n) -> wt = true ->
     (varying m attr = true \/ dget (dyn c) attr = None \/ dget (dyn oc) attr = None) ->
     eff m c' name attr s = eff m oc name attr s) /\
  (forall name attr s row, In name (names_of oc) -> In s (snaps n) -> wt = false ->
     dget (static oc) name = Some row ->
     eff m c' name attr s =
     Some (if is_series m attr then default_of m attr else cell row attr)).
Proof.
  intros I Io NDc E Ic Hm Hc Ho Hc' F.
  destruct (merge_unfold _ _ _ _ _ E) as [Dj [Sn Fd]].
  destruct (merge_fold other wt classes n n' NDc Fd) as [A [A' [_ [_ C]]]].
  destruct (C cls Ic) as [oc0 [d0 [d' [H1 [H2 [H3 H4]]]]]].
  rewrite Ho in H1. injection H1 as <-. rewrite Hc in H2. injection H2 as <-.
  rewrite Hc' in H4. injection H4 as <-.
  unfold meta_of in H3. rewrite Hm in H3.
  pose proof (metas_ok cls m Hm) as NDm.
  pose proof I as [_ [_ [_ [_ [_ FI]]]]]. pose proof (FI cls c m Hc Hm) as G.
  pose proof Io as [_ [_ [_ [_ [_ FO]]]]]. pose proof (FO cls oc m Ho Hm) as Go.
  split; [exact A|]. split; [exact A'|].
  unfold merge_comp in H3. destruct (static oc) as [|e0 rest] eqn:So.
  { injection H3 as <-.
    assert (No : names_of oc = []) by (unfold names_of; now rewrite So).
    rewrite No, app_nil_r. split; [reflexivity|]. split; [destruct G; assumption|]. split; [auto|].
    split; [intros name attr s []|intros name attr s row []]. }
  rewrite <- So in H3. rewrite <- So. clear e0 rest So.
  assert (Fresh : forall x, In x (dkeys (static oc)) -> ~ In x (names_of c)).
  { intros x Ix. apply (Dj cls oc c Ic Ho Hc x Ix). }
  assert (NDr : NoDup (dkeys (static oc))) by (destruct Go as [X _]; exact X).
  assert (NS : no_series_cells m (static oc)) by (destruct Go as [_ [_ [_ [X _]]]]; exact X).
  set (tables := if wt then dyn oc else []) in *.
  assert (NDt : NoDup (dkeys tables)).
  { unfold tables. destruct wt; [|constructor]. now destruct Go as [_ [X _]]. }
  assert (Gt : forall a t, In (a, t) tables -> good_table (snaps n) (dkeys (static oc)) t).
  { unfold tables. destruct wt; [|intros a t []]. intros a t It.
    destruct Go as [_ [_ [_ [_ [_ X]]]]]. rewrite (Sn eq_refl). exact (X a t It). }
  rewrite transfer_eq in H3 by assumption. injection H3 as <-.
  assert (TN : names_of (c2 m (snaps n) (static oc) tables c) = names_of c ++ names_of oc)
    by (apply transfer_names; assumption).
  split; [exact TN|]. split.
  { destruct (transfer_good m (snaps n) (static oc) tables c NDm NDr Fresh Gt G) as [X _].
    exact X. }
  split; [|split].
  - intros name attr s In1. apply transfer_old; assumption.
  - intros name attr s In1 Is Wt Hv. subst wt. apply dget_keys_Some in In1.
    destruct In1 as [row Hr]. pose proof (dget_In _ _ _ Hr) as Ir.
    rewrite (transfer_new m (snaps n) (static oc) tables c NDm NDr Fresh NS NDt Gt G name row attr s);
      auto.
    rewrite (eff_row m oc name row attr s Hr). unfold tables. f_equal.
    destruct (match dget (dyn oc) attr with Some t => tget t name s | None => None end); auto.
    destruct (is_series m attr) eqn:Sr; auto. eapply filled_fill; eauto.
  - intros name attr s row In1 Is Wt Hr. subst wt. pose proof (dget_In _ _ _ Hr) as Ir.
    rewrite (transfer_new m (snaps n) (static oc) tables c NDm NDr Fresh NS NDt Gt G name row attr s);
      auto.
    unfold tables. simpl. destruct (is_series m attr) eqn:Sr; auto. f_equal. eapply filled_fill; eauto.
Qed.

Lemma merge_skipped n other classes wt n' cls :
  NoDup classes -> merge metas n other classes wt = inl n' -> ~ In cls classes ->
  dget (comps n') cls = dget (comps n) cls.
Proof.
  intros ND E Nc. destruct (merge_unfold _ _ _ _ _ E) as [_ [_ Fd]].
  destruct (merge_fold other wt classes n n' ND Fd) as [_ [_ [_ [B _]]]]. auto.
Qed.

(* overlapping names or disagreeing snapshots: refused *)
Lemma merge_refused n other classes wt cls oc c x :
  In cls classes -> dget (comps other) cls = Some oc -> dget (comps n) cls = Some c ->
  In x (names_of oc) -> In x (names_of c) -> merge metas n other classes wt = inr ValueErr.
Proof.
  intros Ic Ho Hc Ix Iy. unfold merge.
  assert (X : existsb (fun cls => match dget (comps other) cls, dget (comps n) cls with
                         | Some oc, Some c => overlap oc c | _, _ => false end) classes = true).
  { apply existsb_exists. exists cls. split; auto. rewrite Ho, Hc. unfold overlap.
    apply existsb_exists. exists x. split; auto. now apply mem_In. }
  now rewrite X.
Qed.

Lemma merge_refused_snapshots n other classes :
  snaps n <> snaps other -> merge metas n other classes true = inr ValueErr.
Proof.
  intros N. unfold merge. destruct (existsb _ classes); auto. simpl.
  destruct (list_eqb (snaps n) (snaps other)) eqn:E; auto.
  apply list_eqb_eq in E. contradiction.
Qed.

(* ---------- when the calls succeed ---------- *)
Lemma rebuild_defined m rows time src : NoDup (dkeys rows) -> exists c, rebuild m rows time src = inl c.
Proof. intros ND. unfold rebuild. rewrite add_frame_eq by exact ND. eauto. Qed.

Lemma map_opt_defined {A B} (f : A -> option B) l :
  (forall x, In x l -> exists y, f x = Some y) -> exists r, map_opt f l = Some r.
Proof.
  induction l as [|x l IH]; intros H; simpl; [eauto|].
  destruct (H x (or_introl eq_refl)) as [y ->].
  destruct IH as [r ->]; eauto. intros z Hz. apply H. now right.
Qed.

Lemma map_opt_none {A B} (f : A -> option B) l x : In x l -> f x = None -> map_opt f l = None.
Proof.
  induction l as [|y l IH]; intros H E; [destruct H|]. destruct H as [->|H]; simpl.
  - now rewrite E.
  - destruct (f y); auto. now rewrite (IH H E).
Qed.

Lemma NoDup_filter_keys {V} (p : string * V -> bool) (d : dict V) :
  NoDup (dkeys d) -> NoDup (dkeys (filter p d)).
Proof.
  induction d as [|[k v] d IH]; simpl; auto. intros H. inversion H as [|? ? A B]; subst.
  destruct (p (k, v)); simpl; auto. constructor; auto.
  intros X. apply A. unfold dkeys in *. apply in_map_iff in X. destruct X as [e [<- X]].
  apply filter_In in X. apply in_map. tauto.
Qed.

Lemma slice_defined n key time :
  Inv metas n -> NoDup (dkeys metas) ->
  (forall s, In s time -> In s (snaps n)) -> time <> [] -> NoDup key ->
  (forall cls c, role_of cls = RBus -> dget (comps n) cls = Some c ->
     forall b, In b key -> In b (names_of c)) ->
  exists n', slice metas role_of n key time = Some n'.
Proof.
  intros I NDm Sub Ne NDk Bus. unfold slice.
  assert (F : forallb (fun s => mem s (snaps n)) time = true).
  { apply forallb_forall. intros s Is. apply mem_In. auto. }
  rewrite F. simpl. destruct time as [|s0 r]; [congruence|]. remember (s0 :: r) as time.
  fold (slice_f key time).
  destruct (map_opt_defined (slice_f key time) (comps n)) as [cs Ec]; [|rewrite Ec; eauto].
  intros [cls c] Ie. unfold slice_f. cbn [fst snd].
  pose proof I as [_ [_ [_ [_ [KI FI]]]]].
  assert (NDc : NoDup (dkeys (comps n))) by (rewrite KI; exact NDm).
  pose proof (In_dget _ _ _ NDc Ie) as Hc.
  assert (Hm : exists m, dget metas cls = Some m).
  { apply dget_keys_Some. rewrite <- KI. now apply dget_Some_keys in Hc. }
  destruct Hm as [m Hm]. destruct (FI cls c m Hc Hm) as [ND _].
  assert (R : exists rows, slice_rows (role_of cls) key c = Some rows /\ NoDup (dkeys rows)).
  { unfold slice_rows. destruct (role_of cls) eqn:Er.
    - assert (Fk : forallb (fun b => mem b (names_of c)) key = true).
      { apply forallb_forall. intros b Ib. apply mem_In. eapply Bus; eauto. }
      rewrite Fk. eexists. split; [reflexivity|]. unfold dkeys. rewrite map_map. simpl. now rewrite map_id.
    - eexists. split; [reflexivity|]. now apply NoDup_filter_keys.
    - eexists. split; [reflexivity|]. now apply NoDup_filter_keys.
    - eexists. split; [reflexivity|]. exact ND.
    - eexists. split; [reflexivity|]. constructor. }
  destruct R as [rows [-> NDr]].
  destruct (rebuild_defined (meta_of metas cls) rows time c NDr) as [c' ->]. eauto.
Qed.

Lemma slice_refused n key time :
  time = [] \/ (exists s, In s time /\ ~ In s (snaps n)) \/
  (exists cls c b, role_of cls = RBus /\ dget (comps n) cls = Some c /\ In b key /\ ~ In b (names_of c)) ->
  slice metas role_of n key time = None.
Proof.
  unfold slice. intros [-> | [[s [Is Ns]] | [cls [c [b [R [Hc [Ib Nb]]]]]]]].
  - reflexivity.
  - assert (F : forallb (fun s => mem s (snaps n)) time = false).
    { apply not_true_iff_false. intros F. rewrite forallb_forall in F.
      specialize (F s Is). apply mem_In in F. contradiction. }
    now rewrite F.
  - destruct (negb _); auto. destruct time as [|s0 r]; auto. remember (s0 :: r) as time.
    fold (slice_f key time).
    rewrite (map_opt_none (slice_f key time) (comps n) (cls, c)); auto.
    + now apply dget_In.
    + unfold slice_f. cbn [fst snd]. rewrite R. unfold slice_rows.
      assert (F : forallb (fun b => mem b (names_of c)) key = false).
      { apply not_true_iff_false. intros F. rewrite forallb_forall in F.
        specialize (F b Ib). apply mem_In in F. contradiction. }
      now rewrite F.
Qed.

Lemma copy_defined n sns :
  Inv metas n -> NoDup (dkeys metas) -> (forall s, In s sns -> In s (snaps n)) -> sns <> [] ->
  exists n', copy metas n (Some sns) None = Some n'.
Proof.
  intros I NDm Sub Ne. unfold copy.
  assert (F : forallb (fun s => mem s (snaps n)) sns = true).
  { apply forallb_forall. intros s Is. apply mem_In. auto. }
  rewrite F. cbn [negb]. destruct sns as [|s0 r]; [congruence|]. remember (s0 :: r) as sns.
  set (f := fun e => match rebuild (meta_of metas (fst e)) (static (snd e)) sns (snd e) with
                    | inl c => Some (fst e, c) | inr _ => None end).
  destruct (map_opt_defined f (comps n)) as [cs Ec]; [|rewrite Ec; eauto].
  intros [cls c] Ie. unfold f. cbn [fst snd].
  pose proof I as [_ [_ [_ [_ [KI FI]]]]].
  assert (NDc : NoDup (dkeys (comps n))) by (rewrite KI; exact NDm).
  pose proof (In_dget _ _ _ NDc Ie) as Hc.
  assert (Hm : exists m, dget metas cls = Some m).
  { apply dget_keys_Some. rewrite <- KI. now apply dget_Some_keys in Hc. }
  destruct Hm as [m Hm]. destruct (FI cls c m Hc Hm) as [ND _].
  destruct (rebuild_defined (meta_of metas cls) (static c) sns c ND) as [c' ->]. eauto.
Qed.

Lemma copy_refused n sns wt s :
  In s sns -> ~ In s (snaps n) -> copy metas n (Some sns) wt = None.
Proof.
  intros Is Ns.
  assert (F : forallb (fun s => mem s (snaps n)) sns = false).
  { apply not_true_iff_false. intros F. rewrite forallb_forall in F.
    specialize (F s Is). apply mem_In in F. contradiction. }
  unfold copy. now rewrite F.
Qed.

Lemma val_eqb_self v : val_eqb v v = true.
Proof. destruct v; simpl; auto; [apply Z.eqb_refl|apply String.eqb_refl|apply Bool.eqb_reflx]. Qed.
Lemma vals_eqb_refl l : vals_eqb l l = true.
Proof. induction l; simpl; auto. now rewrite val_eqb_self. Qed.
Lemma tcols_eqb_refl d : tcols_eqb d d = true.
Proof. induction d as [|[k v] d IH]; simpl; auto. now rewrite String.eqb_refl, vals_eqb_refl. Qed.
Lemma val_eqb_sound a b : val_eqb a b = true -> a = b.
Proof.
  destruct a, b; simpl; try congruence; intros H.
  - apply Z.eqb_eq in H. now subst.
  - apply String.eqb_eq in H. now subst.
  - apply Bool.eqb_prop in H. now subst.
Qed.
Lemma vals_eqb_sound a b : vals_eqb a b = true -> a = b.
Proof.
  revert b. induction a as [|x a IH]; intros [|y b] H; simpl in H; try discriminate; auto.
  apply andb_true_iff in H. destruct H as [H1 H2]. apply val_eqb_sound in H1. f_equal; auto.
Qed.
Lemma tcols_eqb_sound a b : tcols_eqb a b = true -> a = b.
Proof.
  revert b. induction a as [|[k x] a IH]; intros [|[k' y] b] H; simpl in H; try discriminate; auto.
  apply andb_true_iff in H. destruct H as [H1 H2]. apply andb_true_iff in H1. destruct H1 as [H0 H1].
  apply String.eqb_eq in H0. apply vals_eqb_sound in H1. subst. f_equal. auto.
Qed.

Lemma merge_refused_weights n other classes :
  weights n <> weights other -> merge metas n other classes true = inr ValueErr.
Proof.
  intros N. unfold merge. destruct (existsb _ classes); auto. cbn [andb].
  destruct (negb (list_eqb (snaps n) (snaps other))); auto.
  destruct (table_eqb (weights n) (weights other)) eqn:E; auto. exfalso. apply N.
  unfold table_eqb in E. apply andb_true_iff in E. destruct E as [E1 E2].
  apply list_eqb_eq in E1. apply tcols_eqb_sound in E2.
  destruct (weights n), (weights other). simpl in *. now subst.
Qed.

Lemma merge_comp_defined wt m sns oc c :
  NoDup (names_of oc) -> exists c', merge_comp wt m sns oc c = inl c'.
Proof.
  intros ND. unfold merge_comp. destruct (static oc) as [|e r] eqn:E; [eauto|].
  rewrite <- E. unfold transfer. rewrite add_frame_eq by exact ND. eauto.
Qed.

Lemma merge_fold_defined other wt classes n :
  (forall cls, In cls classes -> exists oc, dget (comps other) cls = Some oc /\ NoDup (names_of oc)) ->
  (forall cls, In cls classes -> exists c, dget (comps n) cls = Some c) ->
  exists n', fold_left (merge_step other wt) classes (inl n) = inl n'.
Proof.
  revert n. induction classes as [|k r IH]; intros n Ho Hn; [simpl; eauto|].
  cbn [fold_left]. destruct (Ho k (or_introl eq_refl)) as [oc [Eo ND]].
  destruct (Hn k (or_introl eq_refl)) as [c Ec].
  assert (St : exists n1, merge_step other wt (inl n) k = inl n1 /\
                 forall cls, (exists c, dget (comps n) cls = Some c) -> exists c, dget (comps n1) cls = Some c).
  { unfold merge_step. rewrite Eo, Ec.
    destruct (merge_comp_defined wt (meta_of metas k) (snaps n) oc c ND) as [c' ->].
    eexists. split; [reflexivity|]. intros cls [d Hd]. cbn [comps].
    destruct (string_dec cls k) as [->|N]; [rewrite dget_dset_eq; eauto|rewrite dget_dset_neq; eauto]. }
  destruct St as [n1 [-> Hk]]. apply IH.
  - intros cls Ic. apply Ho. now right.
  - intros cls Ic. apply Hk, Hn. now right.
Qed.

Lemma merge_defined n other classes wt :
  Inv metas n -> Inv metas other -> (forall cls, In cls classes -> dmem metas cls = true) ->
  (forall cls oc c, In cls classes -> dget (comps other) cls = Some oc -> dget (comps n) cls = Some c ->
     forall x, In x (names_of oc) -> ~ In x (names_of c)) ->
  (wt = true -> snaps n = snaps other /\ weights n = weights other) ->
  exists n', merge metas n other classes wt = inl n'.
Proof.
  intros In1 In2 Kc Dj Hw. unfold merge.
  assert (Ov : existsb (fun cls => match dget (comps other) cls, dget (comps n) cls with
                         | Some oc, Some c => overlap oc c | _, _ => false end) classes = false).
  { apply not_true_iff_false. intros X. apply existsb_exists in X. destruct X as [cls [Ic X]].
    destruct (dget (comps other) cls) as [oc|] eqn:Eo; [|discriminate].
    destruct (dget (comps n) cls) as [c|] eqn:Ec; [|discriminate].
    unfold overlap in X. apply existsb_exists in X. destruct X as [x [Ix Mx]]. apply mem_In in Mx.
    exact (Dj cls oc c Ic Eo Ec x Ix Mx). }
  rewrite Ov.
  assert (E1 : wt && negb (list_eqb (snaps n) (snaps other)) = false).
  { destruct wt; auto. destruct (Hw eq_refl) as [-> _].
    assert (X : list_eqb (snaps other) (snaps other) = true) by now apply list_eqb_eq.
    simpl. now rewrite X. }
  rewrite E1.
  assert (E2 : wt && negb (table_eqb (weights n) (weights other)) = false).
  { destruct wt; auto. destruct (Hw eq_refl) as [_ ->]. unfold table_eqb.
    assert (X : list_eqb (tindex (weights other)) (tindex (weights other)) = true) by now apply list_eqb_eq.
    rewrite X, tcols_eqb_refl. reflexivity. }
  rewrite E2. fold (merge_step other wt).
  pose proof In1 as [_ [_ [_ [_ [K1 F1]]]]]. pose proof In2 as [_ [_ [_ [_ [K2 F2]]]]].
  destruct (merge_fold_defined other wt classes n) as [n' ->]; [| |eauto].
  - intros cls Ic. specialize (Kc cls Ic).
    assert (X : exists oc, dget (comps other) cls = Some oc).
    { apply dget_keys_Some. rewrite K2. now apply dmem_In. }
    destruct X as [oc X]. exists oc. split; auto.
    apply dmem_true in Kc. destruct Kc as [m Hm]. destruct (F2 cls oc m X Hm) as [ND _]. exact ND.
  - intros cls Ic. apply dget_keys_Some. rewrite K1. apply dmem_In. auto.
Qed.

End Nets.

(* ---------- export / import ---------- *)
Lemma is_nan_true v : is_nan v = true <-> v = VNaN.
Proof. destruct v; simpl; split; congruence. Qed.

Lemma val_eqb_eq a b : val_eqb a b = true <-> a = b.
Proof.
  destruct a, b; simpl; split; intros H; try congruence; auto.
  - apply Z.eqb_eq in H. now subst.
  - injection H as ->. apply Z.eqb_refl.
  - apply String.eqb_eq in H. now subst.
  - injection H as ->. apply String.eqb_refl.
  - apply Bool.eqb_prop in H. now subst.
  - injection H as ->. apply Bool.eqb_reflx.
Qed.

Lemma keep_static_false m rows a name row :
  keep_static m rows a = false -> ~ In a derived -> In (name, row) rows ->
  exists am, dget m a = Some am /\ cell row a = adefault am.
Proof.
  unfold keep_static. intros H ND I. apply mem_false in ND. rewrite ND in H.
  destruct (dget m a) as [am|]; [|discriminate]. exists am. split; auto.
  destruct (is_nan (adefault am) && forallb _ rows) eqn:B1.
  - apply andb_true_iff in B1. destruct B1 as [B1 B2]. apply is_nan_true in B1.
    rewrite forallb_forall in B2. specialize (B2 _ I). simpl in B2. apply is_nan_true in B2. congruence.
  - destruct (forallb _ rows) eqn:B2 in H; [|discriminate].
    rewrite forallb_forall in B2. specialize (B2 _ I). simpl in B2.
    unfold py_eq in B2. apply andb_true_iff in B2. destruct B2 as [_ B2]. now apply val_eqb_eq.
Qed.

Lemma keep_series_false m a col :
  keep_series m a col = false ->
  exists am, dget m a = Some am /\ forall v, In v col -> v = adefault am.
Proof.
  unfold keep_series. destruct (dget m a) as [am|]; [|discriminate]. intros H.
  exists am. split; auto. intros v Iv. destruct (is_nan (adefault am)) eqn:N.
  - destruct (is_nan v) eqn:Nv.
    + apply is_nan_true in N, Nv. congruence.
    + assert (X : existsb (fun v => negb (is_nan v)) col = true).
      { apply existsb_exists. exists v. split; auto. now rewrite Nv. }
      congruence.
  - destruct (py_eq v (adefault am)) eqn:P.
    + unfold py_eq in P. apply andb_true_iff in P. destruct P as [_ P]. now apply val_eqb_eq.
    + assert (X : existsb (fun v => negb (py_eq v (adefault am))) col = true).
      { apply existsb_exists. exists v. split; auto. now rewrite P. }
      congruence.
Qed.

Lemma dget_filter_entry {V} (p : string * V -> bool) (d : dict V) k :
  NoDup (dkeys d) ->
  dget (filter p d) k = match dget d k with
                        | Some v => if p (k, v) then Some v else None
                        | None => None end.
Proof.
  intros ND. unfold dkeys in ND. induction d as [|[k' v'] r IH]; simpl; auto.
  simpl in ND. inversion ND as [|? ? NI ND']; subst.
  destruct (String.eqb k' k) eqn:E.
  - apply String.eqb_eq in E. subst k'. destruct (p (k, v')) eqn:P; simpl.
    + now rewrite String.eqb_refl.
    + rewrite IH by auto. apply dget_None_keys in NI. now rewrite NI.
  - destruct (p (k', v')); simpl; try rewrite E; auto.
Qed.

Lemma colget_In idx col s v : colget idx col s = Some v -> In v col.
Proof.
  unfold colget. intros H. apply dget_In in H. now apply in_combine_r in H.
Qed.

(* a time series that holds the default everywhere while the static value differs *)
Definition hidden_default (m : meta) (c : comp) (name attr : string) : Prop :=
  exists t col row am,
    dget (dyn c) attr = Some t /\ dget (tcols t) name = Some col /\
    dget (static c) name = Some row /\ dget m attr = Some am /\
    (forall v, In v col -> v = adefault am) /\
    akind am <> KSeries /\ cell row attr <> adefault am.

Lemma roundtrip m sns c c' :
  NoDup (dkeys m) -> good_comp sns m c -> filled m c ->
  import_comp m sns (export_comp m c) = inl c' ->
  names_of c' = names_of c /\ good_comp sns m c' /\
  forall name attr s, In name (names_of c) -> In s sns -> ~ In attr derived ->
    ~ hidden_default m c name attr ->
    eff m c' name attr s = eff m c name attr s.
Proof.
  intros NDm G F. unfold export_comp.
  set (c0 := set_snapshots_comp m sns (empty_comp m)).
  assert (G0 : good_comp sns m c0).
  { eapply set_snapshots_comp_good. now apply empty_comp_good. }
  destruct (static c) as [|e0 rest] eqn:Sc.
  { simpl. intros E. injection E as <-. unfold names_of. rewrite Sc. split; [reflexivity|].
    split; [exact G0|]. intros name attr s []. }
  rewrite <- Sc. clear e0 rest Sc. simpl. fold c0.
  set (rows := map (fun e => (fst e, filter (fun f => keep_static m (static c) (fst f)) (snd e))) (static c)).
  set (tabs := map (fun e => (fst e,
                 {| tindex := tindex (snd e);
                    tcols := filter (fun f => keep_series m (fst e) (snd f)) (tcols (snd e)) |}))
                 (dyn c)).
  set (tables := filter (fun e => match tcols (snd e) with [] => false | _ => true end) tabs).
  pose proof G as [GA [GB [GC [GC' [GD GE]]]]].
  assert (Kr : dkeys rows = names_of c).
  { unfold rows. apply (dkeys_map_val (fun _ row => filter (fun f => keep_static m (static c) (fst f)) row)). }
  assert (NDr : NoDup (dkeys rows)) by now rewrite Kr.
  assert (Fresh : forall x, In x (dkeys rows) -> ~ In x (names_of c0)) by (intros x _ H; exact H).
  assert (NS : no_series_cells m rows).
  { intros name row a Ir Ia. unfold rows in Ir. apply in_map_iff in Ir.
    destruct Ir as [[x row0] [E0 Ir]]. simpl in E0. injection E0 as <- <-.
    apply (GC' x row0 a Ir). unfold dkeys in *. apply in_map_iff in Ia. destruct Ia as [f [Ef If]].
    apply filter_In in If. destruct If as [If _]. rewrite <- Ef. now apply in_map. }
  assert (Ktabs : dkeys tabs = dkeys (dyn c)).
  { unfold tabs. apply (dkeys_map_val (fun a t => {| tindex := tindex t;
      tcols := filter (fun f => keep_series m a (snd f)) (tcols t) |})). }
  assert (NDtabs : NoDup (dkeys tabs)) by now rewrite Ktabs.
  assert (NDt : NoDup (dkeys tables)) by (now apply NoDup_map_filter).
  assert (Gt : forall a t, In (a, t) tables -> good_table sns (dkeys rows) t).
  { intros a t It. unfold tables in It. apply filter_In in It. destruct It as [It _].
    unfold tabs in It. apply in_map_iff in It. destruct It as [[a0 t0] [E0 It]]. simpl in E0.
    injection E0 as <- <-. destruct (GE a0 t0 It) as [X [Y Z]]. rewrite Kr. split; [exact X|].
    split; simpl; [now apply NoDup_map_filter|].
    intros name col I. apply filter_In in I. destruct I as [I _]. auto. }
  rewrite (transfer_eq m sns rows tables c0 NDr). intros E. injection E as <-.
  split. { rewrite (transfer_names m sns rows tables c0 Fresh). exact Kr. }
  split. { exact (transfer_good m sns rows tables c0 NDm NDr Fresh Gt G0). }
  intros name attr s In1 Is Nd Nh.
  apply dget_keys_Some in In1. destruct In1 as [row Hr]. pose proof (dget_In _ _ _ Hr) as Ir.
  assert (Ir' : In (name, filter (fun f => keep_static m (static c) (fst f)) row) rows).
  { unfold rows. apply in_map_iff. exists (name, row). auto. }
  assert (D0 : varying m attr = true \/ dget (dyn c0) attr = None \/ dget tables attr = None).
  { destruct (varying m attr) eqn:V; auto. right. left. unfold c0. rewrite set_empty_comp. simpl.
    apply dget_None_keys. intros X. unfold dkeys in X. rewrite map_map in X. simpl in X.
    apply in_map_iff in X. destruct X as [[a am] [Ea Ia]]. simpl in Ea. subst a.
    apply filter_In in Ia. destruct Ia as [Ia K]. simpl in K.
    apply (In_dget m attr am NDm) in Ia. unfold varying in V. rewrite Ia in V. congruence. }
  rewrite (transfer_new m sns rows tables c0 NDm NDr Fresh NS NDt Gt G0 name _ attr s Ir' Is D0).
  rewrite (eff_row m c name row attr s Hr). f_equal.
  (* the static value survives *)
  assert (Hst : is_series m attr = false ->
     fill m attr (cell (filter (fun f => keep_static m (static c) (fst f)) row) attr) = cell row attr).
  { intros Sr. unfold cell at 1.
    rewrite (dget_filter_key (fun a => keep_static m (static c) a)).
    destruct (keep_static m (static c) attr) eqn:K.
    - fold (cell row attr). eapply filled_fill; eauto.
    - destruct (keep_static_false m (static c) attr name row K Nd Ir) as [am [Ha Hc]].
      rewrite Hc. unfold fill. simpl. unfold dmem, default_of. now rewrite Ha. }
  (* the series *)
  assert (Ht : (match dget tables attr with Some t => tget t name s | None => None end)
     = match dget (dyn c) attr with
       | Some t => match dget (tcols t) name with
                   | Some col => if keep_series m attr col then tget t name s else None
                   | None => None end
       | None => None end).
  { unfold tables. rewrite dget_filter_entry by exact NDtabs.
    unfold tabs. rewrite (dget_map_val (fun a t => {| tindex := tindex t;
      tcols := filter (fun f => keep_series m a (snd f)) (tcols t) |})).
    destruct (dget (dyn c) attr) as [t|] eqn:T; auto. simpl.
    assert (NDc : NoDup (dkeys (tcols t))).
    { apply dget_In in T. now destruct (GE attr t T) as [_ [Y _]]. }
    pose proof (dget_filter_entry (fun f => keep_series m attr (snd f)) (tcols t) name NDc) as X.
    simpl in X.
    destruct (filter (fun f => keep_series m attr (snd f)) (tcols t)) as [|f0 fs] eqn:Fl.
    - simpl in X. destruct (dget (tcols t) name) as [col|]; auto.
      destruct (keep_series m attr col); congruence.
    - rewrite <- Fl in *. unfold tget. simpl. rewrite X.
      destruct (dget (tcols t) name) as [col|]; auto.
      destruct (keep_series m attr col); auto. }
  rewrite Ht.
  destruct (dget (dyn c) attr) as [t|] eqn:T.
  - destruct (dget (tcols t) name) as [col|] eqn:Col.
    + destruct (keep_series m attr col) eqn:K.
      * destruct (tget t name s); auto. destruct (is_series m attr) eqn:Sr; auto.
      * destruct (keep_series_false m attr col K) as [am [Ha Hd]].
        assert (Gtt : good_table sns (names_of c) t) by (apply dget_In in T; eauto).
        assert (Dm : dmem (tcols t) name = true) by (apply dmem_true; eauto).
        destruct (tget_good_Some _ _ _ _ _ Gtt Dm Is) as [v Hv]. rewrite Hv.
        assert (Ev : v = adefault am).
        { apply Hd. unfold tget in Hv. rewrite Col in Hv. now apply colget_In in Hv. }
        destruct (is_series m attr) eqn:Sr.
        -- unfold default_of. now rewrite Ha.
        -- rewrite (Hst eq_refl). subst v.
           destruct (val_eqb (cell row attr) (adefault am)) eqn:Q; [now apply val_eqb_eq|].
           exfalso. apply Nh. exists t, col, row, am. repeat split; auto.
           ++ unfold is_series in Sr. rewrite Ha in Sr. destruct (akind am); simpl in Sr; congruence.
           ++ intros X. apply val_eqb_eq in X. congruence.
    + assert (Nt : tget t name s = None) by (unfold tget; now rewrite Col). rewrite Nt.
      destruct (is_series m attr) eqn:Sr; auto.
  - destruct (is_series m attr) eqn:Sr; auto.
Qed.

Lemma import_never_fails m sns c :
  NoDup (dkeys m) -> good_comp sns m c -> exists c', import_comp m sns (export_comp m c) = inl c'.
Proof.
  intros NDm G. unfold import_comp, export_comp. destruct (static c) as [|e0 rest] eqn:Sc; [eauto|].
  rewrite <- Sc. unfold transfer. rewrite add_frame_eq; [eauto|]. simpl.
  unfold dkeys. rewrite map_map. simpl.
  destruct G as [A _]. exact A.
Qed.
