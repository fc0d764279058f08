From Coq Require Import List String Bool ZArith Arith Lia.
From Verif Require Import Assoc TablesModel TablesSpec TablesProofs FileModel FileProofs SharedModel SharedSpec.
Import ListNotations.
Open Scope string_scope.
Open Scope list_scope.

(* ---------- the simulation of link tables ---------- *)
Section Sim.
Variable m0 : meta.
Definition known (a : string) : Prop := dmem m0 a = true.
Definition row_sim (e e' : string * dict val) : Prop :=
  fst e = fst e' /\ forall a, known a -> dget (snd e) a = dget (snd e') a.
Definition sim (c c' : comp) : Prop :=
  Forall2 row_sim (static c) (static c') /\ forall a, known a -> dget (dyn c) a = dget (dyn c') a.
(* tables of attributes that agree on what the package knows *)
Definition msim (m m' : meta) : Prop := forall a, known a -> dget m a = dget m' a.

Lemma rows_refl l : Forall2 row_sim l l.
Proof. induction l; constructor; auto. split; auto. Qed.
Lemma rows_sym l l' : Forall2 row_sim l l' -> Forall2 row_sim l' l.
Proof. induction 1 as [|e e' l l' [A B]]; constructor; auto. split; auto. intros a K. symmetry. auto. Qed.
Lemma rows_trans l1 l2 l3 : Forall2 row_sim l1 l2 -> Forall2 row_sim l2 l3 -> Forall2 row_sim l1 l3.
Proof.
  intros H. revert l3. induction H as [|e e' l l' [A B] H IH]; intros l3 G; inversion G; subst; constructor; auto.
  destruct H2 as [C D]. split; [congruence|]. intros a K. rewrite B by exact K. auto.
Qed.
Lemma sim_refl c : sim c c.
Proof. split; auto. apply rows_refl. Qed.
Lemma sim_sym c c' : sim c c' -> sim c' c.
Proof. intros [A B]. split; [now apply rows_sym|]. intros a K. symmetry. auto. Qed.
Lemma sim_trans c1 c2 c3 : sim c1 c2 -> sim c2 c3 -> sim c1 c3.
Proof.
  intros [A B] [C D]. split; [eapply rows_trans; eauto|]. intros a K. rewrite B by exact K. auto.
Qed.

Lemma rows_names l l' : Forall2 row_sim l l' -> dkeys l = dkeys l'.
Proof. unfold dkeys. induction 1 as [|e e' l l' [A B]]; cbn [map]; auto. now f_equal. Qed.

Lemma rows_get l l' name : Forall2 row_sim l l' ->
  match dget l name, dget l' name with
  | Some r, Some r' => forall a, known a -> dget r a = dget r' a
  | None, None => True
  | _, _ => False
  end.
Proof.
  induction 1 as [|[k r] [k' r'] l l' [A B]]; cbn [dget]; auto. cbn [fst] in A. subst k'.
  destruct (String.eqb k name); auto.
Qed.

Lemma rows_filter (p : string -> bool) l l' : Forall2 row_sim l l' ->
  Forall2 row_sim (filter (fun e => p (fst e)) l) (filter (fun e => p (fst e)) l').
Proof.
  induction 1 as [|e e' l l' R]; cbn [filter]; auto. assert (E : fst e = fst e') by now destruct R.
  rewrite E. destruct (p (fst e')); auto.
Qed.

Lemma msim_facts m m' a : msim m m' -> known a ->
  varying m a = varying m' a /\ is_series m a = is_series m' a /\ default_of m a = default_of m' a /\
  forall v, fill m a v = fill m' a v.
Proof.
  intros M K. unfold varying, is_series, default_of, fill, default_of, dmem. rewrite (M a K). auto.
Qed.

(* ---- removing, snapshots ---- *)
Lemma sim_remove names c c' : sim c c' -> sim (remove_comp names c) (remove_comp names c').
Proof.
  intros [A B]. split; cbn [static dyn remove_comp].
  - now apply (rows_filter (fun x => negb (mem x names))).
  - intros a K. rewrite !(dget_map_val (fun _ t => drop_cols names t)). now rewrite B.
Qed.

Lemma sim_snapshots m m' sns c c' : msim m m' -> sim c c' ->
  sim (set_snapshots_comp m sns c) (set_snapshots_comp m' sns c').
Proof.
  intros M [A B]. split; cbn [static dyn set_snapshots_comp]; auto.
  intros a K. rewrite !(dget_map_val (fun a t => set_snapshots_table _ sns a t)). rewrite B by exact K.
  destruct (dget (dyn c') a) as [t|]; [|reflexivity]. cbn [option_map]. unfold set_snapshots_table.
  destruct (msim_facts m m' a M K) as (E1 & _ & E2 & _). now rewrite E1, E2.
Qed.

(* ---- ports ---- *)
Lemma port_sim sns m c x :
  (forall a, known a -> dmem m a = true) -> sim (snd (add_port sns (m, c) x)) c.
Proof.
  intros I. unfold add_port. cbn [fst snd]. set (target := String.append (snd x) (fst x)).
  destruct (dmem m target) eqn:D; [apply sim_refl|].
  assert (U : forall a, known a -> a <> target) by (intros a K Z; apply I in K; congruence).
  destruct (dget m _) as [am|]; [|apply sim_refl]. cbn [snd].
  destruct (String.eqb (snd x) "bus").
  - destruct (has_column c target); [apply sim_refl|]. split; cbn [static dyn]; auto.
    induction (static c) as [|e l IH]; cbn [map]; constructor; auto.
    split; cbn [fst snd]; auto. intros a K. apply dget_dset_neq. intros E. now apply (U a K).
  - destruct (dmem (dyn c) target); [apply sim_refl|]. split; cbn [static dyn]; [apply rows_refl|].
    intros a K. apply dget_dset_neq. intros E. now apply (U a K).
Qed.

Lemma dset_append {V} (d : dict V) k v : dmem d k = false -> dset d k v = d ++ [(k, v)].
Proof.
  intros D. induction d as [|[k' v'] d IH]; cbn [dset app]; auto. unfold dmem in D. cbn [dget] in D.
  destruct (String.eqb k' k); [discriminate|]. f_equal. apply IH. exact D.
Qed.

Definition grows (m m' : meta) : Prop :=
  exists extra, m' = m ++ extra /\ forall k, In k (dkeys extra) -> dmem m k = false.

Lemma grows_refl m : grows m m.
Proof. exists []. rewrite app_nil_r. split; auto. intros k []. Qed.

Lemma grows_trans m1 m2 m3 : grows m1 m2 -> grows m2 m3 -> grows m1 m3.
Proof.
  intros (e1 & -> & A) (e2 & -> & B). exists (e1 ++ e2). split; [now rewrite app_assoc|].
  intros k I. unfold dkeys in I. rewrite map_app in I. apply in_app_iff in I. destruct I as [I|I]; auto.
  specialize (B k I). apply dmem_false in B. rewrite dget_app in B. apply dmem_false.
  destruct (dget m1 k); congruence.
Qed.

Lemma grows_get m m' a : grows m m' -> dmem m a = true -> dget m' a = dget m a.
Proof.
  intros (e & -> & A) D. rewrite dget_app. apply dmem_true in D. destruct D as [v ->]. reflexivity.
Qed.

Lemma grows_mem m m' a : grows m m' -> dmem m a = true -> dmem m' a = true.
Proof. intros G D. unfold dmem. rewrite (grows_get m m' a G D). exact D. Qed.

Lemma port_grows sns s x : grows (fst s) (fst (add_port sns s x)).
Proof.
  unfold add_port. set (target := String.append (snd x) (fst x)).
  destruct (dmem (fst s) target) eqn:D; [apply grows_refl|].
  destruct (dget (fst s) _) as [am|]; [|apply grows_refl]. cbn [fst]. exists [(target, am)].
  split; [now apply dset_append|]. intros k [<-|[]]. exact D.
Qed.

Lemma ports_ok sns l s : grows m0 (fst s) ->
  grows m0 (fst (fold_left (add_port sns) l s)) /\ grows (fst s) (fst (fold_left (add_port sns) l s)) /\
  sim (snd (fold_left (add_port sns) l s)) (snd s).
Proof.
  revert s. induction l as [|x l IH]; intros s G; cbn [fold_left].
  - split; auto. split; [apply grows_refl|apply sim_refl].
  - assert (P := port_grows sns s x). destruct (IH (add_port sns s x)) as (A & B & C).
    { eapply grows_trans; eauto. }
    split; auto. split; [eapply grows_trans; eauto|]. eapply sim_trans; [exact C|].
    destruct s as [m c]. apply port_sim. intros a K. eapply grows_mem; eauto.
Qed.

(* ---- importing components ---- *)
Lemma missing_get m st a : grows m0 m -> known a ->
  dget (missing_static m st) a = dget (missing_static m0 st) a.
Proof.
  intros (e & -> & A) K. unfold missing_static. rewrite filter_app, map_app, dget_app.
  destruct (dget (map _ (filter _ m0)) a); auto.
  apply dget_None_keys. intros I. unfold dkeys in I. rewrite map_map in I. apply in_map_iff in I.
  destruct I as (x & E & I). apply filter_In in I. destruct I as [I _].
  assert (X := A (fst x) (in_map fst _ _ I)). cbn [fst] in E. rewrite E in X. unfold known in K. congruence.
Qed.

Lemma missing_ext m st st' : dkeys st = dkeys st' -> missing_static m st = missing_static m st'.
Proof.
  intros E. unfold missing_static. f_equal. apply filter_ext. intros e. f_equal. f_equal.
  destruct (dmem st (fst e)) eqn:A, (dmem st' (fst e)) eqn:B; auto.
  - apply dmem_In in A. rewrite E in A. apply dmem_In in A. congruence.
  - apply dmem_In in B. rewrite <- E in B. apply dmem_In in B. congruence.
Qed.

Definition st_sim (st st' : dict (list val)) : Prop :=
  dkeys st = dkeys st' /\ forall a, known a -> dget st a = dget st' a.

Lemma full_row_sim m m' st st' i a : grows m0 m -> grows m0 m' -> msim m m' -> st_sim st st' -> known a ->
  dget (full_row m st i) a = dget (full_row m' st' i) a.
Proof.
  intros G G' M [S1 S2] K. unfold full_row. rewrite !dget_app, !dget_given_row, (S2 a K).
  destruct (msim_facts m m' a M K) as (_ & _ & _ & F).
  destruct (dget st' a) as [vals|]; cbn [option_map]; [now rewrite F|].
  rewrite (missing_get m st a G K), (missing_get m' st' a G' K). now rewrite (missing_ext m0 st st' S1).
Qed.

Lemma df_sim m m' st st' names : grows m0 m -> grows m0 m' -> msim m m' -> st_sim st st' ->
  Forall2 row_sim (df_rows m names st) (df_rows m' names st').
Proof.
  intros G G' M S'. unfold df_rows. induction (number_from 0 names) as [|e l IH]; cbn [map]; constructor; auto.
  split; cbn [fst snd]; auto. intros a K. now apply full_row_sim.
Qed.

Lemma new_sim m m' l l' : msim m m' -> Forall2 row_sim l l' ->
  Forall2 row_sim (map (fun e => (fst e, drop_series m (snd e))) l)
                  (map (fun e => (fst e, drop_series m' (snd e))) l').
Proof.
  intros M. induction 1 as [|e e' l l' [A B]]; cbn [map]; constructor; auto.
  split; cbn [fst snd]; auto. intros a K. unfold drop_series.
  rewrite !(dget_filter_key (fun a => negb (is_series _ a))).
  destruct (msim_facts m m' a M K) as (_ & -> & _). now rewrite B.
Qed.

Lemma set_const_ext ts f g t : (forall n, f n = g n) -> set_const_cols ts f t = set_const_cols ts g t.
Proof.
  intros E. unfold set_const_cols. f_equal. generalize (tcols t).
  induction ts as [|x ts IH]; intros d; cbn [fold_left]; auto. rewrite IH. now rewrite E.
Qed.

(* folds that touch one key at a time *)
Lemma fold_keys {V} (p p' : string -> bool) (F F' : string -> option V -> V) l (d d' : dict V) :
  (forall a, known a -> p a = p' a) -> (forall a o, known a -> F a o = F' a o) ->
  (forall a, known a -> dget d a = dget d' a) ->
  forall a, known a ->
    dget (fold_left (fun d a => dset d a (F a (dget d a))) (filter p l) d) a =
    dget (fold_left (fun d a => dset d a (F' a (dget d a))) (filter p' l) d') a.
Proof.
  intros Pp FF. revert d d'. induction l as [|x l IH]; intros d d' D a K; cbn [filter fold_left]; auto.
  assert (Ux : dmem m0 x = true \/ dmem m0 x = false) by (destruct (dmem m0 x); auto).
  destruct Ux as [Kx|Ux].
  - rewrite (Pp x Kx). destruct (p' x); cbn [fold_left]; [|now apply IH].
    apply IH; auto. intros b Kb. rewrite (FF x _ Kx), (D x Kx).
    destruct (string_dec x b) as [->|N]; [now rewrite !dget_dset_eq|]. rewrite !dget_dset_neq by exact N. auto.
  - assert (N : forall b, known b -> x <> b) by (intros b Kb ->; unfold known in Kb; congruence).
    destruct (p x), (p' x); cbn [fold_left]; apply IH; auto; intros b Kb;
      rewrite ?dget_dset_neq by (now apply N); auto.
Qed.

Lemma import_sim m m' sns ow names st st' c c' :
  grows m0 m -> grows m0 m' -> msim m m' -> st_sim st st' -> sim c c' ->
  sim (import_components m sns ow names st c) (import_components m' sns ow names st' c').
Proof.
  intros G G' M S' [A B]. assert (Nm : names_of c = names_of c') by (apply rows_names, A).
  assert (DF := df_sim m m' st st' names G G' M S').
  assert (NW := new_sim m m' _ _ M DF).
  unfold import_components.
  set (df := df_rows m names st) in *. set (df' := df_rows m' names st') in *.
  set (new := map _ df) in *. set (new' := map _ df') in *.
  assert (ST : Forall2 row_sim
     ((if ow then filter (fun e => negb (mem (fst e) names)) (static c) else static c) ++
      (if ow then new else filter (fun e => negb (mem (fst e) (names_of c))) new))
     ((if ow then filter (fun e => negb (mem (fst e) names)) (static c') else static c') ++
      (if ow then new' else filter (fun e => negb (mem (fst e) (names_of c'))) new'))).
  { apply Forall2_app; destruct ow; auto.
    - now apply (rows_filter (fun x => negb (mem x names))).
    - rewrite Nm. now apply (rows_filter (fun x => negb (mem x (names_of c')))). }
  split; cbn [static dyn]; [exact ST|].
  assert (NS := rows_names _ _ ST). unfold dkeys in NS. rewrite NS, Nm. destruct S' as [S1 S2]. rewrite S1.
  set (names' := map fst _).
  apply (fold_keys (fun a => is_series m a) (fun a => is_series m' a)
     (fun a o => set_const_cols (if ow then names else filter (fun n => negb (mem n (names_of c'))) names)
        (fun n => match dget df n with
                  | Some row => match dget row a with Some v => v | None => VNaN end
                  | None => VNaN end)
        (reindex_cols names' (default_of m a) match o with Some t => t | None => {| tindex := sns; tcols := [] |} end))
     (fun a o => set_const_cols (if ow then names else filter (fun n => negb (mem n (names_of c'))) names)
        (fun n => match dget df' n with
                  | Some row => match dget row a with Some v => v | None => VNaN end
                  | None => VNaN end)
        (reindex_cols names' (default_of m' a) match o with Some t => t | None => {| tindex := sns; tcols := [] |} end))).
  - intros a K. now destruct (msim_facts m m' a M K) as (_ & E & _).
  - intros a o K. destruct (msim_facts m m' a M K) as (_ & _ & -> & _). apply set_const_ext. intros n.
    assert (X := rows_get _ _ n DF). destruct (dget df n) as [r|], (dget df' n) as [r'|]; try contradiction; auto.
    now rewrite (X a K).
  - exact B.
Qed.

(* ---- importing series ---- *)
Lemma series_touch m sns ow attr df c :
  static (import_series m sns ow attr df c) = static c /\
  forall a, a <> attr -> dget (dyn (import_series m sns ow attr df c)) a = dget (dyn c) a.
Proof.
  unfold import_series. destruct (negb (varying m attr)).
  - destruct (ow || negb (dmem (dyn c) attr))%bool; cbn [static dyn]; split; auto.
    intros a N. apply dget_dset_neq. auto.
  - cbn [static dyn]. split; auto. intros a N. apply dget_dset_neq. auto.
Qed.

Lemma series_sim m m' sns ow attr df c c' : msim m m' -> sim c c' ->
  sim (import_series m sns ow attr df c) (import_series m' sns ow attr df c').
Proof.
  intros M [A B]. assert (Nm : names_of c = names_of c') by (apply rows_names, A).
  destruct (series_touch m sns ow attr df c) as [S1 D1].
  destruct (series_touch m' sns ow attr df c') as [S2 D2].
  split; [now rewrite S1, S2|]. intros a K. destruct (string_dec a attr) as [->|N].
  - destruct (msim_facts m m' attr M K) as (E1 & E2 & E3 & _).
    unfold import_series, dmem. rewrite E1, E2, E3, Nm, (B attr K).
    destruct (negb (varying m' attr)).
    + destruct (ow || _)%bool; cbn [dyn]; [now rewrite !dget_dset_eq|auto].
    + cbn [dyn]. now rewrite !dget_dset_eq.
  - rewrite D1, D2 by exact N. auto.
Qed.

Lemma all_series_sim m m' sns ow se c c' : msim m m' -> sim c c' ->
  sim (fold_left (fun c e => import_series m sns ow (fst e) (snd e) c) se c)
      (fold_left (fun c e => import_series m' sns ow (fst e) (snd e) c) se c').
Proof.
  intros M. revert c c'. induction se as [|e se IH]; intros c c' S'; cbn [fold_left]; auto.
  apply IH. now apply series_sim.
Qed.

Lemma grows_msim m m' : grows m0 m -> grows m0 m' -> msim m m'.
Proof. intros G G' a K. now rewrite (grows_get m0 m a G K), (grows_get m0 m' a G' K). Qed.

Lemma fillna_sim m m' st : msim m m' -> st_sim (fillna m st) (fillna m' st).
Proof.
  intros M. split.
  - unfold fillna, dkeys. rewrite !map_map. reflexivity.
  - intros a K. unfold fillna. rewrite !(dget_map_val (fun a l => map (fill _ a) l)).
    destruct (dget st a) as [l|]; cbn [option_map]; auto. f_equal. apply map_ext.
    now destruct (msim_facts m m' a M K) as (_ & _ & _ & F).
Qed.

Lemma empty_sim m m' : grows m0 m -> grows m0 m' -> sim (empty_comp m) (empty_comp m').
Proof.
  intros G G'. split; cbn [static dyn empty_comp]; [constructor|]. intros a K.
  assert (X : forall q, grows m0 q ->
     dget (map (fun e : string * ameta => (fst e, {| tindex := ["now"]; tcols := [] |}))
            (filter (fun e => is_varying_kind (akind (snd e))) q)) a =
     dget (map (fun e : string * ameta => (fst e, {| tindex := ["now"]; tcols := [] |}))
            (filter (fun e => is_varying_kind (akind (snd e))) m0)) a).
  { intros q (e & -> & Y). rewrite filter_app, map_app, dget_app.
    destruct (dget (map _ (filter _ m0)) a); auto.
    apply dget_None_keys. intros I. unfold dkeys in I. rewrite map_map in I. apply in_map_iff in I.
    destruct I as (x & E & I). apply filter_In in I. destruct I as [I _].
    assert (Z := Y (fst x) (in_map fst _ _ I)). cbn [fst] in E. rewrite E in Z. unfold known in K. congruence. }
  unfold meta in X. cbn beta in X. rewrite (X m G), (X m' G'). reflexivity.
Qed.
End Sim.

(* ---------- attributes of the process ---------- *)
Definition ext (a0 a : dict meta) : Prop :=
  dkeys a = dkeys a0 /\ (forall cls, cls <> "Link" -> dget a cls = dget a0 cls) /\
  match dget a0 "Link" with
  | None => dget a "Link" = None
  | Some m0 => exists m, dget a "Link" = Some m /\ grows m0 m
  end.

Lemma ext_refl a : ext a a.
Proof.
  split; auto. split; auto. destruct (dget a "Link") as [m|]; auto. exists m. split; auto. apply grows_refl.
Qed.

Lemma ext_link a0 a m m' : ext a0 a -> dget a "Link" = Some m -> grows m m' -> ext a0 (dset a "Link" m').
Proof.
  intros (K & O & L) D G. split; [|split].
  - rewrite dkeys_dset_in; auto. eapply dget_Some_keys; eauto.
  - intros cls N. rewrite dget_dset_neq by congruence. auto.
  - destruct (dget a0 "Link") as [m0|].
    + destruct L as (m1 & D1 & G1). exists m'. split; [apply dget_dset_eq|].
      assert (m1 = m) by congruence. subst. eapply grows_trans; eauto.
    + congruence.
Qed.

(* the relation on networks *)
Definition nsim (a0 : dict meta) (n n' : net) : Prop :=
  snaps n = snaps n' /\ weights n = weights n' /\ dkeys (comps n) = dkeys (comps n') /\
  (forall cls, cls <> "Link" -> dget (comps n) cls = dget (comps n') cls) /\
  match dget (comps n) "Link", dget (comps n') "Link" with
  | Some c, Some c' => match dget a0 "Link" with Some m0 => sim m0 c c' | None => True end
  | None, None => True
  | _, _ => False
  end.

Lemma nsim_agree a0 n n' : nsim a0 n n' -> agree a0 n n'.
Proof.
  intros (A & B & C & D & E). split; auto. split; auto. split; auto. split; auto.
  intros m c c' M D1 D2. rewrite D1, D2, M in E. destruct E as [R Dy].
  split; [exact (rows_names m _ _ R)|]. split; auto.
  intros name a K. unfold sget. assert (X := rows_get m _ _ name R).
  destruct (dget (static c) name), (dget (static c') name); try contradiction; auto. now rewrite (X a K).
Qed.

Lemma init_sim a0 a a' : ext a0 a -> ext a0 a' -> nsim a0 (init_net a) (init_net a').
Proof.
  intros (K & O & L) (K' & O' & L'). unfold nsim, init_net. cbn [snaps weights comps].
  split; auto. split; auto. split; [|split].
  - rewrite !(dkeys_map_val (fun _ m => empty_comp m)). congruence.
  - intros cls N. rewrite !(dget_map_val (fun _ m => empty_comp m)). now rewrite O, O'.
  - rewrite !(dget_map_val (fun _ m => empty_comp m)).
    destruct (dget a0 "Link") as [m0|].
    + destruct L as (m & -> & G), L' as (m' & -> & G'). cbn [option_map]. now apply empty_sim.
    + rewrite L, L'. exact I.
Qed.

Lemma put_other a0 n n' cls c : nsim a0 n n' -> cls <> "Link" -> In cls (dkeys (comps n)) ->
  nsim a0 {| snaps := snaps n; weights := weights n; comps := dset (comps n) cls c |}
          {| snaps := snaps n'; weights := weights n'; comps := dset (comps n') cls c |}.
Proof.
  intros (A & B & C & D & E) N I. unfold nsim. cbn [snaps weights comps].
  split; auto. split; auto. split; [|split].
  - rewrite !dkeys_dset_in; auto. now rewrite <- C.
  - intros x Nx. destruct (string_dec cls x) as [->|Ne]; [now rewrite !dget_dset_eq|].
    rewrite !dget_dset_neq by exact Ne. auto.
  - rewrite !dget_dset_neq by exact N. exact E.
Qed.

Lemma put_link a0 n n' c c' : nsim a0 n n' -> In "Link" (dkeys (comps n)) ->
  match dget a0 "Link" with Some m0 => sim m0 c c' | None => True end ->
  nsim a0 {| snaps := snaps n; weights := weights n; comps := dset (comps n) "Link" c |}
          {| snaps := snaps n'; weights := weights n'; comps := dset (comps n') "Link" c' |}.
Proof.
  intros (A & B & C & D & E) I S'. unfold nsim. cbn [snaps weights comps].
  split; auto. split; auto. split; [|split].
  - rewrite !dkeys_dset_in; auto. now rewrite <- C.
  - intros x Nx. rewrite !dget_dset_neq by congruence. auto.
  - now rewrite !dget_dset_eq.
Qed.

Lemma meta_sim a0 a a' : ext a0 a -> ext a0 a' ->
  match dget a "Link", dget a' "Link" with
  | Some m, Some m' => match dget a0 "Link" with
                       | Some m0 => grows m0 m /\ grows m0 m' /\ msim m0 m m' | None => False end
  | None, None => dget a0 "Link" = None
  | _, _ => False
  end.
Proof.
  intros (_ & _ & L) (_ & _ & L'). destruct (dget a0 "Link") as [m0|] eqn:Z.
  - destruct L as (m & -> & G), L' as (m' & -> & G'). split; auto. split; auto. now apply grows_msim.
  - now rewrite L, L'.
Qed.

Lemma step_sim a0 a a' n n' o : ext a0 a -> ext a0 a' -> nsim a0 n n' ->
  ext a0 (fst (shared_step a n o)) /\ ext a0 (fst (shared_step a' n' o)) /\
  nsim a0 (fst (snd (shared_step a n o))) (fst (snd (shared_step a' n' o))).
Proof.
  intros X X' N. assert (NN := N). destruct NN as (A & B & C & D & E).
  assert (Y := meta_sim a0 a a' X X').
  destruct o as [cls single raw sfx ow kw|cls raw sfx|sns dw]; cbn [shared_step].
  - destruct (String.eqb_spec cls "Link") as [->|Ne].
    + unfold add_link.
      destruct (dget a "Link") as [m|] eqn:Da, (dget a' "Link") as [m'|] eqn:Da'; try contradiction; auto.
      destruct (dget (comps n) "Link") as [c|] eqn:Dc, (dget (comps n') "Link") as [c'|] eqn:Dc';
        try contradiction; auto.
      destruct (dget a0 "Link") as [m0|] eqn:D0; [|contradiction]. destruct Y as (G & G' & M).
      destruct (negb (nodupb _)); auto. rewrite A.
      destruct (load_kwargs _ _ _ _ _) as [[st se]|e]; auto.
      unfold update_linkports. set (l := flat_map _ (linkports (dkeys st))).
      destruct (ports_ok m0 (snaps n') l (m, c) G) as (P1 & P2 & P3).
      destruct (ports_ok m0 (snaps n') l (m', c') G') as (P1' & P2' & P3').
      set (u := fold_left _ l (m, c)) in *. set (u' := fold_left _ l (m', c')) in *. cbn [fst snd] in *.
      split; [eapply ext_link; eauto|]. split; [eapply ext_link; eauto|].
      rewrite <- A at 1. apply put_link; auto.
      * eapply dget_Some_keys; eauto.
      * rewrite D0. apply all_series_sim; [now apply grows_msim|].
        apply import_sim; auto.
        -- apply fillna_sim. now apply grows_msim.
        -- eapply sim_trans; [exact P3|]. eapply sim_trans; [exact E|]. now apply sim_sym.
    + cbn [nstep fst snd]. split; auto. split; auto. unfold add.
      destruct X as (_ & O & _), X' as (_ & O' & _). rewrite (O cls Ne), (O' cls Ne), (D cls Ne).
      destruct (dget a0 cls) as [m|]; [|exact N].
      destruct (dget (comps n') cls) as [c|] eqn:Dc; [|exact N].
      destruct (negb (nodupb _)); [exact N|]. rewrite <- A.
      destruct (load_kwargs _ _ _ _ _) as [[st se]|e]; [|exact N]. cbn [fst].
      rewrite A at 4. rewrite A. rewrite <- A at 1. apply put_other; auto.
      rewrite C. eapply dget_Some_keys; eauto.
  - cbn [nstep fst snd]. split; auto. split; auto. unfold remove.
    destruct (String.eqb_spec cls "Link") as [->|Ne].
    + destruct (dget a "Link") as [m|] eqn:Da, (dget a' "Link") as [m'|] eqn:Da'; try contradiction; auto.
      destruct (dget (comps n) "Link") as [c|] eqn:Dc, (dget (comps n') "Link") as [c'|] eqn:Dc';
        try contradiction; auto.
      destruct (dget a0 "Link") as [m0|] eqn:D0; [|contradiction].
      assert (Nm : names_of c = names_of c') by (destruct E as [R _]; exact (rows_names m0 _ _ R)).
      rewrite Nm. destruct (forallb _ _); [|exact N]. cbn [fst]. apply put_link; auto.
      * eapply dget_Some_keys; eauto.
      * rewrite D0. now apply sim_remove.
    + destruct X as (_ & O & _), X' as (_ & O' & _). rewrite (O cls Ne), (O' cls Ne), (D cls Ne).
      destruct (dget a0 cls) as [m|]; [|exact N].
      destruct (dget (comps n') cls) as [c|] eqn:Dc; [|exact N].
      destruct (forallb _ _); [|exact N]. cbn [fst]. apply put_other; auto.
      rewrite C. eapply dget_Some_keys; eauto.
  - cbn [nstep fst snd]. split; auto. split; auto. unfold set_snapshots.
    destruct sns as [|s0 sns]; cbn [fst]; unfold nsim; cbn [snaps weights comps].
    + split; auto.
    + split; auto. split; [now rewrite B|].
      set (S' := s0 :: sns). split; [|split].
      * rewrite !(dkeys_map_val (fun cls c => set_snapshots_comp (meta_of _ cls) S' c)). exact C.
      * intros cls Ne. rewrite !(dget_map_val (fun cls c => set_snapshots_comp (meta_of _ cls) S' c)).
        rewrite (D cls Ne). destruct (dget (comps n') cls); auto. cbn [option_map].
        destruct X as (_ & O & _), X' as (_ & O' & _). unfold meta_of. now rewrite (O cls Ne), (O' cls Ne).
      * rewrite !(dget_map_val (fun cls c => set_snapshots_comp (meta_of _ cls) S' c)).
        destruct (dget (comps n) "Link") as [c|], (dget (comps n') "Link") as [c'|]; try contradiction; auto.
        cbn [option_map]. unfold meta_of.
        destruct (dget a "Link") as [m|] eqn:Da, (dget a' "Link") as [m'|] eqn:Da'; try contradiction.
        -- destruct (dget a0 "Link") as [m0|]; [|exact I]. destruct Y as (_ & _ & M). now apply sim_snapshots.
        -- rewrite Y. exact I.
Qed.

(* ---------- processes ---------- *)
Lemma nth_set_same {A} i (x : A) l : i < List.length l -> nth_error (set_nth i x l) i = Some x.
Proof. revert i. induction l as [|y l IH]; intros [|i] H; cbn in *; auto; try lia. apply IH. lia. Qed.
Lemma nth_set_other {A} i j (x : A) l : i <> j -> nth_error (set_nth i x l) j = nth_error l j.
Proof.
  revert i j. induction l as [|y l IH]; intros [|i] [|j] N; cbn; auto; try congruence. 
Qed.
Lemma length_set {A} i (x : A) l : List.length (set_nth i x l) = List.length l.
Proof. revert i. induction l as [|y l IH]; intros [|i]; cbn; auto. Qed.

(* one network in a process of its own *)
Lemma run_alone a n ops :
  exists a' n', prun {| p_attrs := a; p_nets := [n] |} (map (Do 0) ops) = {| p_attrs := a'; p_nets := [n'] |}.
Proof.
  revert a n. induction ops as [|o ops IH]; intros a n; [now exists a, n|].
  cbn [map]. change (prun ?p (?x :: ?r)) with (prun (pstep p x) r). cbn [pstep nth_error p_nets set_nth p_attrs].
  apply IH.
Qed.

Lemma run_sim a0 prog : forall p j a' n n',
  ext a0 (p_attrs p) -> ext a0 a' -> nth_error (p_nets p) j = Some n -> nsim a0 n n' ->
  exists m m' b', nth_error (p_nets (prun p prog)) j = Some m /\
    prun {| p_attrs := a'; p_nets := [n'] |} (map (Do 0) (mine j (List.length (p_nets p)) prog)) =
      {| p_attrs := b'; p_nets := [m'] |} /\ nsim a0 m m'.
Proof.
  induction prog as [|x prog IH]; intros p j a' n n' X X' Nj N.
  - exists n, n', a'. auto.
  - change (prun p (x :: prog)) with (prun (pstep p x) prog).
    assert (Lj : j < List.length (p_nets p)) by (apply nth_error_Some; congruence).
    destruct x as [|i o].
    + cbn [mine]. cbn [pstep]. set (q := {| p_attrs := _; p_nets := _ |}).
      assert (Lq : List.length (p_nets q) = S (List.length (p_nets p))).
      { unfold q. cbn [p_nets]. rewrite app_length. cbn. lia. }
      rewrite <- Lq. apply (IH q j a' n n'); auto. unfold q. cbn [p_nets]. rewrite nth_error_app1; auto.
    + cbn [mine pstep]. destruct (nth_error (p_nets p) i) as [ni|] eqn:Ni.
      * set (q := {| p_attrs := _; p_nets := _ |}).
        assert (Lq : List.length (p_nets q) = List.length (p_nets p)) by (unfold q; apply length_set).
        destruct (Nat.eqb_spec i j) as [->|Ne].
        -- assert (Lb : Nat.ltb j (List.length (p_nets p)) = true) by now apply Nat.ltb_lt.
           rewrite Lb. cbn [andb map]. change (prun ?p (?x :: ?r)) with (prun (pstep p x) r).
           cbn [pstep nth_error p_nets set_nth p_attrs].
           assert (ni = n) by congruence. subst ni.
           destruct (step_sim a0 _ _ n n' o X X' N) as (Y & Y' & M). rewrite <- Lq.
           eapply IH; [exact Y|exact Y'|unfold q; cbn [p_nets]; now apply nth_set_same|exact M].
        -- cbn [andb]. rewrite <- Lq. eapply IH; [|exact X'| |exact N].
           ++ unfold q. cbn [p_attrs].
              assert (E : nsim a0 ni ni).
              { unfold nsim. split; auto. split; auto. split; auto. split; auto.
                destruct (dget (comps ni) "Link"); auto. destruct (dget a0 "Link"); auto. apply sim_refl. }
              now destruct (step_sim a0 _ _ ni ni o X X E).
           ++ unfold q. cbn [p_nets]. now rewrite nth_set_other.
      * assert (Ne : i <> j) by congruence. apply Nat.eqb_neq in Ne. rewrite Ne. cbn [andb].
        eapply IH; eauto.
Qed.

Lemma own_tables a0 prog : forall p j n,
  ext a0 (p_attrs p) -> List.length (p_nets p) <= j ->
  nth_error (p_nets (prun p prog)) j = Some n ->
  exists n' b', prun (start a0) (New :: map (Do 0) (mine j (List.length (p_nets p)) prog)) =
      {| p_attrs := b'; p_nets := [n'] |} /\ nsim a0 n n'.
Proof.
  induction prog as [|x prog IH]; intros p j n X Lj Nj.
  - exfalso. cbn in Nj. assert (j < List.length (p_nets p)) by (apply nth_error_Some; congruence). lia.
  - change (prun p (x :: prog)) with (prun (pstep p x) prog) in Nj. destruct x as [|i o].
    + cbn [mine]. cbn [pstep] in Nj. set (q := {| p_attrs := _; p_nets := _ |}) in Nj.
      assert (Lq : List.length (p_nets q) = S (List.length (p_nets p))).
      { unfold q. cbn [p_nets]. rewrite app_length. cbn. lia. }
      rewrite <- Lq. destruct (Nat.eq_dec j (List.length (p_nets p))) as [E|E].
      * destruct (run_sim a0 prog q j a0 (init_net (p_attrs p)) (init_net a0)) as (m & m' & b' & R1 & R2 & R3).
        -- exact X.
        -- apply ext_refl.
        -- unfold q. cbn [p_nets]. rewrite nth_error_app2 by lia. rewrite E, Nat.sub_diag. reflexivity.
        -- apply init_sim; auto. apply ext_refl.
        -- exists m', b'. split; [exact R2|]. congruence.
      * apply (IH q j n); auto. lia.
    + cbn [mine]. assert (Lb : Nat.ltb j (List.length (p_nets p)) = false) by (apply Nat.ltb_ge; lia).
      rewrite Lb, andb_false_r. cbn [pstep] in Nj. destruct (nth_error (p_nets p) i) as [ni|] eqn:Ni.
      * set (q := {| p_attrs := _; p_nets := _ |}) in Nj.
        assert (Lq : List.length (p_nets q) = List.length (p_nets p)) by (unfold q; apply length_set).
        rewrite <- Lq. apply (IH q j n); auto; [|lia]. unfold q. cbn [p_attrs].
        assert (E : nsim a0 ni ni).
        { unfold nsim. split; auto. split; auto. split; auto. split; auto.
          destruct (dget (comps ni) "Link"); auto. destruct (dget a0 "Link"); auto. apply sim_refl. }
        now destruct (step_sim a0 _ _ ni ni o X X E).
      * apply (IH p j n); auto.
Qed.

Lemma apart attrs prog j n :
  nth_error (p_nets (prun (start attrs) prog)) j = Some n ->
  exists n', p_nets (prun (start attrs) (alone j prog)) = [n'] /\ agree attrs n n'.
Proof.
  intros H. destruct (own_tables attrs prog (start attrs) j n) as (n' & b' & R & S'); auto.
  - apply ext_refl.
  - cbn. lia.
  - exists n'. split; [|now apply nsim_agree]. unfold alone. cbn [start p_nets List.length] in R.
    now rewrite R.
Qed.

(* ---------- without new ports ---------- *)
Lemma fill_twice m a v : fill m a (fill m a v) = fill m a v.
Proof.
  unfold fill. destruct (is_nan v) eqn:E; [|now rewrite E].
  destruct (dmem m a) eqn:D; [|now rewrite E]. destruct (is_nan (default_of m a)) eqn:F; auto.
Qed.

Lemma given_row_fillna m st i : given_row m (fillna m st) i = given_row m st i.
Proof.
  induction st as [|[a vals] st IH]; auto. cbn [fillna map given_row fst snd].
  fold (fillna m st). rewrite IH. do 2 f_equal.
  destruct (Nat.lt_ge_cases i (List.length vals)) as [L|L].
  - rewrite (nth_indep _ VNaN (fill m a VNaN)) by now rewrite map_length.
    rewrite map_nth. apply fill_twice.
  - rewrite !nth_overflow; auto. now rewrite map_length.
Qed.

Lemma import_fillna m sns ow names st c :
  import_components m sns ow names (fillna m st) c = import_components m sns ow names st c.
Proof.
  assert (K : dkeys (fillna m st) = dkeys st) by (unfold fillna, dkeys; rewrite map_map; reflexivity).
  assert (F : df_rows m names (fillna m st) = df_rows m names st).
  { unfold df_rows. apply map_ext. intros e. f_equal. unfold full_row. rewrite given_row_fillna. f_equal.
    now apply missing_ext. }
  unfold import_components. now rewrite F, K.
Qed.

Lemma load_keys single names sns sfx kw st se :
  load_kwargs single names sns sfx kw = inl (st, se) -> incl (dkeys st) (map fst kw).
Proof.
  revert st se. induction kw as [|[k v] kw IH]; intros st se H; cbn [load_kwargs] in H.
  - injection H as <- <-. intros x [].
  - destruct (load_kw _ _ _ _ _) as [l|e]; [|discriminate].
    destruct (load_kwargs single names sns sfx kw) as [[st1 se1]|e]; [|discriminate].
    specialize (IH st1 se1 eq_refl). destruct l; injection H as <- <-; intros x X.
    + destruct X as [<-|X]; [now left|right; auto].
    + right. auto.
Qed.

Lemma linkports_known (m : meta) kw l : known_ports m kw -> incl l (map fst kw) ->
  forall i, In i (linkports l) ->
    dmem m (String.append "bus" i) = true /\ dmem m (String.append "efficiency" i) = true /\
    dmem m (String.append "p" i) = true.
Proof.
  intros K I i Hi. unfold linkports in Hi. apply in_flat_map in Hi. destruct Hi as (a & Ia & Hi).
  destruct (drop_prefix "bus" a) as [r|] eqn:D; [|destruct Hi]. apply drop_prefix_spec in D.
  destruct (mem a ["bus0"; "bus1"]) eqn:M; [destruct Hi|]. destruct Hi as [<-|[]].
  apply I in Ia. apply in_map_iff in Ia. destruct Ia as ([b v] & E & Ib). cbn [fst] in E. subst b.
  apply mem_false in M. apply (K a v r Ib D); intros ->; apply M; cbn; auto.
Qed.

Lemma ports_none sns m c l :
  (forall i, In i l -> dmem m (String.append "bus" i) = true /\ dmem m (String.append "efficiency" i) = true /\
                       dmem m (String.append "p" i) = true) ->
  fold_left (add_port sns) (flat_map (fun i => [(i, "bus"); (i, "efficiency"); (i, "p")]) l) (m, c) = (m, c).
Proof.
  induction l as [|i l IH]; intros H; auto. cbn [flat_map app fold_left].
  destruct (H i (or_introl eq_refl)) as (A & B & C).
  assert (Z : forall a, dmem m (String.append a i) = true -> add_port sns (m, c) (i, a) = (m, c)).
  { intros a D. unfold add_port. cbn [fst snd]. now rewrite D. }
  rewrite (Z _ A), (Z _ B), (Z _ C). apply IH. intros j Hj. apply H. now right.
Qed.

Lemma dset_same {V} (d : dict V) k v : dget d k = Some v -> dset d k v = d.
Proof.
  induction d as [|[k' v'] d IH]; cbn [dget dset]; [discriminate|].
  destruct (String.eqb_spec k' k) as [->|N]; intros H; [now injection H as ->|]. now rewrite IH.
Qed.

Lemma step_known attrs n o :
  (forall single names sfx ow kw m, o = Add "Link" single names sfx ow kw ->
     dget attrs "Link" = Some m -> known_ports m kw) ->
  shared_step attrs n o = (attrs, nstep attrs n o).
Proof.
  intros H. destruct o as [cls single raw sfx ow kw|cls raw sfx|sns dw]; auto. cbn [shared_step].
  destruct (String.eqb_spec cls "Link") as [->|]; auto. cbn [nstep]. unfold add_link, add.
  destruct (dget attrs "Link") as [m|] eqn:D; auto.
  destruct (dget (comps n) "Link") as [c|]; auto.
  destruct (negb (nodupb _)); auto.
  destruct (load_kwargs _ _ _ _ _) as [[st se]|e] eqn:L; auto.
  unfold update_linkports. rewrite ports_none.
  - cbn [fst snd]. rewrite import_fillna. now rewrite dset_same.
  - apply linkports_known with kw; [eapply H; eauto|]. eapply load_keys; eauto.
Qed.

Lemma run_known attrs prog : no_new_ports attrs prog ->
  forall p, p_attrs p = attrs ->
  p_attrs (prun p prog) = attrs /\
  (forall j n, nth_error (p_nets p) j = Some n ->
     nth_error (p_nets (prun p prog)) j = Some (nrun attrs n (mine j (List.length (p_nets p)) prog))) /\
  (forall j, List.length (p_nets p) <= j ->
     nth_error (p_nets (prun p prog)) j =
     if Nat.ltb j (List.length (p_nets p) + made prog)
     then Some (nrun attrs (init_net attrs) (mine j (List.length (p_nets p)) prog)) else None).
Proof.
  induction prog as [|x prog IH]; intros NP p E.
  - split; auto. split; auto. intros j Lj. cbn [made filter List.length prun fold_left].
    assert (Lb : Nat.ltb j (List.length (p_nets p) + 0) = false) by (apply Nat.ltb_ge; lia).
    rewrite Lb. now apply nth_error_None.
  - assert (NP' : no_new_ports attrs prog).
    { intros i single names sfx ow kw m H. apply (NP i single names sfx ow kw m). now right. }
    change (prun p (x :: prog)) with (prun (pstep p x) prog). destruct x as [|i o].
    + cbn [pstep mine]. set (q := {| p_attrs := _; p_nets := _ |}).
      assert (Lq : List.length (p_nets q) = S (List.length (p_nets p))).
      { unfold q. cbn [p_nets]. rewrite app_length. cbn. lia. }
      destruct (IH NP' q E) as (A & B & C). rewrite Lq in B, C. split; auto. split.
      * intros j n H. apply B. unfold q. cbn [p_nets]. rewrite nth_error_app1; auto.
        apply nth_error_Some. congruence.
      * intros j Lj. unfold made. cbn [filter List.length]. fold (made prog).
        destruct (Nat.eq_dec j (List.length (p_nets p))) as [Ej|Ej].
        -- assert (Lb : Nat.ltb j (List.length (p_nets p) + S (made prog)) = true) by (apply Nat.ltb_lt; lia).
           rewrite Lb. apply B. unfold q. cbn [p_nets]. rewrite nth_error_app2 by lia.
           rewrite Ej, Nat.sub_diag. cbn. now rewrite E.
        -- rewrite C by lia. replace (S (List.length (p_nets p)) + made prog)
             with (List.length (p_nets p) + S (made prog)) by lia. reflexivity.
    + cbn [pstep]. unfold made. cbn [filter]. fold (made prog).
      destruct (nth_error (p_nets p) i) as [ni|] eqn:Ni.
      * rewrite E. rewrite step_known.
        2:{ intros single names sfx ow kw m -> D. apply (NP i single names sfx ow kw m); auto. now left. }
        cbn [fst snd]. set (q := {| p_attrs := _; p_nets := _ |}).
        assert (Lq : List.length (p_nets q) = List.length (p_nets p)) by (unfold q; apply length_set).
        assert (Li : i < List.length (p_nets p)) by (apply nth_error_Some; congruence).
        destruct (IH NP' q eq_refl) as (A & B & C). rewrite Lq in B, C. split; auto. split.
        -- intros j n H. assert (Lj : j < List.length (p_nets p)) by (apply nth_error_Some; congruence).
           cbn [mine]. destruct (Nat.eqb_spec i j) as [->|Ne].
           ++ assert (Lb : Nat.ltb j (List.length (p_nets p)) = true) by now apply Nat.ltb_lt.
              rewrite Lb. cbn [andb]. assert (ni = n) by congruence. subst ni.
              rewrite (B j (fst (nstep attrs n o))); [reflexivity|].
              unfold q. cbn [p_nets]. now apply nth_set_same.
           ++ cbn [andb]. apply B. unfold q. cbn [p_nets]. now rewrite nth_set_other.
        -- intros j Lj. cbn [mine].
           assert (Lb : Nat.ltb j (List.length (p_nets p)) = false) by (apply Nat.ltb_ge; lia).
           rewrite Lb, andb_false_r. now apply C.
      * destruct (IH NP' p E) as (A & B & C). split; auto. split.
        -- intros j n H. cbn [mine]. assert (Ne : i <> j) by congruence. apply Nat.eqb_neq in Ne. rewrite Ne.
           cbn [andb]. now apply B.
        -- intros j Lj. cbn [mine].
           assert (Lb : Nat.ltb j (List.length (p_nets p)) = false) by (apply Nat.ltb_ge; lia).
           rewrite Lb, andb_false_r. now apply C.
Qed.

Lemma independent attrs prog j : no_new_ports attrs prog ->
  p_attrs (prun (start attrs) prog) = attrs /\
  nth_error (p_nets (prun (start attrs) prog)) j =
  if Nat.ltb j (made prog) then Some (nrun attrs (init_net attrs) (mine j 0 prog)) else None.
Proof.
  intros NP. destruct (run_known attrs prog NP (start attrs) eq_refl) as (A & _ & C).
  split; auto. apply (C j). cbn. lia.
Qed.

(* ---------- older links and a new port ---------- *)
Section NewPort.
Variables (m : meta) (c : comp) (i : string) (am : ameta).
Let target := String.append "bus" i.
Hypothesis base : dget m "bus1" = Some am.

Lemma has_other t v l d d' : t <> target ->
  has_column {| static := map (fun e => (fst e, dset (snd e) t v)) l; dyn := d |} target =
  has_column {| static := l; dyn := d' |} target.
Proof.
  intros E. unfold has_column. cbn [static]. induction l as [|e l IH]; auto. cbn [map existsb snd].
  rewrite IH. f_equal. unfold dmem. now rewrite dget_dset_neq.
Qed.

Definition settled (s : meta * comp) : Prop :=
  grows m (fst s) /\ dkeys (static (snd s)) = dkeys (static c) /\
  if dmem (fst s) target then forall e, In e (static (snd s)) -> dget (snd e) target = Some (adefault am)
  else has_column (snd s) target = false.

Lemma settled_step sns s x : In (snd x) ["bus"; "efficiency"; "p"] -> settled s -> settled (add_port sns s x) /\
  (x = (i, "bus") -> dmem (fst (add_port sns s x)) target = true).
Proof.
  destruct x as [i' a']. cbn [snd]. intros A (G & N & H). assert (G' := port_grows sns s (i', a')).
  assert (GG := grows_trans _ _ _ G G'). unfold settled. unfold add_port in *. cbn [fst snd] in *.
  set (t := String.append a' i') in *.
  destruct (dmem (fst s) t) eqn:D.
  { split; [now split|]. intros E. injection E as E1 E2. subst i' a'. exact D. }
  destruct (dget (fst s) _) as [am'|] eqn:B.
  2:{ split; [now split|]. intros E. injection E as E1 E2. subst i' a'. cbn in B.
      rewrite (grows_get m _ "bus1" G) in B; [congruence|]. unfold dmem. now rewrite base. }
  cbn [fst snd] in *. destruct A as [<-|[<-|[<-|[]]]]; cbn [String.eqb Ascii.eqb Bool.eqb] in *.
  - cbn in B. rewrite (grows_get m _ "bus1" G) in B by (unfold dmem; now rewrite base).
    rewrite base in B. injection B as <-.
    destruct (string_dec t target) as [E|E].
    + rewrite E in *. assert (M : dmem (dset (fst s) target am) target = true).
      { unfold dmem. now rewrite dget_dset_eq. }
      split; [|intros _; exact M]. rewrite M. rewrite D in H. rewrite H. cbn [static]. split; auto. split.
      * unfold dkeys in *. rewrite map_map. exact N.
      * intros e I. apply in_map_iff in I. destruct I as (e0 & <- & _). cbn [snd]. apply dget_dset_eq.
    + assert (M : dmem (dset (fst s) t am) target = dmem (fst s) target).
      { unfold dmem. now rewrite dget_dset_neq. }
      split.
      2:{ intros Z. injection Z as ->. now destruct E. }
      rewrite M. destruct (has_column (snd s) t); [split; auto|]. cbn [static]. split; auto. split.
      * unfold dkeys in *. rewrite map_map. exact N.
      * destruct (dmem (fst s) target).
        -- intros e I. apply in_map_iff in I. destruct I as (e0 & <- & I0). cbn [snd].
           rewrite dget_dset_neq by exact E. auto.
        -- rewrite <- H. exact (has_other t (adefault am) (static (snd s)) (dyn (snd s)) (dyn (snd s)) E).
  - assert (E : t <> target) by (unfold t, target; cbn; congruence).
    assert (M : dmem (dset (fst s) t am') target = dmem (fst s) target).
    { unfold dmem. now rewrite dget_dset_neq. }
    split; [|congruence]. rewrite M. destruct (dmem (dyn (snd s)) t); cbn [static]; split; auto.
  - assert (E : t <> target) by (unfold t, target; cbn; congruence).
    assert (M : dmem (dset (fst s) t am') target = dmem (fst s) target).
    { unfold dmem. now rewrite dget_dset_neq. }
    split; [|congruence]. rewrite M. destruct (dmem (dyn (snd s)) t); cbn [static]; split; auto.
Qed.

Lemma settled_fold sns l : forall s, (forall x, In x l -> In (snd x) ["bus"; "efficiency"; "p"]) -> settled s ->
  settled (fold_left (add_port sns) l s) /\
  (In (i, "bus") l \/ dmem (fst s) target = true -> dmem (fst (fold_left (add_port sns) l s)) target = true).
Proof.
  induction l as [|x l IH]; intros s A H; cbn [fold_left].
  - split; auto. intros [[]|Z]; auto.
  - destruct (settled_step sns s x (A x (or_introl eq_refl)) H) as [H1 H2].
    destruct (IH (add_port sns s x)) as [H3 H4]; auto.
    { intros y Y. apply A. now right. }
    split; auto. intros Z. apply H4. destruct Z as [[->|Z]|Z]; auto.
    right. eapply grows_mem; [apply port_grows|exact Z].
Qed.

Lemma update_settled sns where_ : dmem m "bus0" = true -> dmem m target = false -> has_column c target = false ->
  In target where_ ->
  dkeys (static (snd (update_linkports sns where_ m c))) = dkeys (static c) /\
  forall e, In e (static (snd (update_linkports sns where_ m c))) -> dget (snd e) target = Some (adefault am).
Proof.
  intros B0 D H I. unfold update_linkports.
  destruct (settled_fold sns (flat_map (fun i => [(i, "bus"); (i, "efficiency"); (i, "p")]) (linkports where_)) (m, c))
    as [(_ & K & R) M].
  - intros x X. apply in_flat_map in X. destruct X as (j & _ & [<-|[<-|[<-|[]]]]); cbn; auto.
  - split; [apply grows_refl|]. split; auto. cbn [fst snd]. now rewrite D.
  - rewrite M in R; auto. left. apply in_flat_map. exists i. split; [|now left].
    unfold linkports. apply in_flat_map. exists target. split; auto.
    assert (E : drop_prefix "bus" target = Some i) by (unfold target; reflexivity).
    rewrite E. destruct (mem target ["bus0"; "bus1"]) eqn:Z; [|now left].
    apply mem_In in Z. exfalso. destruct Z as [Z|[Z|[]]]; rewrite <- Z in D; [congruence|].
    unfold dmem in D. rewrite base in D. discriminate.
Qed.
End NewPort.

Lemma load_in single names sns sfx kw st se a v :
  load_kwargs single names sns sfx kw = inl (st, se) -> In (a, Scalar v) kw -> In a (dkeys st).
Proof.
  revert st se. induction kw as [|[k w] kw IH]; intros st se H I; [destruct I|]. cbn [load_kwargs] in H.
  destruct (load_kw single names sns sfx w) as [l|e] eqn:L; [|discriminate].
  destruct (load_kwargs single names sns sfx kw) as [[st1 se1]|e]; [|discriminate].
  specialize (IH st1 se1 eq_refl). destruct I as [E|I].
  - injection E as -> ->. cbn in L. injection L as <-. injection H as <- <-. now left.
  - destruct l; injection H as <- <-; [right|]; auto.
Qed.

Lemma series_static m sns ow se c :
  static (fold_left (fun c e => import_series m sns ow (fst e) (snd e) c) se c) = static c.
Proof.
  revert c. induction se as [|e se IH]; intros c; cbn [fold_left]; auto. rewrite IH. apply series_touch.
Qed.

Lemma older (attrs : dict meta) n single raw sfx kw (m : meta) c i v am name :
  dget attrs "Link" = Some m -> dget (comps n) "Link" = Some c ->
  dmem m "bus0" = true -> dget m "bus1" = Some am ->
  dmem m (String.append "bus" i) = false -> has_column c (String.append "bus" i) = false ->
  In (String.append "bus" i, Scalar v) kw ->
  snd (snd (add_link attrs n single raw sfx false kw)) = None ->
  In name (names_of c) ->
  exists c', dget (comps (fst (snd (add_link attrs n single raw sfx false kw)))) "Link" = Some c' /\
    sget c' name (String.append "bus" i) = Some (adefault am).
Proof.
  intros Da Dc B0 B1 Dm Hc Ik Ok In_. unfold add_link in *. rewrite Da, Dc in Ok |- *.
  destruct (negb (nodupb _)); [discriminate|].
  destruct (load_kwargs _ _ _ _ _) as [[st se]|e] eqn:L; [|discriminate]. cbn [fst snd comps].
  eexists. split; [apply dget_dset_eq|]. unfold sget. rewrite series_static. cbn [import_components static].
  destruct (update_settled m c i am B1 (snaps n) (dkeys st) B0 Dm Hc) as [K R].
  { eapply load_in; eauto. }
  rewrite dget_app. unfold names_of in In_. fold (dkeys (static c)) in In_. rewrite <- K in In_.
  destruct (dget (static (snd (update_linkports (snaps n) (dkeys st) m c))) name) as [row|] eqn:Z.
  - apply dget_In in Z. apply R in Z. cbn [snd] in Z. now rewrite Z.
  - apply dget_None_keys in Z. contradiction.
Qed.
