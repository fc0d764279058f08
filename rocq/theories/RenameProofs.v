From Coq Require Import List String Bool ZArith Lia Arith.
From Verif Require Import Assoc TablesModel TablesSpec TablesProofs TransferModel TransferProofs RenameModel.
Import ListNotations.
Open Scope string_scope.
Open Scope list_scope.

Lemma starts_drop p a : starts_with p a = true -> String.append p (sdrop (String.length p) a) = a.
Proof.
  revert a. induction p as [|x p IH]; intros a H; simpl; auto.
  destruct a as [|y a]; [discriminate|]. simpl in H. apply andb_true_iff in H. destruct H as [H1 H2].
  apply Ascii.eqb_eq in H1. subst y. f_equal. auto.
Qed.

Lemma prefix_port a : is_port a = true -> String.append "bus" (port_of a) = a.
Proof. exact (starts_drop "bus" a). Qed.

Lemma ref_cols_bus c a : mem a (ref_cols "bus" c) = true <-> is_port a = true /\ In a (columns (static c)).
Proof.
  unfold ref_cols. rewrite mem_In, in_map_iff. split.
  - intros [x [E I]]. apply filter_In in I. destruct I as [I P]. rewrite prefix_port in E by exact P.
    subst x. auto.
  - intros [P I]. exists a. split; [now apply prefix_port|]. now apply filter_In.
Qed.

Section Ren.
Variable kw : dict string.

Definition upd_row (row : dict val) : dict val :=
  map (fun f => (fst f, if is_port (fst f) then ren_val kw (snd f) else snd f)) row.

Lemma ren_val_cell row a :
  cell (upd_row row) a = if is_port a then ren_val kw (cell row a) else cell row a.
Proof.
  unfold cell, upd_row. rewrite (dget_map_val (fun k v => if is_port k then ren_val kw v else v)).
  destruct (dget row a); simpl; auto. now destruct (is_port a).
Qed.

(* for the class Bus the columns are those of the class itself: nothing can be missing *)
Lemma replace_refs_bus c :
  exists c', replace_refs kw "bus" c = Some c' /\
    static c' = map (fun e => (fst e, upd_row (snd e))) (static c) /\ dyn c' = dyn c.
Proof.
  assert (Hid : forall rows, (forall a, In a (columns rows) -> is_port a = false) ->
     map (fun e => (fst e, upd_row (snd e))) rows = rows).
  { intros rows. unfold upd_row. intros H. 
    assert (K : forall name row, In (name, row) rows -> upd_row row = row).
    { intros name row I. unfold upd_row. 
      assert (Hr : forall a, In a (dkeys row) -> is_port a = false).
      { intros a Ia. apply H. apply In_columns. eauto. }
      clear - Hr. induction row as [|[k v] r IH]; simpl; auto. 
      rewrite (Hr k) by now left. f_equal. apply IH. intros a Ia. apply Hr. now right. }
    clear H. induction rows as [|[nm row] r IH]; simpl; auto. f_equal.
    - f_equal. apply (K nm). now left.
    - apply IH. intros name row' I. apply (K name). now right. }
  unfold replace_refs. destruct (ref_cols "bus" c) as [|a0 rest] eqn:R.
  - exists c. split; auto. split; auto. symmetry. apply Hid. intros a Ia.
    destruct (is_port a) eqn:P; auto. exfalso.
    assert (X : mem a (ref_cols "bus" c) = true) by (apply ref_cols_bus; auto).
    rewrite R in X. discriminate.
  - destruct (static c) as [|e0 er] eqn:S.
    + exists c. auto.
    + rewrite <- S, <- R.
      assert (F : forallb (fun a => mem a (columns (static c))) (ref_cols "bus" c) = true).
      { apply forallb_forall. intros a Ia. apply mem_In in Ia. apply ref_cols_bus in Ia.
        apply mem_In. tauto. }
      rewrite F. eexists. split; [reflexivity|]. split; [|reflexivity]. simpl.
      apply map_ext_in. intros [nm row] I. unfold upd_row. cbn [fst snd]. apply (f_equal (pair nm)).
      apply map_ext_in. intros [k v] Ik. cbn [fst snd]. apply (f_equal (pair k)).
      assert (Ic : In k (columns (static c))).
      { apply In_columns. exists nm, row. split; auto. now apply (in_map fst) in Ik. }
      destruct (mem k (ref_cols "bus" c)) eqn:M.
      * apply ref_cols_bus in M. destruct M as [-> _]. reflexivity.
      * destruct (is_port k) eqn:P; auto. exfalso.
        assert (X : mem k (ref_cols "bus" c) = true) by (apply ref_cols_bus; auto). congruence.
Qed.

Lemma replace_all_bus cs :
  exists cs', replace_all kw "bus" cs = (cs', None) /\ dkeys cs' = dkeys cs /\
    forall k, match dget cs k, dget cs' k with
              | Some c, Some c' =>
                  static c' = map (fun e => (fst e, upd_row (snd e))) (static c) /\ dyn c' = dyn c
              | None, None => True
              | _, _ => False
              end.
Proof.
  induction cs as [|[k c] r IH]; simpl.
  - exists []. split; auto. split; auto. intros k. exact I.
  - destruct (replace_refs_bus c) as [c' [E [S D]]]. rewrite E.
    destruct IH as [r' [E' [K G]]]. rewrite E'. eexists. split; [reflexivity|].
    split; [unfold dkeys in *; simpl; now rewrite K|].
    intros k0. simpl. destruct (String.eqb k k0); auto. apply G.
Qed.

Definition inj_on (l : list string) : Prop :=
  forall x y, In x l -> In y l -> ren kw x = ren kw y -> x = y.

Lemma NoDup_ren l : inj_on l -> NoDup l -> NoDup (map (ren kw) l).
Proof.
  intros J. induction 1 as [|x r NI ND IH]; simpl; constructor.
  - rewrite in_map_iff. intros [y [E Iy]]. apply NI.
    rewrite (J x y); simpl; auto.
  - apply IH. intros a b Ia Ib. apply J; simpl; auto.
Qed.

Lemma dget_ren {V} (d : dict V) x :
  (forall y, In y (dkeys d) -> ren kw y = ren kw x -> y = x) ->
  dget (map (fun e => (ren kw (fst e), snd e)) d) (ren kw x) = dget d x.
Proof.
  induction d as [|[k v] r IH]; simpl; auto. intros J.
  destruct (String.eqb k x) eqn:E.
  - apply String.eqb_eq in E. subst. now rewrite String.eqb_refl.
  - destruct (String.eqb (ren kw k) (ren kw x)) eqn:E'.
    + apply String.eqb_eq in E'. apply String.eqb_neq in E. exfalso. apply E. apply J; auto.
    + apply IH. intros y Iy. apply J. now right.
Qed.

Lemma tget_rename t N S name s :
  good_table S N t -> inj_on N -> In name N ->
  tget (rename_table kw t) (ren kw name) s = tget t name s.
Proof.
  intros [_ [_ C]] J I. unfold tget, rename_table; simpl.
  rewrite dget_ren; auto. intros y Iy E. apply J; auto.
  unfold dkeys in Iy. apply in_map_iff in Iy. destruct Iy as [[z col] [Ez Iy]]. simpl in Ez. subst z.
  now apply (C y col).
Qed.

Lemma rename_table_good S N t :
  good_table S N t -> inj_on N -> NoDup (dkeys (tcols t)) ->
  good_table S (map (ren kw) N) (rename_table kw t).
Proof.
  intros [A [B C]] J ND. split; [exact A|]. split; simpl.
  - unfold dkeys. rewrite map_map. simpl. rewrite <- (map_map fst (ren kw)). apply NoDup_ren; auto.
    intros x y Ix Iy. apply J.
    + apply in_map_iff in Ix. destruct Ix as [[z col] [E I]]. simpl in E. subst z. now apply (C x col).
    + apply in_map_iff in Iy. destruct Iy as [[z col] [E I]]. simpl in E. subst z. now apply (C y col).
  - intros name col I. apply in_map_iff in I. destruct I as [[z c] [E I]]. simpl in E.
    injection E as <- <-. destruct (C z c I). split; auto. now apply in_map.
Qed.

Lemma upd_keys row : dkeys (upd_row row) = dkeys row.
Proof. unfold upd_row. apply (dkeys_map_val (fun k v => if is_port k then ren_val kw v else v)). Qed.

Lemma static_upd_get rows name :
  dget (map (fun e => (fst e, upd_row (snd e))) rows) name
  = option_map upd_row (dget rows name).
Proof. apply (dget_map_val (fun _ row => upd_row row)). Qed.

Lemma static_upd_keys rows :
  dkeys (map (fun e => (fst e, upd_row (snd e))) rows) = dkeys rows.
Proof. apply (dkeys_map_val (fun _ row => upd_row row)). Qed.

(* the tables of a class whose references were rewritten *)
Lemma upd_good S m c c' :
  good_comp S m c -> static c' = map (fun e => (fst e, upd_row (snd e))) (static c) -> dyn c' = dyn c ->
  good_comp S m c' /\ names_of c' = names_of c.
Proof.
  intros [A [B [C [C' [D E]]]]] Hs Hd.
  assert (N : names_of c' = names_of c) by (unfold names_of; rewrite Hs; apply static_upd_keys).
  split; [|exact N]. split; [now rewrite N|]. split; [now rewrite Hd|].
  split; [|split; [|split]].
  - intros name row a am I Ha K. rewrite Hs in I. apply in_map_iff in I.
    destruct I as [[x row0] [Ex I]]. simpl in Ex. injection Ex as <- <-. rewrite upd_keys. eauto.
  - intros name row a I Ia. rewrite Hs in I. apply in_map_iff in I.
    destruct I as [[x row0] [Ex I]]. simpl in Ex. injection Ex as <- <-. rewrite upd_keys in Ia. eauto.
  - intros a am Ha K. rewrite Hd. eauto.
  - intros a t I. rewrite N. rewrite Hd in I. eauto.
Qed.

Lemma upd_eff m c c' name attr s row :
  static c' = map (fun e => (fst e, upd_row (snd e))) (static c) -> dyn c' = dyn c ->
  dget (static c) name = Some row ->
  eff m c' name attr s =
  Some (match (match dget (dyn c) attr with Some t => tget t name s | None => None end) with
        | Some v => v
        | None => if is_series m attr then default_of m attr
                  else if is_port attr then ren_val kw (cell row attr) else cell row attr
        end).
Proof.
  intros Hs Hd Hr.
  assert (Hr' : dget (static c') name = Some (upd_row row)).
  { rewrite Hs, static_upd_get, Hr. reflexivity. }
  rewrite (eff_row m c' name _ attr s Hr'), Hd, ren_val_cell. reflexivity.
Qed.

Lemma rename_good S m c :
  good_comp S m c -> inj_on (names_of c) ->
  good_comp S m (rename_comp kw c) /\ names_of (rename_comp kw c) = map (ren kw) (names_of c).
Proof.
  intros [A [B [C [C' [D E]]]]] J.
  assert (N : names_of (rename_comp kw c) = map (ren kw) (names_of c)).
  { unfold names_of, dkeys. simpl. now rewrite !map_map. }
  assert (Kd : dkeys (dyn (rename_comp kw c)) = dkeys (dyn c)).
  { simpl. apply (dkeys_map_val (fun _ t => rename_table kw t)). }
  split; [|exact N]. split; [rewrite N; now apply NoDup_ren|]. split; [now rewrite Kd|].
  split; [|split; [|split]].
  - intros name row a am I Ha K. simpl in I. apply in_map_iff in I.
    destruct I as [[x row0] [Ex I]]. simpl in Ex. injection Ex as <- <-. eauto.
  - intros name row a I Ia. simpl in I. apply in_map_iff in I.
    destruct I as [[x row0] [Ex I]]. simpl in Ex. injection Ex as <- <-. eauto.
  - intros a am Ha K. rewrite Kd. eauto.
  - intros a t I. simpl in I. apply in_map_iff in I. destruct I as [[x t0] [Ex I]].
    simpl in Ex. injection Ex as <- <-. rewrite N. pose proof (E x t0 I) as G.
    apply rename_table_good; auto. now destruct G as [_ [X _]].
Qed.

(* ---- the whole network ---- *)
Variable metas : dict meta.

Definition new_name (cls name : string) : string := if String.eqb cls "Bus" then ren kw name else name.

Lemma rename_spec n cb :
  Inv metas n -> dget (comps n) "Bus" = Some cb -> inj_on (names_of cb) ->
  exists n', rename_components n "Bus" "bus" kw = (n', None) /\
    snaps n' = snaps n /\ weights n' = weights n /\ Inv metas n' /\
    dkeys (comps n') = dkeys (comps n) /\
    forall cls m c c', dget metas cls = Some m -> dget (comps n) cls = Some c ->
      dget (comps n') cls = Some c' ->
      names_of c' = map (new_name cls) (names_of c) /\
      forall name attr s row, dget (static c) name = Some row ->
        eff m c' (new_name cls name) attr s =
        Some (match (match dget (dyn c) attr with Some t => tget t name s | None => None end) with
              | Some v => v
              | None => if is_series m attr then default_of m attr
                        else if is_port attr then ren_val kw (cell row attr) else cell row attr
              end).
Proof.
  intros I Hb J. unfold rename_components. rewrite Hb.
  destruct (replace_all_bus (dset (comps n) "Bus" (rename_comp kw cb))) as [cs' [E [K G]]].
  rewrite E. eexists. split; [reflexivity|]. simpl.
  pose proof I as [I1 [I2 [I3 [I4 [I5 FI]]]]].
  assert (Kc : dkeys cs' = dkeys (comps n)).
  { rewrite K. apply dkeys_dset_in. now apply dget_Some_keys in Hb. }
  assert (Main : forall cls m c c', dget metas cls = Some m -> dget (comps n) cls = Some c ->
      dget cs' cls = Some c' ->
      good_comp (snaps n) m c' /\
      names_of c' = map (new_name cls) (names_of c) /\
      forall name attr s row, dget (static c) name = Some row ->
        eff m c' (new_name cls name) attr s =
        Some (match (match dget (dyn c) attr with Some t => tget t name s | None => None end) with
              | Some v => v
              | None => if is_series m attr then default_of m attr
                        else if is_port attr then ren_val kw (cell row attr) else cell row attr
              end)).
  { intros cls m c c' Hm Hc Hc'. pose proof (G cls) as Gc. rewrite Hc' in Gc.
    pose proof (FI cls c m Hc Hm) as Gd.
    unfold new_name. destruct (String.eqb cls "Bus") eqn:Eb.
    - apply String.eqb_eq in Eb. subst cls. rewrite Hb in Hc. injection Hc as ->.
      rewrite dget_dset_eq in Gc. destruct Gc as [Hs Hd].
      destruct (rename_good _ _ _ Gd J) as [Gr Nr].
      destruct (upd_good _ _ _ _ Gr Hs Hd) as [Gu Nu]. split; [exact Gu|]. split; [now rewrite Nu|].
      intros name attr s row Hr.
      assert (In1 : In name (names_of c)) by (unfold names_of; now apply dget_Some_keys in Hr).
      assert (Hr' : dget (static (rename_comp kw c)) (ren kw name) = Some row).
      { simpl. rewrite dget_ren; auto. }
      rewrite (upd_eff m _ c' _ attr s row Hs Hd Hr'). f_equal.
      assert (Et : match dget (dyn (rename_comp kw c)) attr with
                   | Some t => tget t (ren kw name) s | None => None end
                 = match dget (dyn c) attr with Some t => tget t name s | None => None end).
      { simpl. rewrite (dget_map_val (fun _ t => rename_table kw t)).
        destruct (dget (dyn c) attr) as [t|] eqn:T; simpl; auto.
        destruct Gd as [_ [_ [_ [_ [_ Gt]]]]]. apply dget_In in T.
        eapply tget_rename; eauto. }
      rewrite Et. reflexivity.
    - apply String.eqb_neq in Eb. rewrite dget_dset_neq in Gc by congruence. rewrite Hc in Gc.
      destruct Gc as [Hs Hd]. destruct (upd_good _ _ _ _ Gd Hs Hd) as [Gu Nu].
      split; [exact Gu|]. split; [now rewrite Nu, map_id|].
      intros name attr s row Hr. apply upd_eff; auto. }
  split; [reflexivity|]. split; [reflexivity|]. split; [|split; [exact Kc|]].
  - split; [exact I1|]. split; [exact I2|]. split; [exact I3|]. split; [exact I4|].
    split; [simpl|].
    + now rewrite Kc.
    + simpl. intros cls c' m Hc' Hm.
      assert (Ik : In cls (dkeys (comps n))) by (rewrite <- Kc; now apply dget_Some_keys in Hc').
      apply dget_keys_Some in Ik. destruct Ik as [c Hc].
      destruct (Main cls m c c' Hm Hc Hc') as [X _]. exact X.
  - intros cls m c c' Hm Hc Hc'. destruct (Main cls m c c' Hm Hc Hc') as [_ X]. exact X.
Qed.

End Ren.
