From Coq Require Import List String Bool ZArith Lia Arith.
From Verif Require Import Assoc TablesModel TablesSpec.
Import ListNotations.
Open Scope string_scope.
Open Scope list_scope.

(* ---------- lists and dictionaries ---------- *)
Lemma mem_In x l : mem x l = true <-> In x l.
Proof.
  unfold mem. rewrite existsb_exists. split.
  - intros [y [H E]]. apply String.eqb_eq in E. now subst.
  - intros H. exists x. split; auto. apply String.eqb_refl.
Qed.

Lemma mem_false x l : mem x l = false <-> ~ In x l.
Proof.
  split.
  - intros H I. apply mem_In in I. congruence.
  - intros H. destruct (mem x l) eqn:E; auto. apply mem_In in E. contradiction.
Qed.

Lemma nodupb_spec l : nodupb l = true <-> NoDup l.
Proof.
  induction l as [|x r IH]; simpl.
  - split; auto. constructor.
  - rewrite andb_true_iff, negb_true_iff, IH, mem_false. split.
    + intros [A B]. now constructor.
    + intros H. inversion H; subst. auto.
Qed.

Lemma list_eqb_eq a b : list_eqb a b = true <-> a = b.
Proof.
  revert b. induction a as [|x a IH]; destruct b as [|y b]; simpl; try (split; congruence).
  rewrite andb_true_iff, String.eqb_eq, IH. split.
  - intros [-> ->]. auto.
  - intros H. injection H. auto.
Qed.

Section Dict.
Context {V : Type}.
Implicit Types d : dict V.

Lemma In_dset d k v e : In e (dset d k v) -> In e d \/ e = (k, v).
Proof.
  induction d as [|[k' v'] r IH]; simpl.
  - intuition.
  - destruct (String.eqb k' k) eqn:E; simpl.
    + apply String.eqb_eq in E; subst. intuition.
    + intuition.
Qed.

Lemma dget_app d d' k :
  dget (d ++ d') k = match dget d k with Some v => Some v | None => dget d' k end.
Proof.
  induction d as [|[k' v'] r IH]; simpl; auto. destruct (String.eqb k' k); auto.
Qed.

Lemma dkeys_app d d' : dkeys (d ++ d') = dkeys d ++ dkeys d'.
Proof. apply map_app. Qed.

Lemma dget_filter_key (p : string -> bool) d k :
  dget (filter (fun e => p (fst e)) d) k = if p k then dget d k else None.
Proof.
  induction d as [|[k' v'] r IH]; simpl.
  - now destruct (p k).
  - destruct (p k') eqn:E; simpl.
    + destruct (String.eqb k' k) eqn:E'; auto.
      apply String.eqb_eq in E'. subst. now rewrite E.
    + rewrite IH. destruct (String.eqb k' k) eqn:E'; auto.
      apply String.eqb_eq in E'. subst. now rewrite E.
Qed.

Lemma dkeys_filter_key (p : string -> bool) d :
  dkeys (filter (fun e => p (fst e)) d) = filter p (dkeys d).
Proof.
  unfold dkeys. induction d as [|[k v] r IH]; simpl; auto.
  destruct (p k); simpl; now rewrite IH.
Qed.

Lemma dget_map_names (f : string -> V) l k :
  dget (map (fun n => (n, f n)) l) k = if mem k l then Some (f k) else None.
Proof.
  induction l as [|x r IH]; simpl; auto.
  rewrite (String.eqb_sym k x).
  destruct (String.eqb x k) eqn:E; simpl; auto.
  apply String.eqb_eq in E; now subst.
Qed.

Lemma dkeys_map_names (f : string -> V) l : dkeys (map (fun n => (n, f n)) l) = l.
Proof. unfold dkeys. rewrite map_map. simpl. apply map_id. Qed.

Lemma fold_dset_names_get (f : string -> V) l d k :
  dget (fold_left (fun d n => dset d n (f n)) l d) k = if mem k l then Some (f k) else dget d k.
Proof.
  revert d. induction l as [|x r IH]; intros d; simpl; auto.
  rewrite IH. destruct (mem k r) eqn:E.
  - now rewrite orb_true_r.
  - rewrite orb_false_r. destruct (String.eqb k x) eqn:E'.
    + apply String.eqb_eq in E'. subst. apply dget_dset_eq.
    + apply String.eqb_neq in E'. apply dget_dset_neq. congruence.
Qed.

Lemma fold_dset_names_NoDup (f : string -> V) l d :
  NoDup (dkeys d) -> NoDup (dkeys (fold_left (fun d n => dset d n (f n)) l d)).
Proof.
  revert d. induction l as [|x r IH]; intros d H; simpl; auto.
  apply IH. now apply NoDup_dset.
Qed.

(* updates that look at the current entry *)
Lemma fold_upd_get (F : string -> option V -> V) l d k :
  NoDup l ->
  dget (fold_left (fun d a => dset d a (F a (dget d a))) l d) k
  = if mem k l then Some (F k (dget d k)) else dget d k.
Proof.
  revert d. induction l as [|x r IH]; intros d ND; simpl; auto.
  inversion ND as [|? ? NI ND']; subst. rewrite IH by auto.
  destruct (String.eqb k x) eqn:E'; simpl.
  - apply String.eqb_eq in E'. subst. apply mem_false in NI. rewrite NI. apply dget_dset_eq.
  - apply String.eqb_neq in E'. rewrite !dget_dset_neq by congruence. auto.
Qed.

Lemma fold_upd_NoDup (F : string -> dict V -> V) l d :
  NoDup (dkeys d) -> NoDup (dkeys (fold_left (fun d a => dset d a (F a d)) l d)).
Proof.
  revert d. induction l as [|x r IH]; intros d H; simpl; auto.
  apply IH. now apply NoDup_dset.
Qed.

End Dict.

Lemma dget_map_val {A B} (g : string -> A -> B) (d : dict A) k :
  dget (map (fun e => (fst e, g (fst e) (snd e))) d) k = option_map (g k) (dget d k).
Proof.
  induction d as [|[k' v'] r IH]; simpl; auto.
  destruct (String.eqb k' k) eqn:E; simpl; auto.
  apply String.eqb_eq in E. now subst.
Qed.

Lemma dkeys_map_val {A B} (g : string -> A -> B) (d : dict A) :
  dkeys (map (fun e => (fst e, g (fst e) (snd e))) d) = dkeys d.
Proof. unfold dkeys. rewrite map_map. simpl. reflexivity. Qed.

Lemma fold_dset_entries_get {A B} (g : string -> A -> B) (l : dict A) (d : dict B) k :
  NoDup (dkeys l) ->
  dget (fold_left (fun d e => dset d (fst e) (g (fst e) (snd e))) l d) k
  = match dget l k with Some v => Some (g k v) | None => dget d k end.
Proof.
  revert d. induction l as [|[x v] r IH]; intros d ND; simpl; auto.
  unfold dkeys in ND; simpl in ND. inversion ND as [|? ? NI ND']; subst. rewrite IH by auto.
  destruct (String.eqb x k) eqn:E'.
  - apply String.eqb_eq in E'. subst. apply dget_None_keys in NI. rewrite NI. apply dget_dset_eq.
  - apply String.eqb_neq in E'. rewrite dget_dset_neq by congruence. auto.
Qed.

Lemma fold_dset_entries_NoDup {A B} (g : string -> A -> B) (l : dict A) (d : dict B) :
  NoDup (dkeys d) ->
  NoDup (dkeys (fold_left (fun d e => dset d (fst e) (g (fst e) (snd e))) l d)).
Proof.
  revert d. induction l as [|x r IH]; intros d H; simpl; auto.
  apply IH. now apply NoDup_dset.
Qed.

(* ---------- columns ---------- *)
Lemma colget_map idx f s :
  colget idx (map f idx) s = if mem s idx then Some (f s) else None.
Proof.
  unfold colget. induction idx as [|x r IH]; simpl; auto.
  rewrite (String.eqb_sym s x). destruct (String.eqb x s) eqn:E; simpl; auto.
  apply String.eqb_eq in E. now subst.
Qed.

Lemma colget_Some_len idx col s :
  List.length col = List.length idx -> In s idx -> exists v, colget idx col s = Some v.
Proof.
  unfold colget. revert col. induction idx as [|x r IH]; simpl; [tauto|].
  intros [|v col] L [->|I]; simpl in *; try discriminate.
  - rewrite String.eqb_refl. eauto.
  - destruct (String.eqb x s); eauto.
Qed.

Lemma colget_notin idx col s : ~ In s idx -> colget idx col s = None.
Proof.
  unfold colget. revert col. induction idx as [|x r IH]; simpl; intros [|v col] N; simpl; auto.
  destruct (String.eqb x s) eqn:E.
  - apply String.eqb_eq in E. tauto.
  - apply IH. tauto.
Qed.

Lemma colget_nth idx col s j :
  NoDup idx -> List.length col = List.length idx -> nth_error idx j = Some s ->
  colget idx col s = Some (nth j col VNaN).
Proof.
  unfold colget. revert col j. induction idx as [|x r IH]; intros col j ND L E.
  - destruct j; discriminate.
  - destruct col as [|v col]; [discriminate|]. inversion ND as [|? ? NI ND']; subst.
    destruct j as [|j]; simpl in *.
    + injection E as ->. now rewrite String.eqb_refl.
    + destruct (String.eqb x s) eqn:E'.
      * apply String.eqb_eq in E'. subst. apply nth_error_In in E. contradiction.
      * apply IH; auto.
Qed.

Lemma good_table_get S N t name col :
  good_table S N t -> dget (tcols t) name = Some col ->
  In name N /\ List.length col = List.length S.
Proof. intros [_ [_ H]] E. apply dget_In in E. eauto. Qed.

Lemma good_table_intro S N t :
  tindex t = S -> NoDup (dkeys (tcols t)) ->
  (forall name col, dget (tcols t) name = Some col ->
     In name N /\ List.length col = List.length S) ->
  good_table S N t.
Proof.
  intros A B C. split; auto. split; auto. intros name col I. apply C. now apply In_dget.
Qed.

Lemma good_table_mono S N N' t :
  (forall x, In x N -> In x N') -> good_table S N t -> good_table S N' t.
Proof.
  intros M [A [B C]]. split; auto. split; auto. intros name col I.
  destruct (C name col I). auto.
Qed.

(* ---------- table operations preserve fit ---------- *)
Lemma reindex_rows_good S S' N f t :
  good_table S N t -> good_table S' N (reindex_rows S' f t).
Proof.
  intros [A [B C]]. unfold reindex_rows. split; [reflexivity|]. split.
  - simpl. rewrite (dkeys_map_val (fun _ col => reindex_col (tindex t) S' f col)). exact B.
  - simpl. intros name col I. apply in_map_iff in I. destruct I as [[n0 c0] [E I]].
    simpl in E. injection E as <- <-. destruct (C n0 c0 I). split; auto.
    unfold reindex_col. apply map_length.
Qed.

Lemma reindex_cols_good S N N' f t :
  NoDup N' -> good_table S N t -> good_table S N' (reindex_cols N' f t).
Proof.
  intros ND G. pose proof G as [A [B C]]. apply good_table_intro; simpl; auto.
  - rewrite (dkeys_map_names (fun n => match dget (tcols t) n with
                                | Some col => col
                                | None => map (fun _ => f) (tindex t) end)). exact ND.
  - intros name col E.
    rewrite (dget_map_names (fun n => match dget (tcols t) n with
                                | Some col => col
                                | None => map (fun _ => f) (tindex t) end)) in E.
    destruct (mem name N') eqn:M; [|discriminate]. apply mem_In in M. split; auto.
    injection E as <-. destruct (dget (tcols t) name) eqn:D.
    + now apply (good_table_get S N t name).
    + rewrite map_length. now rewrite A.
Qed.

Lemma set_const_cols_good S N ns f t :
  (forall x, In x ns -> In x N) -> good_table S N t -> good_table S N (set_const_cols ns f t).
Proof.
  intros Sub G. pose proof G as [A [B C]]. apply good_table_intro; simpl; auto.
  - apply (fold_dset_names_NoDup (fun n => map (fun _ => f n) (tindex t))). exact B.
  - intros name col E.
    rewrite (fold_dset_names_get (fun n => map (fun _ => f n) (tindex t))) in E.
    destruct (mem name ns) eqn:M.
    + apply mem_In in M. injection E as <-. rewrite map_length, A. auto.
    + now apply (good_table_get S N t name).
Qed.

Lemma set_cols_good S N src t :
  NoDup (dkeys (tcols src)) -> (forall x, In x (dkeys (tcols src)) -> In x N) ->
  good_table S N t -> good_table S N (set_cols src t).
Proof.
  intros NDs Sub G. pose proof G as [A [B C]]. apply good_table_intro; simpl; auto.
  - apply (fold_dset_entries_NoDup (fun n (col : list val) =>
      map (fun s => match colget (tindex src) col s with Some v => v | None => VNaN end) (tindex t))).
    exact B.
  - intros name col E.
    rewrite (fold_dset_entries_get (fun n (col : list val) =>
      map (fun s => match colget (tindex src) col s with Some v => v | None => VNaN end) (tindex t)))
      in E by exact NDs.
    destruct (dget (tcols src) name) eqn:M.
    + injection E as <-. rewrite map_length, A. split; auto. apply Sub.
      now apply dget_Some_keys in M.
    + now apply (good_table_get S N t name).
Qed.

Lemma drop_cols_good S N ns t :
  good_table S N t -> good_table S (filter (fun x => negb (mem x ns)) N) (drop_cols ns t).
Proof.
  intros [A [B C]]. unfold drop_cols. split; [exact A|]. split; simpl.
  - now apply NoDup_map_filter.
  - intros name col I. apply filter_In in I. destruct I as [I P]. destruct (C name col I).
    split; auto. apply filter_In. auto.
Qed.

Lemma drop_cols_good' S N ns t : good_table S N t -> good_table S N (drop_cols ns t).
Proof.
  intros G. eapply good_table_mono; [|apply drop_cols_good, G].
  intros x I. apply filter_In in I. tauto.
Qed.

Lemma tget_drop_cols ns t name s :
  tget (drop_cols ns t) name s = if mem name ns then None else tget t name s.
Proof.
  unfold tget, drop_cols; simpl. rewrite (dget_filter_key (fun x => negb (mem x ns))).
  destruct (mem name ns); simpl; auto.
Qed.

Lemma tget_reindex_rows S' f t name s :
  tget (reindex_rows S' f t) name s
  = if dmem (tcols t) name && mem s S'
    then Some (match tget t name s with Some v => v | None => f end) else None.
Proof.
  unfold tget, reindex_rows; simpl.
  rewrite (dget_map_val (fun _ col => reindex_col (tindex t) S' f col)).
  unfold dmem. destruct (dget (tcols t) name) as [col|]; simpl; auto.
  unfold reindex_col.
  now rewrite (colget_map S' (fun s => match colget (tindex t) col s with Some v => v | None => f end)).
Qed.

Lemma tget_reindex_cols N' f t name s :
  tget (reindex_cols N' f t) name s
  = if mem name N' then
      (if dmem (tcols t) name then tget t name s
       else if mem s (tindex t) then Some f else None)
    else None.
Proof.
  unfold tget, reindex_cols; simpl.
  rewrite (dget_map_names (fun n => match dget (tcols t) n with
                                | Some col => col
                                | None => map (fun _ => f) (tindex t) end)).
  destruct (mem name N'); auto. unfold dmem.
  destruct (dget (tcols t) name); auto. apply (colget_map (tindex t) (fun _ => f)).
Qed.

Lemma tget_set_const ns f t name s :
  tget (set_const_cols ns f t) name s
  = if mem name ns then (if mem s (tindex t) then Some (f name) else None) else tget t name s.
Proof.
  unfold tget, set_const_cols; simpl.
  rewrite (fold_dset_names_get (fun n => map (fun _ => f n) (tindex t))).
  destruct (mem name ns); auto. apply (colget_map (tindex t) (fun _ => f name)).
Qed.

Lemma tget_set_cols src t name s :
  NoDup (dkeys (tcols src)) ->
  tget (set_cols src t) name s
  = if dmem (tcols src) name
    then (if mem s (tindex t)
          then Some (match tget src name s with Some v => v | None => VNaN end) else None)
    else tget t name s.
Proof.
  intros ND. unfold tget, set_cols; simpl.
  rewrite (fold_dset_entries_get (fun n (col : list val) =>
      map (fun s => match colget (tindex src) col s with Some v => v | None => VNaN end) (tindex t)))
    by exact ND.
  unfold dmem. destruct (dget (tcols src) name) as [col|]; auto.
  apply (colget_map (tindex t)
    (fun s => match colget (tindex src) col s with Some v => v | None => VNaN end)).
Qed.

(* in a fitting frame a column has a value at every snapshot *)
Lemma tget_good_Some S N t name s :
  good_table S N t -> dmem (tcols t) name = true -> In s S -> exists v, tget t name s = Some v.
Proof.
  intros G D I. apply dmem_true in D. destruct D as [col D].
  unfold tget. rewrite D. pose proof (good_table_get S N t name col G D) as [_ L].
  destruct G as [A _]. apply colget_Some_len; rewrite A; auto.
Qed.

Lemma tget_good_None S N t name s :
  good_table S N t -> tget t name s <> None -> In name N /\ In s S.
Proof.
  intros G H. unfold tget in H. destruct (dget (tcols t) name) as [col|] eqn:D; [|congruence].
  split; [now apply (good_table_get S N t name col G D)|].
  destruct G as [A _]. rewrite A in H. destruct (in_dec string_dec s S) as [I|I]; auto.
  now rewrite colget_notin in H.
Qed.

(* ---------- import_components ---------- *)
Lemma In_number_from {A} (l : list A) i j x :
  In (j, x) (number_from i l) <-> (i <= j /\ nth_error l (j - i) = Some x).
Proof.
  revert i. induction l as [|y r IH]; intros i; simpl.
  - split; [tauto|]. intros [_ H]. destruct (j - i); discriminate.
  - rewrite IH. split.
    + intros [E|[L H]].
      * injection E as -> ->. rewrite Nat.sub_diag. simpl. auto.
      * split; [lia|]. replace (j - i) with (S (j - S i)) by lia. exact H.
    + intros [L H]. destruct (Nat.eq_dec i j) as [->|N].
      * left. rewrite Nat.sub_diag in H. simpl in H. now injection H as ->.
      * right. split; [lia|]. replace (j - i) with (S (j - S i)) in H by lia. exact H.
Qed.

Lemma map_snd_number_from {A} (l : list A) i : map snd (number_from i l) = l.
Proof. revert i. induction l; intros i; simpl; auto. now rewrite IHl. Qed.

Lemma dkeys_df_rows m names st : dkeys (df_rows m names st) = names.
Proof.
  unfold df_rows, dkeys. rewrite map_map. simpl. apply map_snd_number_from.
Qed.

Lemma dget_df_rows m names st i name :
  NoDup names -> nth_error names i = Some name ->
  dget (df_rows m names st) name = Some (full_row m st i).
Proof.
  intros ND H. apply In_dget; [now rewrite dkeys_df_rows|].
  unfold df_rows. apply in_map_iff. exists (i, name). split; auto.
  apply In_number_from. split; [lia|]. now rewrite Nat.sub_0_r.
Qed.

Lemma dget_given_row m st i a :
  dget (given_row m st i) a = option_map (fun vals => fill m a (nth i vals VNaN)) (dget st a).
Proof.
  induction st as [|[b vals] r IH]; simpl; auto.
  destruct (String.eqb b a) eqn:E; simpl; auto. apply String.eqb_eq in E. now subst.
Qed.

Lemma dkeys_given_row m st i : dkeys (given_row m st i) = dkeys st.
Proof. induction st as [|[b vals] r IH]; simpl; auto. unfold dkeys in *. simpl. now rewrite IH. Qed.

Lemma dget_full_row_given m st i a vals :
  dget st a = Some vals -> dget (full_row m st i) a = Some (fill m a (nth i vals VNaN)).
Proof.
  intros H. unfold full_row. rewrite dget_app, dget_given_row, H. reflexivity.
Qed.


(* attribute tables have one line per attribute *)
Lemma dget_missing_static m st a :
  NoDup (dkeys m) -> dget st a = None ->
  dget (missing_static m st) a
  = match dget m a with
    | Some am => if is_static_kind (akind am) then Some (adefault am) else None
    | None => None
    end.
Proof.
  intros ND H. unfold missing_static.
  induction m as [|[b am] r IH]; simpl; auto.
  unfold dkeys in ND; simpl in ND. inversion ND as [|? ? NI ND']; subst.
  destruct (String.eqb b a) eqn:E.
  - apply String.eqb_eq in E. subst b. unfold dmem at 1. rewrite H. simpl.
    rewrite andb_true_r. destruct (is_static_kind (akind am)) eqn:K; simpl.
    + now rewrite String.eqb_refl.
    + rewrite IH by auto. apply dget_None_keys in NI. now rewrite NI.
  - destruct (is_static_kind (akind am) && negb (dmem st b)); simpl; try rewrite E; auto.
Qed.

Lemma dget_full_row_missing m st i a :
  NoDup (dkeys m) -> dget st a = None ->
  dget (full_row m st i) a
  = match dget m a with
    | Some am => if is_static_kind (akind am) then Some (adefault am) else None
    | None => None
    end.
Proof.
  intros ND H. unfold full_row. rewrite dget_app, dget_given_row, H. simpl.
  now apply dget_missing_static.
Qed.

Lemma dget_drop_series m row a :
  dget (drop_series m row) a = if is_series m a then None else dget row a.
Proof.
  unfold drop_series. rewrite (dget_filter_key (fun x => negb (is_series m x))).
  now destruct (is_series m a).
Qed.

Lemma not_series_kind m a am :
  dget m a = Some am -> akind am <> KSeries -> is_series m a = false.
Proof. intros H K. unfold is_series. rewrite H. now destruct (akind am). Qed.

Lemma not_static_varying m a am :
  dget m a = Some am -> akind am <> KStatic -> varying m a = true.
Proof. intros H K. unfold varying. rewrite H. now destruct (akind am). Qed.

Section ImportComponents.
Variables (m : meta) (sns : list string) (ow : bool) (names : list string) (st : dict (list val)).
Hypothesis (NDm : NoDup (dkeys m)) (NDn : NoDup names) (NDst : NoDup (dkeys st)).
Variable c : comp.

Let c' := import_components m sns ow names st c.
Let df := df_rows m names st.

Lemma ic_static_get name :
  dget (static c') name =
  if mem name names && (ow || negb (mem name (names_of c)))
  then option_map (drop_series m) (dget df name)
  else dget (static c) name.
Proof.
  unfold c', import_components; simpl. rewrite dget_app.
  fold df.
  assert (Hn : forall x, dget df x = None <-> mem x names = false).
  { intros x. rewrite mem_false, dget_None_keys. unfold df. now rewrite dkeys_df_rows. }
  destruct ow; simpl.
  - rewrite (dget_filter_key (fun x => negb (mem x names))), andb_true_r.
    rewrite (dget_map_val (fun _ row => drop_series m row)).
    destruct (mem name names) eqn:M; simpl; auto.
    destruct (dget (static c) name); auto.
    apply Hn in M. now rewrite M.
  - rewrite (dget_filter_key (fun x => negb (mem x (names_of c)))).
    rewrite (dget_map_val (fun _ row => drop_series m row)).
    destruct (mem name (names_of c)) eqn:M'; simpl.
    + rewrite andb_false_r. now destruct (dget (static c) name).
    + rewrite andb_true_r. apply mem_false in M'. unfold names_of in M'.
      apply dget_None_keys in M'. rewrite M'.
      destruct (mem name names) eqn:M; auto. apply Hn in M. now rewrite M.
Qed.

Lemma ic_names x : In x (names_of c') <-> In x (names_of c) \/ In x names.
Proof.
  unfold names_of at 1. rewrite <- dmem_In, dmem_true.
  rewrite ic_static_get. split.
  - intros [v H]. destruct (mem x names && (ow || negb (mem x (names_of c)))) eqn:B.
    + apply andb_true_iff in B. destruct B as [B _]. apply mem_In in B. auto.
    + left. now apply dget_Some_keys in H.
  - intros H. destruct (mem x names && (ow || negb (mem x (names_of c)))) eqn:B.
    + apply andb_true_iff in B. destruct B as [B _]. apply mem_In in B.
      destruct (dget_keys_Some df x) as [row E]; [unfold df; now rewrite dkeys_df_rows|].
      rewrite E. simpl. eauto.
    + apply dget_keys_Some. destruct H as [H|H]; auto.
      apply mem_In in H. rewrite H in B. simpl in B.
      apply orb_false_iff in B. destruct B as [_ B]. apply negb_false_iff in B.
      now apply mem_In in B.
Qed.

Lemma NoDup_app_disjoint {A} (a b : list A) :
  NoDup a -> NoDup b -> (forall x, In x a -> In x b -> False) -> NoDup (a ++ b).
Proof.
  induction a as [|x a IH]; simpl; auto. intros Ha Hb D.
  inversion Ha; subst. constructor.
  - rewrite in_app_iff. intros [H|H]; [contradiction|]. apply (D x); auto.
  - apply IH; auto. intros y I J. apply (D y); auto.
Qed.

Lemma ic_NoDup : NoDup (names_of c) -> NoDup (names_of c').
Proof.
  intros ND. unfold c', import_components, names_of; simpl. fold df.
  rewrite dkeys_app.
  set (new := map (fun e => (fst e, drop_series m (snd e))) df).
  assert (Knew : dkeys new = names).
  { unfold new. rewrite (dkeys_map_val (fun _ row => drop_series m row)). apply dkeys_df_rows. }
  apply NoDup_app_disjoint.
  - destruct ow; auto. rewrite (dkeys_filter_key (fun x => negb (mem x names))).
    now apply NoDup_filter.
  - destruct ow; [now rewrite Knew|].
    rewrite (dkeys_filter_key (fun x => negb (mem x (names_of c)))), Knew. now apply NoDup_filter.
  - intros x. destruct ow.
    + rewrite (dkeys_filter_key (fun x => negb (mem x names))), Knew, filter_In.
      intros [_ B] I. apply mem_In in I. now rewrite I in B.
    + rewrite (dkeys_filter_key (fun x => negb (mem x (names_of c)))), filter_In.
      intros I [_ B]. apply mem_In in I. unfold names_of in B. now rewrite I in B.
Qed.

Definition ic_targets : list string :=
  if ow then names else filter (fun n => negb (mem n (names_of c))) names.
Definition ic_cell (a n : string) : val :=
  match dget df n with
  | Some row => match dget row a with Some v => v | None => VNaN end
  | None => VNaN
  end.
Definition ic_table (a : string) (o : option table) : table :=
  set_const_cols ic_targets (ic_cell a)
    (reindex_cols (names_of c') (default_of m a)
       (match o with Some t => t | None => {| tindex := sns; tcols := [] |} end)).

Lemma ic_dyn_get a :
  dget (dyn c') a =
  if mem a (filter (is_series m) (dkeys st)) then Some (ic_table a (dget (dyn c) a))
  else dget (dyn c) a.
Proof.
  unfold c' at 1, import_components; simpl.
  rewrite <- (fold_upd_get ic_table (filter (is_series m) (dkeys st)) (dyn c) a).
  - f_equal.
  - now apply NoDup_filter.
Qed.

Lemma ic_dyn_NoDup : NoDup (dkeys (dyn c)) -> NoDup (dkeys (dyn c')).
Proof.
  intros H. unfold c', import_components; simpl. fold df.
  match goal with |- NoDup (dkeys (fold_left ?f _ _)) =>
    apply (fold_upd_NoDup (fun a d => ic_table a (dget d a)) _ (dyn c) H) end.
Qed.

Lemma ic_targets_sub x : In x ic_targets -> In x names.
Proof. unfold ic_targets. destruct ow; auto. intros I. apply filter_In in I. tauto. Qed.

Lemma ic_good : good_comp sns m c -> good_comp sns m c'.
Proof.
  intros [A [B [C [C' [D E]]]]]. split; [now apply ic_NoDup|]. split; [now apply ic_dyn_NoDup|].
  split; [|split; [|split]].
  - intros name row a am I Ha K.
    assert (G : dget (static c') name = Some row).
    { apply In_dget; auto. now apply ic_NoDup. }
    rewrite ic_static_get in G.
    destruct (mem name names && (ow || negb (mem name (names_of c)))) eqn:M.
    + apply andb_true_iff in M. destruct M as [M _]. apply mem_In in M.
      apply In_nth_error in M. destruct M as [i M].
      unfold df in G. rewrite (dget_df_rows m names st i name NDn M) in G. simpl in G.
      injection G as <-.
      apply dmem_In, dmem_true. rewrite dget_drop_series, (not_series_kind m a am Ha K).
      destruct (dget st a) as [vals|] eqn:S.
      * rewrite (dget_full_row_given m st i a vals S). eauto.
      * rewrite (dget_full_row_missing m st i a NDm S), Ha.
        destruct (akind am); simpl; eauto. now destruct K.
    + apply dget_In in G. eapply C; eauto.
  - intros name row a I Ia.
    assert (G : dget (static c') name = Some row).
    { apply In_dget; auto. now apply ic_NoDup. }
    rewrite ic_static_get in G.
    destruct (mem name names && (ow || negb (mem name (names_of c)))) eqn:M.
    + destruct (dget df name) as [row0|]; [|discriminate]. simpl in G. injection G as <-.
      apply dmem_In, dmem_true in Ia. destruct Ia as [v Ia]. rewrite dget_drop_series in Ia.
      destruct (is_series m a); congruence.
    + apply dget_In in G. eapply C'; eauto.
  - intros a am Ha K. pose proof (D a am Ha K) as H.
    apply dmem_In, dmem_true. rewrite ic_dyn_get.
    destruct (mem a (filter (is_series m) (dkeys st))); eauto.
    now apply dget_keys_Some.
  - intros a t I.
    assert (G : dget (dyn c') a = Some t) by (apply In_dget; auto; now apply ic_dyn_NoDup).
    rewrite ic_dyn_get in G.
    assert (Hold : good_table sns (names_of c)
              (match dget (dyn c) a with Some t => t | None => {| tindex := sns; tcols := [] |} end)).
    { destruct (dget (dyn c) a) as [t0|] eqn:T.
      - apply dget_In in T. now apply (E a).
      - split; [reflexivity|]. split; [constructor|]. simpl. tauto. }
    destruct (mem a (filter (is_series m) (dkeys st))).
    + injection G as <-. unfold ic_table. apply set_const_cols_good.
      * intros x Ix. apply ic_names. right. now apply ic_targets_sub.
      * eapply reindex_cols_good; [now apply ic_NoDup|exact Hold].
    + rewrite G in Hold. eapply good_table_mono; [|exact Hold].
      intros x Ix. apply ic_names. now left.
Qed.

End ImportComponents.

(* ---------- import_series ---------- *)
Definition imp_table (m : meta) (sns : list string) (ow : bool) (N : list string) (attr : string)
  (df : table) (old : option table) : option table :=
  let df1 := if ow then df
             else match old with
                  | Some t => drop_cols (dkeys (tcols t)) df
                  | None => df
                  end in
  if negb (varying m attr) then
    if ow || negb (match old with Some _ => true | None => false end) then Some df1 else old
  else
    let df2 := if forallb (fun s => mem s (tindex df1)) sns then df1
               else reindex_rows sns (default_of m attr) df1 in
    let t0 := match old with Some t => t | None => {| tindex := sns; tcols := [] |} end in
    let t1 := if is_series m attr
              then reindex_cols (union_names (dkeys (tcols df2)) N) (default_of m attr) t0
              else reindex_cols (union_names (dkeys (tcols df2)) (dkeys (tcols t0))) VNaN t0 in
    Some (set_cols df2 t1).

Lemma is_static c m sns ow attr df : static (import_series m sns ow attr df c) = static c.
Proof.
  unfold import_series. destruct (negb (varying m attr)); auto.
  destruct (ow || negb (dmem (dyn c) attr)); auto.
Qed.

Lemma is_dyn_get c m sns ow attr df k :
  dget (dyn (import_series m sns ow attr df c)) k =
  if String.eqb k attr then imp_table m sns ow (names_of c) attr df (dget (dyn c) attr)
  else dget (dyn c) k.
Proof.
  unfold import_series, imp_table, dmem.
  destruct (negb (varying m attr)); simpl.
  - destruct ow; simpl.
    + destruct (String.eqb k attr) eqn:E.
      * apply String.eqb_eq in E; subst. apply dget_dset_eq.
      * apply String.eqb_neq in E. apply dget_dset_neq; congruence.
    + destruct (dget (dyn c) attr) eqn:D; simpl.
      * destruct (String.eqb k attr) eqn:E; auto. apply String.eqb_eq in E; now subst.
      * destruct (String.eqb k attr) eqn:E.
        -- apply String.eqb_eq in E; subst. apply dget_dset_eq.
        -- apply String.eqb_neq in E. apply dget_dset_neq; congruence.
  - destruct (String.eqb k attr) eqn:E.
    + apply String.eqb_eq in E; subst. apply dget_dset_eq.
    + apply String.eqb_neq in E. apply dget_dset_neq; congruence.
Qed.

Lemma is_dyn_NoDup c m sns ow attr df :
  NoDup (dkeys (dyn c)) -> NoDup (dkeys (dyn (import_series m sns ow attr df c))).
Proof.
  intros H. unfold import_series. destruct (negb (varying m attr)); simpl.
  - destruct (ow || negb (dmem (dyn c) attr)); auto. now apply NoDup_dset.
  - now apply NoDup_dset.
Qed.

Lemma NoDup_union a b : NoDup a -> NoDup b -> NoDup (union_names a b).
Proof.
  intros Ha Hb. unfold union_names. apply NoDup_app_disjoint; auto.
  - now apply NoDup_filter.
  - intros x I J. apply filter_In in J. destruct J as [_ J]. apply mem_In in I.
    now rewrite I in J.
Qed.

Lemma In_union a b x : In x (union_names a b) <-> In x a \/ In x b.
Proof.
  unfold union_names. rewrite in_app_iff, filter_In. split; [tauto|].
  intros [H|H]; auto. destruct (mem x a) eqn:E.
  - apply mem_In in E. auto.
  - right. split; auto.
Qed.

Lemma forallb_mem_refl l : forallb (fun s => mem s l) l = true.
Proof. apply forallb_forall. intros x I. now apply mem_In. Qed.

Lemma imp_table_good m sns ow N attr df old t :
  NoDup N ->
  good_table sns N df -> (forall t0, old = Some t0 -> good_table sns N t0) ->
  imp_table m sns ow N attr df old = Some t -> good_table sns N t.
Proof.
  intros NDN Gd Go. unfold imp_table.
  set (df1 := if ow then df else match old with Some t => drop_cols (dkeys (tcols t)) df | None => df end).
  assert (G1 : good_table sns N df1).
  { unfold df1. destruct ow; auto. destruct old; auto. now apply drop_cols_good'. }
  set (t0 := match old with Some t => t | None => {| tindex := sns; tcols := [] |} end).
  assert (G0 : good_table sns N t0).
  { unfold t0. destruct old; auto. split; [reflexivity|]. split; [constructor|]. simpl; tauto. }
  destruct (negb (varying m attr)).
  - destruct (ow || _); auto. intros E. injection E as <-. exact G1.
  - pose proof G1 as [I1 [ND1 C1]]. rewrite I1, forallb_mem_refl.
    intros E. injection E as <-.
    assert (Sub : forall x, In x (dkeys (tcols df1)) -> In x N).
    { intros x Ix. apply dget_keys_Some in Ix. destruct Ix as [col Ix].
      now apply (good_table_get sns N df1 x col). }
    destruct (is_series m attr).
    + apply set_cols_good; auto. eapply good_table_mono;
        [|eapply reindex_cols_good; [|exact G0]].
      * intros x Ix. apply In_union in Ix. destruct Ix as [Ix|Ix]; auto.
      * apply NoDup_union; auto.
    + apply set_cols_good; auto. eapply good_table_mono;
        [|eapply reindex_cols_good; [|exact G0]].
      * intros x Ix. apply In_union in Ix. destruct Ix as [Ix|Ix]; auto.
        apply dget_keys_Some in Ix. destruct Ix as [col Ix].
        now apply (good_table_get sns N t0 x col).
      * apply NoDup_union; auto. now destruct G0 as [_ [H _]].
Qed.

Lemma is_good c m sns ow attr df :
  good_comp sns m c -> good_table sns (names_of c) df ->
  good_comp sns m (import_series m sns ow attr df c).
Proof.
  intros [A [B [C [C' [D E]]]]] G.
  assert (N : names_of (import_series m sns ow attr df c) = names_of c)
    by (unfold names_of; now rewrite is_static).
  split; [now rewrite N|]. split; [now apply is_dyn_NoDup|]. split; [|split; [|split]].
  - intros name row a am I. rewrite is_static in I. eapply C; eauto.
  - intros name row a I. rewrite is_static in I. eapply C'; eauto.
  - intros a am Ha K. apply dmem_In, dmem_true. rewrite is_dyn_get.
    pose proof (D a am Ha K) as H. destruct (String.eqb a attr) eqn:Ea.
    + apply String.eqb_eq in Ea. subst a. unfold imp_table.
      rewrite (not_static_varying m attr am Ha K). simpl. eauto.
    + now apply dget_keys_Some.
  - intros a t I. rewrite N.
    assert (Gt : dget (dyn (import_series m sns ow attr df c)) a = Some t).
    { apply In_dget; auto. now apply is_dyn_NoDup. }
    rewrite is_dyn_get in Gt. destruct (String.eqb a attr) eqn:Ea.
    + eapply imp_table_good; [| | |exact Gt]; auto.
      intros t0 E0. apply dget_In in E0. now apply (E attr).
    + apply dget_In in Gt. now apply (E a).
Qed.

(* ---------- loading keywords ---------- *)
Definition good_loaded (sns names : list string) (l : loaded) : Prop :=
  match l with
  | LStatic vals => List.length vals = List.length names
  | LSeries t => tindex t = sns /\ dkeys (tcols t) = names /\
                 forall e, In e (tcols t) -> List.length (snd e) = List.length sns
  end.

Lemma load_kw_good single names sns sfx v l :
  kw_ok v -> load_kw single names sns sfx v = inl l -> good_loaded sns names l.
Proof.
  intros OK. unfold load_kw. destruct v as [x|xs|idx xs|idx cols|nr cols|]; simpl in OK.
  - intros E. injection E as <-. simpl. apply map_length.
  - destruct single.
    + destruct (Nat.eqb _ _) eqn:L; [|discriminate]. intros E. injection E as <-. simpl.
      apply Nat.eqb_eq in L. split; auto. split; [apply (dkeys_map_names (fun _ => xs))|].
      intros e I. apply in_map_iff in I. destruct I as [n [<- _]]. exact L.
    + destruct xs as [|x [|y r]].
      * destruct (Nat.eqb _ _) eqn:L; [|discriminate]. intros E. injection E as <-. simpl.
        now apply Nat.eqb_eq in L.
      * intros E. injection E as <-. simpl. apply map_length.
      * destruct (Nat.eqb _ _) eqn:L; [|discriminate]. intros E. injection E as <-. simpl.
        now apply Nat.eqb_eq in L.
  - destruct single.
    + destruct (list_eqb idx sns) eqn:L; [|discriminate]. apply list_eqb_eq in L. subst idx.
      intros E. injection E as <-. simpl. split; auto.
      split; [apply (dkeys_map_names (fun _ => xs))|].
      intros e I. apply in_map_iff in I. destruct I as [n [<- _]]. exact OK.
    + destruct (list_eqb _ names) eqn:L; [|discriminate]. apply list_eqb_eq in L.
      assert (LL : List.length xs = List.length names) by (rewrite <- L, map_length; auto).
      destruct xs as [|x [|y r]]; intros E; injection E as <-; simpl; auto. apply map_length.
  - destruct (list_eqb idx sns) eqn:L; [|discriminate]. apply list_eqb_eq in L. subst idx. simpl.
    destruct (list_eqb _ names) eqn:L'; [|discriminate]. apply list_eqb_eq in L'. simpl.
    destruct single; [discriminate|]. intros E. injection E as <-. simpl.
    split; auto. split.
    + rewrite <- L'. unfold dkeys. rewrite map_map. reflexivity.
    + intros e I. apply in_map_iff in I. destruct I as [e0 [<- I]]. simpl. now apply OK.
  - destruct (Nat.eqb nr _) eqn:L1; simpl; [|discriminate].
    destruct (Nat.eqb (List.length cols) _) eqn:L2; simpl; [|discriminate].
    apply Nat.eqb_eq in L1, L2.
    destruct single; [discriminate|]. intros E. injection E as <-. simpl.
    split; auto. split.
    + clear -L2. revert cols L2. induction names as [|n r IH]; intros [|x cols] L; simpl in *;
        try discriminate; auto. unfold dkeys in *. simpl. f_equal. apply IH. lia.
    + intros [n x] I. apply in_combine_r in I. simpl. rewrite (OK _ I). exact L1.
  - discriminate.
Qed.

Lemma load_kwargs_spec single names sns sfx kw st se :
  (forall k v, In (k, v) kw -> kw_ok v) ->
  load_kwargs single names sns sfx kw = inl (st, se) ->
  (forall k vals, In (k, vals) st ->
     exists v, In (k, v) kw /\ load_kw single names sns sfx v = inl (LStatic vals)) /\
  (forall k t, In (k, t) se ->
     exists v, In (k, v) kw /\ load_kw single names sns sfx v = inl (LSeries t)).
Proof.
  revert st se. induction kw as [|[k v] r IH]; intros st se OK E; simpl in E.
  - injection E as <- <-. simpl. split; tauto.
  - destruct (load_kw single names sns sfx v) as [l|] eqn:L; [|discriminate].
    destruct (load_kwargs single names sns sfx r) as [[st0 se0]|] eqn:R; [|discriminate].
    destruct (IH st0 se0) as [A B]; auto.
    { intros k' v' I. apply (OK k'). now right. }
    destruct l as [vals|t]; injection E as <- <-; split; simpl.
    + intros k' vals' [I|I].
      * injection I as <- <-. exists v. auto.
      * destruct (A _ _ I) as [v' [? ?]]. exists v'. auto.
    + intros k' t' I. destruct (B _ _ I) as [v' [? ?]]. exists v'. auto.
    + intros k' t' I. destruct (A _ _ I) as [v' [? ?]]. exists v'. auto.
    + intros k' t' [I|I].
      * injection I as <- <-. exists v. auto.
      * destruct (B _ _ I) as [v' [? ?]]. exists v'. auto.
Qed.

Lemma load_kwargs_keys single names sns sfx kw st se :
  load_kwargs single names sns sfx kw = inl (st, se) ->
  (forall k, In k (dkeys st) -> In k (map fst kw)) /\
  (forall k, In k (dkeys se) -> In k (map fst kw)).
Proof.
  revert st se. induction kw as [|[k v] r IH]; intros st se E; simpl in E.
  - injection E as <- <-. simpl. split; tauto.
  - destruct (load_kw single names sns sfx v) as [l|] eqn:L; [|discriminate].
    destruct (load_kwargs single names sns sfx r) as [[st0 se0]|] eqn:R; [|discriminate].
    destruct (IH st0 se0) as [A B]; auto.
    destruct l; injection E as <- <-; unfold dkeys in *; simpl; split; intros k'.
    + intros [->|I]; auto.
    + auto.
    + auto.
    + intros [->|I]; auto.
Qed.

Lemma load_kwargs_NoDup single names sns sfx kw st se :
  NoDup (map fst kw) ->
  load_kwargs single names sns sfx kw = inl (st, se) ->
  NoDup (dkeys st) /\ NoDup (dkeys se).
Proof.
  revert st se. induction kw as [|[k v] r IH]; intros st se ND E; simpl in E.
  - injection E as <- <-. split; constructor.
  - simpl in ND. inversion ND as [|? ? NI ND']; subst.
    destruct (load_kw single names sns sfx v) as [l|] eqn:L; [|discriminate].
    destruct (load_kwargs single names sns sfx r) as [[st0 se0]|] eqn:R; [|discriminate].
    destruct (IH st0 se0) as [A B]; auto.
    destruct (load_kwargs_keys _ _ _ _ _ _ _ R) as [KA KB].
    destruct l; injection E as <- <-; unfold dkeys in *; simpl; split; auto.
    + constructor; auto.
    + constructor; auto.
Qed.

(* each keyword of a successful call ended up in exactly one of the two groups *)
Lemma load_kwargs_get single names sns sfx kw st se k v :
  NoDup (map fst kw) ->
  load_kwargs single names sns sfx kw = inl (st, se) -> dget kw k = Some v ->
  exists l, load_kw single names sns sfx v = inl l /\
  match l with
  | LStatic vals => dget st k = Some vals /\ dget se k = None
  | LSeries t => dget st k = None /\ dget se k = Some t
  end.
Proof.
  revert st se. induction kw as [|[k0 v0] r IH]; intros st se ND E G; simpl in E.
  - discriminate.
  - simpl in ND. inversion ND as [|? ? NI ND']; subst.
    destruct (load_kw single names sns sfx v0) as [l|] eqn:L; [|discriminate].
    destruct (load_kwargs single names sns sfx r) as [[st0 se0]|] eqn:R; [|discriminate].
    destruct (load_kwargs_keys _ _ _ _ _ _ _ R) as [KA KB].
    simpl in G. destruct (String.eqb k0 k) eqn:Ek.
    + injection G as ->. apply String.eqb_eq in Ek. subst k0. exists l. split; auto.
      assert (N1 : dget st0 k = None) by (apply dget_None_keys; intros X; apply NI, KA, X).
      assert (N2 : dget se0 k = None) by (apply dget_None_keys; intros X; apply NI, KB, X).
      destruct l; injection E as <- <-; simpl; rewrite String.eqb_refl; auto.
    + destruct (IH st0 se0) as [l0 [L0 H]]; auto. exists l0. split; auto.
      destruct l; injection E as <- <-; simpl; rewrite Ek; auto.
Qed.

Lemma load_kwargs_get_None single names sns sfx kw st se k :
  load_kwargs single names sns sfx kw = inl (st, se) -> dget kw k = None ->
  dget st k = None /\ dget se k = None.
Proof.
  intros E G. destruct (load_kwargs_keys _ _ _ _ _ _ _ E) as [KA KB].
  apply dget_None_keys in G. split; apply dget_None_keys; intros X; apply G.
  - now apply KA.
  - now apply KB.
Qed.

(* ---------- the loop over time-series keywords ---------- *)
Definition import_all (m : meta) (sns : list string) (ow : bool) (se : dict table) (c : comp) : comp :=
  fold_left (fun c e => import_series m sns ow (fst e) (snd e) c) se c.

Lemma ia_static m sns ow se c : static (import_all m sns ow se c) = static c.
Proof.
  unfold import_all. revert c. induction se as [|e r IH]; intros c; simpl; auto.
  rewrite IH. apply is_static.
Qed.

Lemma ia_names m sns ow se c : names_of (import_all m sns ow se c) = names_of c.
Proof. unfold names_of. now rewrite ia_static. Qed.

Lemma ia_dyn_get m sns ow se c k :
  NoDup (dkeys se) ->
  dget (dyn (import_all m sns ow se c)) k =
  match dget se k with
  | Some df => imp_table m sns ow (names_of c) k df (dget (dyn c) k)
  | None => dget (dyn c) k
  end.
Proof.
  unfold import_all. revert c. induction se as [|[a df] r IH]; intros c ND; simpl; auto.
  unfold dkeys in ND; simpl in ND. inversion ND as [|? ? NI ND']; subst.
  rewrite IH by auto.
  assert (N : names_of (import_series m sns ow a df c) = names_of c)
    by (unfold names_of; now rewrite is_static).
  rewrite N, is_dyn_get. destruct (String.eqb a k) eqn:E.
  - apply String.eqb_eq in E. subst a. apply dget_None_keys in NI. rewrite NI.
    now rewrite String.eqb_refl.
  - rewrite (String.eqb_sym k a), E. reflexivity.
Qed.

Lemma ia_good m sns ow se c :
  good_comp sns m c ->
  (forall a df, In (a, df) se -> good_table sns (names_of c) df) ->
  good_comp sns m (import_all m sns ow se c).
Proof.
  unfold import_all. revert c. induction se as [|[a df] r IH]; intros c G H; simpl; auto.
  apply IH.
  - apply is_good; auto. apply (H a). now left.
  - intros a' df' I.
    assert (N : names_of (import_series m sns ow a df c) = names_of c)
      by (unfold names_of; now rewrite is_static).
    rewrite N. apply (H a'). now right.
Qed.

(* ---------- the invariant ---------- *)
Section NetProofs.
Variable metas : dict meta.
Hypothesis metas_ok : forall cls m, dget metas cls = Some m -> NoDup (dkeys m).

Lemma Inv_set n cls c m :
  Inv metas n -> dget metas cls = Some m -> dget (comps n) cls <> None ->
  good_comp (snaps n) m c ->
  Inv metas {| snaps := snaps n; weights := weights n; comps := dset (comps n) cls c |}.
Proof.
  intros [A [B [C [D [E F]]]]] Hm Hc G. unfold Inv; simpl.
  do 4 (split; [assumption|]). split.
  - rewrite dkeys_dset_in; auto.
    destruct (dget (comps n) cls) eqn:X; [|congruence]. now apply dget_Some_keys in X.
  - intros cls' c' m' H1 H2. destruct (string_dec cls cls') as [<-|N].
    + rewrite dget_dset_eq in H1. injection H1 as <-. rewrite Hm in H2. now injection H2 as <-.
    + rewrite dget_dset_neq in H1 by auto. eapply F; eauto.
Qed.

Lemma loaded_series_good S N t :
  NoDup N -> good_loaded S N (LSeries t) -> good_table S N t.
Proof.
  intros ND [A [B C]]. split; auto. split; [now rewrite B|].
  intros name col I. split.
  - rewrite <- B. now apply (in_map fst) in I.
  - now apply (C (name, col)).
Qed.

Lemma add_Inv n cls single raw sfx ow kw :
  Inv metas n -> NoDup (map fst kw) -> (forall k v, In (k, v) kw -> kw_ok v) ->
  Inv metas (fst (add metas n cls single raw sfx ow kw)).
Proof.
  intros I ND OK. unfold add.
  destruct (dget metas cls) as [m|] eqn:Hm; [|exact I].
  destruct (dget (comps n) cls) as [c|] eqn:Hc; [|exact I].
  set (names := map (fun s => String.append s sfx) raw).
  destruct (nodupb names) eqn:Hn; [|exact I]. apply nodupb_spec in Hn. simpl.
  destruct (load_kwargs single names (snaps n) sfx kw) as [[st se]|] eqn:L; [|exact I]. simpl.
  destruct (load_kwargs_NoDup _ _ _ _ _ _ _ ND L) as [NDst NDse].
  destruct (load_kwargs_spec _ _ _ _ _ _ _ OK L) as [_ Hse].
  apply (Inv_set n cls _ m); auto; [congruence|].
  fold (import_all m (snaps n) ow se (import_components m (snaps n) ow names st c)).
  pose proof I as [_ [_ [_ [_ [_ F]]]]].
  apply ia_good.
  - apply ic_good; eauto.
  - intros a df Ia. destruct (Hse a df Ia) as [v [Iv Lv]].
    eapply good_table_mono; [|apply (loaded_series_good (snaps n) names df Hn)].
    + intros x Ix. apply ic_names. now right.
    + exact (load_kw_good single names (snaps n) sfx v _ (OK a v Iv) Lv).
Qed.

Lemma remove_comp_good S m names c : good_comp S m c -> good_comp S m (remove_comp names c).
Proof.
  intros [A [B [C [C' [D E]]]]].
  assert (N : names_of (remove_comp names c) = filter (fun x => negb (mem x names)) (names_of c)).
  { unfold names_of, remove_comp; simpl. apply (dkeys_filter_key (fun x => negb (mem x names))). }
  assert (K : dkeys (dyn (remove_comp names c)) = dkeys (dyn c)).
  { unfold remove_comp; simpl. apply (dkeys_map_val (fun _ t => drop_cols names t)). }
  split; [rewrite N; now apply NoDup_filter|]. split; [now rewrite K|].
  split; [|split; [|split]].
  - intros name row a am I. unfold remove_comp in I; simpl in I. apply filter_In in I.
    destruct I as [I _]. eapply C; eauto.
  - intros name row a I. unfold remove_comp in I; simpl in I. apply filter_In in I.
    destruct I as [I _]. eapply C'; eauto.
  - intros a am Ha Hk. rewrite K. eauto.
  - intros a t I. unfold remove_comp in I; simpl in I. apply in_map_iff in I.
    destruct I as [[a0 t0] [Et I]]. simpl in Et. injection Et as <- <-. rewrite N.
    apply drop_cols_good. eapply E; eauto.
Qed.

Lemma remove_Inv n cls raw sfx : Inv metas n -> Inv metas (fst (remove metas n cls raw sfx)).
Proof.
  intros I. unfold remove.
  destruct (dget metas cls) as [m|] eqn:Hm; [|exact I].
  destruct (dget (comps n) cls) as [c|] eqn:Hc; [|exact I].
  destruct (forallb _ _); [|exact I]. simpl.
  apply (Inv_set n cls _ m); auto; [congruence|].
  pose proof I as [_ [_ [_ [_ [_ F]]]]]. apply remove_comp_good. eauto.
Qed.

Lemma set_snapshots_comp_good S S' m c :
  good_comp S m c -> good_comp S' m (set_snapshots_comp m S' c).
Proof.
  intros [A [B [C [C' [D E]]]]].
  assert (K : dkeys (dyn (set_snapshots_comp m S' c)) = dkeys (dyn c)).
  { unfold set_snapshots_comp; simpl. apply (dkeys_map_val (fun a t => set_snapshots_table m S' a t)). }
  split; [exact A|]. split; [now rewrite K|]. split; [exact C|]. split; [exact C'|]. split.
  - intros a am Ha Hk. rewrite K. eauto.
  - intros a t I. unfold set_snapshots_comp in I; simpl in I. apply in_map_iff in I.
    destruct I as [[a0 t0] [Et I]]. simpl in Et. injection Et as <- <-.
    pose proof (E a0 t0 I) as G. unfold set_snapshots_table.
    change (names_of (set_snapshots_comp m S' c)) with (names_of c).
    destruct (tcols t0) eqn:T.
    + split; [reflexivity|]. split; [constructor|]. simpl. tauto.
    + destruct (varying m a0); eapply reindex_rows_good; exact G.
Qed.

Lemma set_snapshots_Inv n sns dw :
  Inv metas n -> sns <> [] -> NoDup sns -> Inv metas (fst (set_snapshots metas n sns dw)).
Proof.
  intros [A [B [C [D [E F]]]]] N ND. unfold set_snapshots. destruct sns as [|s0 r]; [congruence|].
  remember (s0 :: r) as sns. unfold Inv; simpl. do 3 (split; [now auto|]). split; [|split].
  - intros w col I. apply in_map_iff in I. destruct I as [[w0 c0] [Ew I]]. simpl in Ew.
    injection Ew as <- <-. unfold reindex_col. apply map_length.
  - rewrite (dkeys_map_val (fun cls c => set_snapshots_comp (meta_of metas cls) sns c)). exact E.
  - intros cls c m H H0.
    rewrite (dget_map_val (fun cls c => set_snapshots_comp (meta_of metas cls) sns c)) in H.
    destruct (dget (comps n) cls) eqn:X; [|discriminate]. simpl in H. injection H as <-.
    unfold meta_of. rewrite H0.
    now apply (set_snapshots_comp_good (snaps n) sns m), (F cls).
Qed.

Lemma init_Inv : NoDup (dkeys metas) -> Inv metas (init_net metas).
Proof.
  intros ND. unfold Inv, init_net; simpl. split; [constructor; [simpl; tauto|constructor]|].
  split; [discriminate|]. split; [reflexivity|]. split.
  { intros w col [I|[I|[I|[]]]]; injection I as <- <-; reflexivity. }
  split; [apply (dkeys_map_val (fun _ m => empty_comp m))|].
  intros cls c m Hc Hm.
  rewrite (dget_map_val (fun _ m => empty_comp m)), Hm in Hc. simpl in Hc. injection Hc as <-.
  pose proof (metas_ok cls m Hm) as NDm.
  split; [constructor|]. split.
  { unfold empty_comp; simpl.
    rewrite (dkeys_map_val (fun _ _ => {| tindex := ["now"]; tcols := [] |})).
    now apply NoDup_map_filter. }
  split; [simpl; tauto|]. split; [simpl; tauto|]. split.
  - intros a am Ha K. unfold empty_comp; simpl.
    rewrite (dkeys_map_val (fun _ _ => {| tindex := ["now"]; tcols := [] |})).
    apply dget_In in Ha. unfold dkeys. apply in_map_iff. exists (a, am). split; auto.
    apply filter_In. split; auto. simpl. now destruct (akind am).
  - intros a t I. unfold empty_comp in I; simpl in I. apply in_map_iff in I.
    destruct I as [[a0 t0] [E _]]. injection E as <- <-.
    split; [reflexivity|]. split; [constructor|]. simpl. tauto.
Qed.

Lemma step_Inv n o : Inv metas n -> op_ok o -> Inv metas (fst (nstep metas n o)).
Proof.
  intros I OK. destruct o; simpl in *.
  - apply add_Inv; tauto.
  - now apply remove_Inv.
  - now apply set_snapshots_Inv.
Qed.

Lemma run_Inv ops :
  NoDup (dkeys metas) -> Forall op_ok ops -> Inv metas (nrun metas (init_net metas) ops).
Proof.
  intros ND H. unfold nrun. pose proof (init_Inv ND) as I.
  generalize dependent (init_net metas). induction H as [|o r OK _ IH]; intros n I; simpl; auto.
  apply IH. now apply step_Inv.
Qed.

Lemma step_err_unchanged n o :
  (forall sns dw, o = SetSnapshots sns dw -> sns <> []) ->
  snd (nstep metas n o) <> None -> fst (nstep metas n o) = n.
Proof.
  intros NE. destruct o; simpl.
  - unfold add. destruct (dget metas cls); auto. destruct (dget (comps n) cls); auto.
    destruct (negb _); auto. destruct (load_kwargs _ _ _ _ _) as [[st se]|]; auto.
    simpl. congruence.
  - unfold remove. destruct (dget metas cls); auto. destruct (dget (comps n) cls); auto.
    destruct (forallb _ _); auto. simpl. congruence.
  - unfold set_snapshots. destruct sns; simpl; [|congruence].
    exfalso. now apply (NE [] dw).
Qed.

(* ---------- C05: what add does to what is read ---------- *)
Definition dval (c : comp) (attr name s : string) : option val :=
  match dget (dyn c) attr with Some t => tget t name s | None => None end.

Lemma eff_unfold m c name attr s :
  eff m c name attr s =
  match dget (static c) name with
  | None => None
  | Some row => match dval c attr name s with
                | Some v => Some v
                | None => if is_series m attr then Some (default_of m attr)
                          else Some (match dget row attr with Some v => v | None => VNaN end)
                end
  end.
Proof. reflexivity. Qed.

(* what a column read looks like "up to default" for series-only attributes *)
Definition same_read (m : meta) (attr : string) (a b : option val) : Prop :=
  a = b \/ (is_series m attr = true /\
            (a = None \/ a = Some (default_of m attr)) /\ (b = None \/ b = Some (default_of m attr))).

Lemma same_read_refl m attr a : same_read m attr a a.
Proof. now left. Qed.

Lemma same_read_trans m attr a b d :
  same_read m attr a b -> same_read m attr b d -> same_read m attr a d.
Proof.
  intros [->|[S [A B]]] [->|[S' [B' D]]]; try (now left); try (right; auto).
Qed.

Lemma eff_same m c c' name attr s :
  dget (static c) name = dget (static c') name ->
  same_read m attr (dval c attr name s) (dval c' attr name s) ->
  eff m c name attr s = eff m c' name attr s.
Proof.
  intros E R. rewrite !eff_unfold, E. destruct (dget (static c') name); auto.
  destruct R as [->|[S [A B]]]; auto. rewrite S.
  destruct A as [->| ->]; destruct B as [->| ->]; auto.
Qed.

Definition old_table (sns : list string) (o : option table) : table :=
  match o with Some t => t | None => {| tindex := sns; tcols := [] |} end.

Lemma old_table_tget sns o name s :
  tget (old_table sns o) name s = match o with Some t => tget t name s | None => None end.
Proof. destruct o; auto. Qed.

Lemma tget_dmem_false t name s : dmem (tcols t) name = false -> tget t name s = None.
Proof. unfold dmem, tget. now destruct (dget (tcols t) name). Qed.

(* names outside the call read the same after import_components *)
Lemma ic_other m sns ow names st c name attr s :
  NoDup (dkeys m) -> NoDup names -> NoDup (dkeys st) -> good_comp sns m c ->
  In name (names_of c) -> ~ In name (ic_targets ow names c) ->
  same_read m attr (dval c attr name s)
    (dval (import_components m sns ow names st c) attr name s).
Proof.
  intros NDm NDn NDst G I NT. unfold dval. rewrite ic_dyn_get by assumption.
  destruct (mem attr (filter (is_series m) (dkeys st))) eqn:M; [|apply same_read_refl].
  apply mem_In, filter_In in M. destruct M as [_ M].
  unfold ic_table. rewrite tget_set_const. apply mem_false in NT. rewrite NT.
  rewrite tget_reindex_cols.
  assert (M' : mem name (names_of (import_components m sns ow names st c)) = true).
  { apply mem_In, ic_names; auto. }
  rewrite M'. fold (old_table sns (dget (dyn c) attr)).
  destruct (dmem (tcols (old_table sns (dget (dyn c) attr))) name) eqn:D.
  - rewrite old_table_tget. now left.
  - rewrite <- old_table_tget with (sns := sns). rewrite tget_dmem_false by exact D.
    right. split; auto. split; auto. destruct (mem s _); auto.
Qed.

(* columns outside the frame read the same after imp_table *)
Lemma imp_other m sns ow N attr df old name s :
  (ow = true -> varying m attr = true) ->
  NoDup (dkeys (tcols df)) -> tindex df = sns ->
  (forall t0, old = Some t0 -> good_table sns N t0) ->
  (~ In name (dkeys (tcols df)) \/
   (ow = false /\ exists t0, old = Some t0 /\ dmem (tcols t0) name = true)) ->
  same_read m attr (match old with Some t => tget t name s | None => None end)
    (match imp_table m sns ow N attr df old with Some t => tget t name s | None => None end).
Proof.
  intros Cust ND Idx Go H. unfold imp_table.
  set (df1 := if ow then df else match old with Some t => drop_cols (dkeys (tcols t)) df | None => df end).
  assert (Hd1 : dmem (tcols df1) name = false).
  { apply dmem_false, dget_None_keys. destruct H as [H|[-> [t0 [-> H]]]].
    - intros X. apply H. unfold df1 in X. destruct ow; auto. destruct old; auto.
      unfold drop_cols in X; simpl in X. unfold dkeys in X. apply in_map_iff in X.
      destruct X as [e [<- X]]. apply filter_In in X. destruct X as [X _]. now apply in_map.
    - unfold df1, drop_cols; simpl.
      rewrite (dkeys_filter_key (fun x => negb (mem x (dkeys (tcols t0))))), filter_In.
      intros [_ X]. apply dmem_In, mem_In in H. now rewrite H in X. }
  assert (ND1 : NoDup (dkeys (tcols df1))).
  { unfold df1. destruct ow; auto. destruct old; auto. unfold drop_cols; simpl.
    now apply NoDup_map_filter. }
  assert (I1 : tindex df1 = sns).
  { unfold df1. destruct ow; auto. destruct old; auto. }
  destruct (varying m attr) eqn:V; simpl.
  - rewrite I1, forallb_mem_refl. rewrite tget_set_cols by exact ND1. rewrite Hd1.
    fold (old_table sns old).
    destruct (is_series m attr) eqn:Sr.
    + rewrite tget_reindex_cols.
      destruct (mem name (union_names (dkeys (tcols df1)) N)) eqn:M.
      * destruct (dmem (tcols (old_table sns old)) name) eqn:D.
        -- rewrite old_table_tget. now left.
        -- rewrite <- old_table_tget with (sns := sns). rewrite tget_dmem_false by exact D.
           right. split; auto. split; auto. destruct (mem s _); auto.
      * left. destruct old as [t0|]; auto. destruct (tget t0 name s) eqn:T; auto.
        exfalso. apply mem_false in M. apply M, In_union. right.
        apply (tget_good_None sns N t0 name s); [now apply Go|congruence].
    + rewrite tget_reindex_cols.
      destruct (mem name (union_names (dkeys (tcols df1)) (dkeys (tcols (old_table sns old))))) eqn:M.
      * destruct (dmem (tcols (old_table sns old)) name) eqn:D.
        -- rewrite old_table_tget. now left.
        -- exfalso. apply mem_In, In_union in M. destruct M as [M|M].
           ++ apply dmem_In in M. congruence.
           ++ apply dmem_In in M. congruence.
      * left. destruct old as [t0|]; auto. simpl in M.
        destruct (dmem (tcols t0) name) eqn:D.
        -- exfalso. apply mem_false in M. apply M, In_union. right. now apply dmem_In.
        -- now apply tget_dmem_false.
  - destruct ow; [now discriminate (Cust eq_refl)|]. simpl.
    destruct old; [now left|]. simpl. left. symmetry. now apply tget_dmem_false.
Qed.

(* successful calls *)
Lemma add_ok_inv n cls single raw sfx ow kw n' :
  add metas n cls single raw sfx ow kw = (n', None) ->
  exists m c st se,
    let names := map (fun s => String.append s sfx) raw in
    dget metas cls = Some m /\ dget (comps n) cls = Some c /\ NoDup names /\
    load_kwargs single names (snaps n) sfx kw = inl (st, se) /\
    n' = {| snaps := snaps n; weights := weights n;
            comps := dset (comps n) cls
              (import_all m (snaps n) ow se (import_components m (snaps n) ow names st c)) |}.
Proof.
  unfold add. destruct (dget metas cls) as [m|] eqn:Hm; [|congruence].
  destruct (dget (comps n) cls) as [c|] eqn:Hc; [|congruence].
  destruct (nodupb _) eqn:Hn; simpl; [|congruence]. apply nodupb_spec in Hn.
  destruct (load_kwargs _ _ _ _ _) as [[st se]|] eqn:L; [|congruence].
  intros E. injection E as <-. exists m, c, st, se. repeat split; auto.
Qed.

Lemma load_series_shape single names sns sfx kw st se k t :
  (forall k v, In (k, v) kw -> kw_ok v) ->
  load_kwargs single names sns sfx kw = inl (st, se) ->
  dget se k = Some t ->
  tindex t = sns /\ dkeys (tcols t) = names /\
  forall e, In e (tcols t) -> List.length (snd e) = List.length sns.
Proof.
  intros OK L E. destruct (load_kwargs_spec _ _ _ _ _ _ _ OK L) as [_ Hse].
  apply dget_In in E. destruct (Hse k t E) as [v [Iv Lv]].
  apply (load_kw_good _ _ _ _ _ _ (OK k v Iv) Lv).
Qed.

(* for a keyword that becomes a series: its attribute *)
Definition custom_free (m : meta) (single : bool) (kw : list (string * kwval)) : Prop :=
  forall k v, In (k, v) kw -> gives_series single v = true -> varying m k = true.

Lemma load_kw_series_gives single names sns sfx v t :
  load_kw single names sns sfx v = inl (LSeries t) -> gives_series single v = true.
Proof.
  unfold load_kw, gives_series. destruct v as [x|xs|idx xs|idx cols|nr cols|]; auto; try discriminate.
  - destruct single; auto. destruct xs as [|x [|y r]]; try discriminate;
      destruct (Nat.eqb _ _); discriminate.
  - destruct single; auto. destruct (list_eqb _ _); try discriminate.
    destruct xs as [|x [|y r]]; discriminate.
Qed.

Lemma load_kw_static_gives single names sns sfx v t :
  load_kw single names sns sfx v = inl (LStatic t) -> gives_series single v = false.
Proof.
  unfold load_kw, gives_series. destruct v as [x|xs|idx xs|idx cols|nr cols|]; auto; try discriminate.
  - destruct single; auto. destruct (Nat.eqb _ _); discriminate.
  - destruct single; auto. destruct (list_eqb _ _); discriminate.
  - destruct (negb _); try discriminate. destruct (negb _); try discriminate.
    destruct single; discriminate.
  - destruct (_ && _); try discriminate. destruct single; discriminate.
Qed.

Lemma add_other n cls single raw sfx ow kw n' m c c' name attr s :
  Inv metas n -> NoDup (map fst kw) -> (forall k v, In (k, v) kw -> kw_ok v) ->
  add metas n cls single raw sfx ow kw = (n', None) ->
  dget metas cls = Some m -> dget (comps n) cls = Some c -> dget (comps n') cls = Some c' ->
  (ow = true -> custom_free m single kw) ->
  In name (names_of c) ->
  ~ In name (map (fun s => String.append s sfx) raw) ->
  dget (static c') name = dget (static c) name /\
  eff m c' name attr s = eff m c name attr s.
Proof.
  intros I ND OK E Hm Hc Hc' Cust In1 Nin.
  destruct (add_ok_inv _ _ _ _ _ _ _ _ E) as [m0 [c0 [st [se [Hm0 [Hc0 [NDn [L ->]]]]]]]].
  rewrite Hm in Hm0. injection Hm0 as <-. rewrite Hc in Hc0. injection Hc0 as <-.
  simpl in Hc'. rewrite dget_dset_eq in Hc'. injection Hc' as <-.
  set (names := map (fun s => String.append s sfx) raw) in *.
  destruct (load_kwargs_NoDup _ _ _ _ _ _ _ ND L) as [NDst NDse].
  pose proof (metas_ok cls m Hm) as NDm.
  pose proof I as [_ [_ [_ [_ [_ F]]]]]. pose proof (F cls c m Hc Hm) as G.
  set (c1 := import_components m (snaps n) ow names st c).
  assert (S1 : dget (static (import_all m (snaps n) ow se c1)) name = dget (static c) name).
  { rewrite ia_static. unfold c1. rewrite ic_static_get; auto.
    apply mem_false in Nin. rewrite Nin. reflexivity. }
  split; [exact S1|]. symmetry. apply eff_same; [now symmetry|].
  apply same_read_trans with (b := dval c1 attr name s).
  - apply ic_other; auto. unfold ic_targets. destruct ow; auto.
    intros X. apply filter_In in X. tauto.
  - unfold dval at 2. rewrite ia_dyn_get by exact NDse.
    assert (G1 : good_comp (snaps n) m c1) by (apply ic_good; auto).
    destruct (dget se attr) as [df|] eqn:Ed; [|apply same_read_refl].
    destruct (load_series_shape _ _ _ _ _ _ _ _ _ OK L Ed) as [I1 [K1 L1]].
    apply imp_other; auto.
    + intros ->. destruct (load_kwargs_spec _ _ _ _ _ _ _ OK L) as [_ Hse].
      apply dget_In in Ed. destruct (Hse attr df Ed) as [v [Iv Lv]].
      apply (Cust eq_refl attr v Iv). eapply load_kw_series_gives; eauto.
    + rewrite K1. exact NDn.
    + intros t0 E0. destruct G1 as [_ [_ [_ [_ [_ G1]]]]]. apply dget_In in E0. eauto.
    + left. now rewrite K1.
Qed.

(* existing components named again without overwrite *)
Lemma add_existing n cls single raw sfx kw n' m c c' name :
  Inv metas n -> NoDup (map fst kw) -> (forall k v, In (k, v) kw -> kw_ok v) ->
  add metas n cls single raw sfx false kw = (n', None) ->
  dget metas cls = Some m -> dget (comps n) cls = Some c -> dget (comps n') cls = Some c' ->
  In name (names_of c) ->
  dget (static c') name = dget (static c) name /\
  forall attr s,
    (* attribute not passed as a series, or the component already has that series *)
    (match dget kw attr with
     | Some v => gives_series single v = false \/
                 (exists t, dget (dyn c) attr = Some t /\ In name (dkeys (tcols t)))
     | None => True end) ->
    eff m c' name attr s = eff m c name attr s.
Proof.
  intros I ND OK E Hm Hc Hc' In1.
  destruct (add_ok_inv _ _ _ _ _ _ _ _ E) as [m0 [c0 [st [se [Hm0 [Hc0 [NDn [L ->]]]]]]]].
  rewrite Hm in Hm0. injection Hm0 as <-. rewrite Hc in Hc0. injection Hc0 as <-.
  simpl in Hc'. rewrite dget_dset_eq in Hc'. injection Hc' as <-.
  set (names := map (fun s => String.append s sfx) raw) in *.
  destruct (load_kwargs_NoDup _ _ _ _ _ _ _ ND L) as [NDst NDse].
  pose proof (metas_ok cls m Hm) as NDm.
  pose proof I as [_ [_ [_ [_ [_ F]]]]]. pose proof (F cls c m Hc Hm) as G.
  set (c1 := import_components m (snaps n) false names st c).
  assert (S1 : dget (static (import_all m (snaps n) false se c1)) name = dget (static c) name).
  { rewrite ia_static. unfold c1. rewrite ic_static_get; auto.
    apply mem_In in In1. rewrite In1. simpl. now rewrite andb_false_r. }
  split; [exact S1|]. intros attr s Hat. symmetry. apply eff_same; [now symmetry|].
  apply same_read_trans with (b := dval c1 attr name s).
  - apply ic_other; auto. unfold ic_targets. intros X. apply filter_In in X.
    destruct X as [_ X]. apply mem_In in In1. now rewrite In1 in X.
  - unfold dval at 2. rewrite ia_dyn_get by exact NDse.
    assert (G1 : good_comp (snaps n) m c1) by (apply ic_good; auto).
    destruct (dget se attr) as [df|] eqn:Ed; [|apply same_read_refl].
    destruct (load_series_shape _ _ _ _ _ _ _ _ _ OK L Ed) as [I1 [K1 L1]].
    apply imp_other; auto.
    + discriminate.
    + rewrite K1. exact NDn.
    + intros t0 E0. destruct G1 as [_ [_ [_ [_ [_ G1]]]]]. apply dget_In in E0. eauto.
    + destruct (dget kw attr) as [v|] eqn:Ek.
      * destruct (load_kwargs_get _ _ _ _ _ _ _ _ _ ND L Ek) as [l [Ll Hl]].
        destruct l as [vals|t]; [destruct Hl; congruence|].
        destruct Hat as [Hat|[t0 [Ht0 It0]]].
        { rewrite (load_kw_series_gives _ _ _ _ _ _ Ll) in Hat. discriminate. }
        right. split; auto. unfold c1. rewrite ic_dyn_get by assumption.
        destruct Hl as [Hst _].
        assert (M : mem attr (filter (is_series m) (dkeys st)) = false).
        { apply mem_false. intros X. apply filter_In in X. destruct X as [X _].
          apply dget_None_keys in Hst. contradiction. }
        rewrite M. exists t0. split; auto. now apply dmem_In.
      * destruct (load_kwargs_get_None _ _ _ _ _ _ _ _ L Ek). congruence.
Qed.

(* fresh components read exactly what was passed *)
Lemma load_kw_static_value single names sns sfx v vals i :
  i < List.length names -> load_kw single names sns sfx v = inl (LStatic vals) ->
  forall j, nth i vals VNaN = given single v i j.
Proof.
  intros Li. unfold load_kw, given. destruct v as [x|xs|idx xs|idx cols|nr cols|]; try discriminate.
  - intros E. injection E as <-. intros _.
    clear - Li. revert i Li. induction names; intros i Li; simpl in *; [lia|].
    destruct i; auto. apply IHnames. lia.
  - destruct single.
    + destruct (Nat.eqb _ _); discriminate.
    + destruct xs as [|x [|y r]].
      * destruct (Nat.eqb _ _); [|discriminate]. intros E. now injection E as <-.
      * intros E. injection E as <-. intros _. clear - Li. revert i Li.
        induction names; intros i Li; simpl in *; [lia|]. destruct i; auto. apply IHnames. lia.
      * destruct (Nat.eqb _ _); [|discriminate]. intros E. now injection E as <-.
  - destruct single.
    + destruct (list_eqb _ _); discriminate.
    + destruct (list_eqb _ _); [|discriminate].
      destruct xs as [|x [|y r]]; intros E; injection E as <-; auto.
      intros _. clear - Li. revert i Li.
      induction names; intros i Li; simpl in *; [lia|]. destruct i; auto. apply IHnames. lia.
  - destruct (negb _); try discriminate. destruct (negb _); try discriminate.
    destruct single; discriminate.
  - destruct (_ && _); try discriminate. destruct single; discriminate.
Qed.

Lemma nth_error_dget {V} (d : dict V) i k v :
  NoDup (dkeys d) -> nth_error d i = Some (k, v) -> dget d k = Some v.
Proof. intros ND H. apply In_dget; auto. eapply nth_error_In; eauto. Qed.

Lemma load_kw_series_value single names sns sfx v t i name :
  kw_ok v ->
  NoDup names -> nth_error names i = Some name ->
  load_kw single names sns sfx v = inl (LSeries t) ->
  exists col, dget (tcols t) name = Some col /\ forall j, nth j col VNaN = given single v i j.
Proof.
  intros OK ND Hi L.
  destruct (load_kw_good _ _ _ _ _ _ OK L) as [Ti [Tk Tl]].
  revert L. unfold load_kw, given.
  destruct v as [x|xs|idx xs|idx cols|nr cols|]; try discriminate.
  - destruct single.
    + destruct (Nat.eqb _ _); [|discriminate]. intros E. injection E as <-. simpl.
      exists xs. split; auto. rewrite (dget_map_names (fun _ => xs)).
      apply nth_error_In, mem_In in Hi. now rewrite Hi.
    + destruct xs as [|x [|y r]]; try discriminate; destruct (Nat.eqb _ _); discriminate.
  - destruct single.
    + destruct (list_eqb _ _); [|discriminate]. intros E. injection E as <-. simpl.
      exists xs. split; auto. rewrite (dget_map_names (fun _ => xs)).
      apply nth_error_In, mem_In in Hi. now rewrite Hi.
    + destruct (list_eqb _ _); [|discriminate]. destruct xs as [|x [|y r]]; discriminate.
  - destruct (negb (list_eqb idx sns)); try discriminate.
    destruct (negb _) eqn:L2; try discriminate.
    destruct single; try discriminate. intros E. injection E as <-. simpl in *.
    apply negb_false_iff, list_eqb_eq in L2.
    assert (Hc : nth_error (map (fun e => add_suffix sfx (fst e)) cols) i = Some name)
      by (now rewrite L2).
    destruct (nth_error cols i) as [e|] eqn:Ei.
    2:{ rewrite nth_error_map, Ei in Hc. discriminate. }
    rewrite nth_error_map, Ei in Hc. simpl in Hc. injection Hc as Hc.
    exists (snd e). split.
    + apply In_dget; [now rewrite Tk|]. apply in_map_iff. exists e. split.
      * now rewrite Hc.
      * eapply nth_error_In; eauto.
    + intros j. f_equal. symmetry. apply nth_error_nth. now rewrite nth_error_map, Ei.
  - destruct (_ && _) eqn:B; try discriminate. destruct single; try discriminate.
    intros E. injection E as <-. simpl in *.
    apply andb_true_iff in B. destruct B as [_ B]. apply Nat.eqb_eq in B.
    destruct (nth_error cols i) as [col|] eqn:Ei.
    2:{ exfalso. apply nth_error_None in Ei. assert (i < List.length names).
        { apply nth_error_Some. congruence. } lia. }
    exists col. split.
    + apply In_dget; [now rewrite Tk|].
      clear - Hi Ei. revert cols i Hi Ei. induction names as [|n r IH]; intros cols i Hi Ei.
      * destruct i; discriminate.
      * destruct cols as [|x cols]; [destruct i; discriminate|]. destruct i as [|i]; simpl in *.
        -- injection Hi as ->. injection Ei as ->. now left.
        -- right. eauto.
    + intros j. f_equal. symmetry. now apply nth_error_nth.
Qed.

Lemma add_fresh n cls single raw sfx ow kw n' m c c' i name j s attr :
  Inv metas n -> NoDup (map fst kw) -> (forall k v, In (k, v) kw -> kw_ok v) ->
  add metas n cls single raw sfx ow kw = (n', None) ->
  dget metas cls = Some m -> dget (comps n) cls = Some c -> dget (comps n') cls = Some c' ->
  nth_error (map (fun s => String.append s sfx) raw) i = Some name ->
  ~ In name (names_of c) ->
  nth_error (snaps n) j = Some s ->
  (* a frame of an unregistered attribute must not exist yet, see C05_custom_series_lost *)
  (forall v, dget kw attr = Some v -> gives_series single v = true -> varying m attr = false ->
     ow = true \/ dget (dyn c) attr = None) ->
  eff m c' name attr s = Some
    (match dget kw attr with
     | Some v => if gives_series single v then given single v i j
                 else if is_nan (given single v i j) && dmem m attr then default_of m attr
                 else given single v i j
     | None => default_of m attr
     end).
Proof.
  intros I ND OK E Hm Hc Hc' Hi Nin Hj Hcust.
  destruct (add_ok_inv _ _ _ _ _ _ _ _ E) as [m0 [c0 [st [se [Hm0 [Hc0 [NDn [L ->]]]]]]]].
  rewrite Hm in Hm0. injection Hm0 as <-. rewrite Hc in Hc0. injection Hc0 as <-.
  simpl in Hc'. rewrite dget_dset_eq in Hc'. injection Hc' as <-.
  set (names := map (fun s => String.append s sfx) raw) in *.
  destruct (load_kwargs_NoDup _ _ _ _ _ _ _ ND L) as [NDst NDse].
  pose proof (metas_ok cls m Hm) as NDm.
  pose proof I as [NDs [_ [_ [_ [_ F]]]]]. pose proof (F cls c m Hc Hm) as G.
  set (c1 := import_components m (snaps n) ow names st c).
  assert (G1 : good_comp (snaps n) m c1) by (apply ic_good; auto).
  assert (Hin : In name names) by (eapply nth_error_In; eauto).
  assert (Hs : In s (snaps n)) by (eapply nth_error_In; eauto).
  assert (S1 : dget (static (import_all m (snaps n) ow se c1)) name
               = Some (drop_series m (full_row m st i))).
  { rewrite ia_static. unfold c1. rewrite ic_static_get; auto.
    apply mem_false in Nin. rewrite Nin. apply mem_In in Hin. rewrite Hin. simpl.
    rewrite orb_true_r. rewrite (dget_df_rows m names st i name NDn Hi). reflexivity. }
  assert (Hold : forall t, dget (dyn c) attr = Some t -> tget t name s = None).
  { intros t Et. destruct (tget t name s) eqn:T; auto. exfalso. apply Nin.
    destruct G as [_ [_ [_ [_ [_ G]]]]]. apply dget_In in Et.
    apply (tget_good_None (snaps n) (names_of c) t name s); [eauto|congruence]. }
  assert (Hold' : dval c attr name s = None).
  { unfold dval. destruct (dget (dyn c) attr) eqn:X; auto. }
  rewrite eff_unfold, S1. unfold dval. rewrite ia_dyn_get by exact NDse.
  destruct (dget kw attr) as [v|] eqn:Ek.
  - destruct (load_kwargs_get _ _ _ _ _ _ _ _ _ ND L Ek) as [l [Ll Hl]].
    destruct l as [vals|t].
    + destruct Hl as [Hst Hse]. rewrite Hse.
      rewrite (load_kw_static_gives _ _ _ _ _ _ Ll).
      assert (Li : i < List.length names) by (apply nth_error_Some; congruence).
      pose proof (load_kw_static_value _ _ _ _ _ _ _ Li Ll j) as Hv.
      assert (Hcell : dget (full_row m st i) attr = Some (fill m attr (given single v i j))).
      { rewrite (dget_full_row_given m st i attr vals Hst). now rewrite Hv. }
      unfold c1. rewrite ic_dyn_get by assumption. fold c1.
      destruct (is_series m attr) eqn:Sr.
      * assert (M : mem attr (filter (is_series m) (dkeys st)) = true).
        { apply mem_In, filter_In. split; auto. now apply dget_Some_keys in Hst. }
        rewrite M. unfold ic_table. rewrite tget_set_const.
        assert (T : mem name (ic_targets ow names c) = true).
        { apply mem_In. unfold ic_targets. destruct ow; auto. apply filter_In. split; auto.
          apply mem_false in Nin. now rewrite Nin. }
        rewrite T. simpl.
        assert (Ix : tindex (match dget (dyn c) attr with Some t => t
                             | None => {| tindex := snaps n; tcols := [] |} end) = snaps n).
        { destruct (dget (dyn c) attr) eqn:X; auto. destruct G as [_ [_ [_ [_ [_ G]]]]].
          apply dget_In in X. now destruct (G _ _ X). }
        rewrite Ix. apply mem_In in Hs. rewrite Hs.
        unfold ic_cell. rewrite (dget_df_rows m names st i name NDn Hi), Hcell.
        unfold fill. destruct (is_nan (given single v i j)); simpl; auto.
      * assert (M : mem attr (filter (is_series m) (dkeys st)) = false).
        { apply mem_false. intros X. apply filter_In in X. destruct X. congruence. }
        rewrite M. unfold dval in Hold'. rewrite Hold'.
        rewrite dget_drop_series, Sr, Hcell.
        unfold fill. destruct (is_nan (given single v i j)); simpl; auto.
    + destruct Hl as [Hst Hse]. rewrite Hse.
      rewrite (load_kw_series_gives _ _ _ _ _ _ Ll).
      assert (Okv : kw_ok v) by (apply dget_In in Ek; eauto).
      destruct (load_kw_series_value _ _ _ _ _ _ _ _ Okv NDn Hi Ll) as [col [Hcol Hval]].
      destruct (load_series_shape _ _ _ _ _ _ _ _ _ OK L Hse) as [I1 [K1 L1]].
      assert (D1 : dget (dyn c1) attr = dget (dyn c) attr).
      { unfold c1. rewrite ic_dyn_get by assumption.
        assert (M : mem attr (filter (is_series m) (dkeys st)) = false).
        { apply mem_false. intros X. apply filter_In in X. destruct X as [X _].
          apply dget_None_keys in Hst. contradiction. }
        now rewrite M. }
      rewrite D1.
      assert (Nold : match dget (dyn c) attr with
                     | Some t0 => ~ In name (dkeys (tcols t0)) | None => True end).
      { destruct (dget (dyn c) attr) eqn:X; auto. intros Y. apply Nin.
        apply dget_keys_Some in Y. destruct Y as [cl Y].
        destruct G as [_ [_ [_ [_ [_ G]]]]]. apply dget_In in X.
        now apply (good_table_get (snaps n) (names_of c) t0 name cl (G _ _ X)). }
      set (df1 := if ow then t else match dget (dyn c) attr with
                    Some t0 => drop_cols (dkeys (tcols t0)) t | None => t end).
      assert (Hc1 : dget (tcols df1) name = Some col).
      { unfold df1. destruct ow; auto. destruct (dget (dyn c) attr); auto.
        unfold drop_cols; simpl. rewrite (dget_filter_key (fun x => negb (mem x (dkeys (tcols t0))))).
        apply mem_false in Nold. now rewrite Nold. }
      assert (I1' : tindex df1 = snaps n).
      { unfold df1. destruct ow; auto. destruct (dget (dyn c) attr); auto. }
      assert (T1 : tget df1 name s = Some (given single v i j)).
      { unfold tget. rewrite Hc1, I1'. rewrite <- Hval. apply colget_nth; auto.
        apply (L1 (name, col)). now apply dget_In in Hcol. }
      assert (ND1 : NoDup (dkeys (tcols df1))).
      { assert (NDt : NoDup (dkeys (tcols t))) by now rewrite K1.
        unfold df1. destruct ow; auto. destruct (dget (dyn c) attr); auto.
        unfold drop_cols; simpl. now apply NoDup_map_filter. }
      unfold imp_table. fold df1. destruct (varying m attr) eqn:V; simpl.
      * rewrite I1', forallb_mem_refl, tget_set_cols by exact ND1.
        assert (Dm : dmem (tcols df1) name = true) by (apply dmem_true; eauto).
        rewrite Dm, T1.
        assert (Ix : tindex (match dget (dyn c) attr with Some t => t
                             | None => {| tindex := snaps n; tcols := [] |} end) = snaps n).
        { destruct (dget (dyn c) attr) eqn:X; auto. destruct G as [_ [_ [_ [_ [_ G]]]]].
          apply dget_In in X. now destruct (G _ _ X). }
        destruct (is_series m attr); simpl; rewrite Ix; apply mem_In in Hs; now rewrite Hs.
      * specialize (Hcust v eq_refl (load_kw_series_gives _ _ _ _ _ _ Ll) eq_refl).
        destruct Hcust as [->|Hn].
        -- simpl. now rewrite T1.
        -- rewrite Hn in *. simpl. rewrite orb_true_r. now rewrite T1.
  - destruct (load_kwargs_get_None _ _ _ _ _ _ _ _ L Ek) as [Hst Hse]. rewrite Hse.
    unfold c1. rewrite ic_dyn_get by assumption.
    assert (M : mem attr (filter (is_series m) (dkeys st)) = false).
    { apply mem_false. intros X. apply filter_In in X. destruct X as [X _].
      apply dget_None_keys in Hst. contradiction. }
    rewrite M. unfold dval in Hold'. rewrite Hold'.
    destruct (is_series m attr) eqn:Sr; auto.
    rewrite dget_drop_series, Sr, (dget_full_row_missing m st i attr NDm Hst).
    unfold default_of. unfold is_series in Sr. destruct (dget m attr) as [am|]; auto.
    apply negb_false_iff in Sr. now rewrite Sr.
Qed.

(* a component that exists already but has no column of the attribute yet receives the
   passed series even without overwrite *)
Lemma add_existing_series n cls single raw sfx kw n' m c c' i name j s attr v :
  Inv metas n -> NoDup (map fst kw) -> (forall k v, In (k, v) kw -> kw_ok v) ->
  add metas n cls single raw sfx false kw = (n', None) ->
  dget metas cls = Some m -> dget (comps n) cls = Some c -> dget (comps n') cls = Some c' ->
  nth_error (map (fun s => String.append s sfx) raw) i = Some name ->
  In name (names_of c) ->
  nth_error (snaps n) j = Some s ->
  dget kw attr = Some v -> gives_series single v = true ->
  (forall t, dget (dyn c) attr = Some t -> ~ In name (dkeys (tcols t))) ->
  eff m c' name attr s =
    if varying m attr || match dget (dyn c) attr with None => true | Some _ => false end
    then Some (given single v i j) else eff m c name attr s.
Proof.
  intros I ND OK E Hm Hc Hc' Hi Inn Hj Ek Gs Nold0.
  destruct (add_existing n cls single raw sfx kw n' m c c' name I ND OK E Hm Hc Hc' Inn) as [S0 _].
  destruct (add_ok_inv _ _ _ _ _ _ _ _ E) as [m0 [c0 [st [se [Hm0 [Hc0 [NDn [L ->]]]]]]]].
  rewrite Hm in Hm0. injection Hm0 as <-. rewrite Hc in Hc0. injection Hc0 as <-.
  simpl in Hc'. rewrite dget_dset_eq in Hc'. injection Hc' as <-.
  set (names := map (fun s => String.append s sfx) raw) in *.
  destruct (load_kwargs_NoDup _ _ _ _ _ _ _ ND L) as [NDst NDse].
  pose proof (metas_ok cls m Hm) as NDm.
  pose proof I as [NDs [_ [_ [_ [_ F]]]]]. pose proof (F cls c m Hc Hm) as G.
  set (c1 := import_components m (snaps n) false names st c) in *.
  assert (Hs : In s (snaps n)) by (eapply nth_error_In; eauto).
  destruct (load_kwargs_get _ _ _ _ _ _ _ _ _ ND L Ek) as [l [Ll Hl]].
  destruct l as [vals|t].
  { rewrite (load_kw_static_gives _ _ _ _ _ _ Ll) in Gs. discriminate. }
  destruct Hl as [Hst Hse].
  assert (Okv : kw_ok v) by (apply dget_In in Ek; eauto).
  destruct (load_kw_series_value _ _ _ _ _ _ _ _ Okv NDn Hi Ll) as [col [Hcol Hval]].
  destruct (load_series_shape _ _ _ _ _ _ _ _ _ OK L Hse) as [I1 [K1 L1]].
  assert (D1 : dget (dyn c1) attr = dget (dyn c) attr).
  { unfold c1. rewrite ic_dyn_get by assumption.
    assert (M : mem attr (filter (is_series m) (dkeys st)) = false).
    { apply mem_false. intros X. apply filter_In in X. destruct X as [X _].
      apply dget_None_keys in Hst. contradiction. }
    now rewrite M. }
  assert (Row : exists row, dget (static c) name = Some row).
  { apply dget_keys_Some. exact Inn. }
  destruct Row as [row Row].
  set (df1 := match dget (dyn c) attr with
              Some t0 => drop_cols (dkeys (tcols t0)) t | None => t end).
  assert (Hc1 : dget (tcols df1) name = Some col).
  { unfold df1. destruct (dget (dyn c) attr) eqn:X; auto.
    unfold drop_cols; simpl. rewrite (dget_filter_key (fun x => negb (mem x (dkeys (tcols t0))))).
    pose proof (Nold0 _ eq_refl) as Nold. apply mem_false in Nold. now rewrite Nold. }
  assert (I1' : tindex df1 = snaps n).
  { unfold df1. destruct (dget (dyn c) attr); auto. }
  assert (T1 : tget df1 name s = Some (given single v i j)).
  { unfold tget. rewrite Hc1, I1'. rewrite <- Hval. apply colget_nth; auto.
    apply (L1 (name, col)). now apply dget_In in Hcol. }
  assert (ND1 : NoDup (dkeys (tcols df1))).
  { assert (NDt : NoDup (dkeys (tcols t))) by now rewrite K1.
    unfold df1. destruct (dget (dyn c) attr); auto.
    unfold drop_cols; simpl. now apply NoDup_map_filter. }
  rewrite !eff_unfold, S0, Row. unfold dval. rewrite ia_dyn_get by exact NDse.
  rewrite Hse, D1. unfold imp_table. fold df1.
  destruct (varying m attr) eqn:V; simpl.
  - rewrite I1', forallb_mem_refl, tget_set_cols by exact ND1.
    assert (Dm : dmem (tcols df1) name = true) by (apply dmem_true; eauto).
    rewrite Dm, T1.
    assert (Ix : tindex (match dget (dyn c) attr with Some t => t
                         | None => {| tindex := snaps n; tcols := [] |} end) = snaps n).
    { destruct (dget (dyn c) attr) eqn:X; auto. destruct G as [_ [_ [_ [_ [_ G]]]]].
      apply dget_In in X. now destruct (G _ _ X). }
    destruct (is_series m attr); simpl; rewrite Ix; apply mem_In in Hs; now rewrite Hs.
  - destruct (dget (dyn c) attr) eqn:X; simpl; [reflexivity|]. now rewrite T1.
Qed.

Lemma add_existing_full n cls single raw sfx kw n' m c c' i name :
  Inv metas n -> NoDup (map fst kw) -> (forall k v, In (k, v) kw -> kw_ok v) ->
  add metas n cls single raw sfx false kw = (n', None) ->
  dget metas cls = Some m -> dget (comps n) cls = Some c -> dget (comps n') cls = Some c' ->
  nth_error (map (fun s => String.append s sfx) raw) i = Some name ->
  In name (names_of c) ->
  dget (static c') name = dget (static c) name /\
  forall attr j s, nth_error (snaps n) j = Some s ->
    eff m c' name attr s =
    match dget kw attr with
    | None => eff m c name attr s
    | Some v =>
        if gives_series single v then
          match dget (dyn c) attr with
          | None => Some (given single v i j)
          | Some t => if dmem (tcols t) name then eff m c name attr s
                      else if varying m attr then Some (given single v i j)
                      else eff m c name attr s
          end
        else eff m c name attr s
    end.
Proof.
  intros I ND OK E Hm Hc Hc' Hi Inn.
  destruct (add_existing n cls single raw sfx kw n' m c c' name I ND OK E Hm Hc Hc' Inn) as [S0 E0].
  split; [exact S0|]. intros attr j s Hj.
  destruct (dget kw attr) as [v|] eqn:Ek.
  2:{ apply E0. now rewrite Ek. }
  destruct (gives_series single v) eqn:Gs.
  2:{ apply E0. rewrite Ek. now left. }
  assert (X := add_existing_series n cls single raw sfx kw n' m c c' i name j s attr v
                 I ND OK E Hm Hc Hc' Hi Inn Hj Ek Gs).
  destruct (dget (dyn c) attr) as [t|] eqn:Ed.
  - destruct (dmem (tcols t) name) eqn:D.
    + apply E0. rewrite Ek. right. exists t. split; auto. now apply dmem_In.
    + rewrite X.
      * rewrite orb_false_r. reflexivity.
      * intros t0 H. injection H as <-. intros Y. apply dmem_In in Y. congruence.
  - rewrite X; [|discriminate]. now rewrite orb_true_r.
Qed.

(* add of fresh names, then remove of the same names *)
Lemma filter_all {A} (p : A -> bool) l : (forall x, In x l -> p x = true) -> filter p l = l.
Proof.
  induction l as [|x r IH]; simpl; auto. intros H. rewrite (H x) by auto. f_equal. auto.
Qed.
Lemma filter_none {A} (p : A -> bool) l : (forall x, In x l -> p x = false) -> filter p l = [].
Proof. induction l as [|x r IH]; simpl; auto. intros H. rewrite (H x) by auto. auto. Qed.

Lemma add_remove n cls single raw sfx ow kw n' m c :
  Inv metas n -> NoDup (map fst kw) -> (forall k v, In (k, v) kw -> kw_ok v) ->
  add metas n cls single raw sfx ow kw = (n', None) ->
  dget metas cls = Some m -> dget (comps n) cls = Some c ->
  (ow = true -> custom_free m single kw) ->
  (forall x, In x (map (fun s => String.append s sfx) raw) -> ~ In x (names_of c)) ->
  exists n'' c'',
    remove metas n' cls raw sfx = (n'', None) /\ dget (comps n'') cls = Some c'' /\
    static c'' = static c /\ snaps n'' = snaps n /\ weights n'' = weights n /\
    (forall cls', cls' <> cls -> dget (comps n'') cls' = dget (comps n) cls') /\
    (forall name attr s, eff m c'' name attr s = eff m c name attr s).
Proof.
  intros I ND OK E Hm Hc Cust Fresh.
  destruct (add_ok_inv _ _ _ _ _ _ _ _ E) as [m0 [c0 [st [se [Hm0 [Hc0 [NDn [L En]]]]]]]].
  rewrite Hm in Hm0. injection Hm0 as <-. rewrite Hc in Hc0. injection Hc0 as <-.
  set (names := map (fun s => String.append s sfx) raw) in *.
  destruct (load_kwargs_NoDup _ _ _ _ _ _ _ ND L) as [NDst NDse].
  pose proof (metas_ok cls m Hm) as NDm.
  pose proof I as [_ [_ [_ [_ [_ F]]]]]. pose proof (F cls c m Hc Hm) as G.
  set (c1 := import_components m (snaps n) ow names st c) in *.
  set (c2 := import_all m (snaps n) ow se c1) in *.
  assert (N2 : names_of c2 = names_of c1) by apply ia_names.
  assert (Hc2 : dget (comps n') cls = Some c2) by (subst n'; simpl; apply dget_dset_eq).
  assert (Hr : forallb (fun x => mem x (names_of c2)) names = true).
  { apply forallb_forall. intros x Ix. apply mem_In. rewrite N2. apply ic_names; auto. }
  exists {| snaps := snaps n; weights := weights n;
            comps := dset (dset (comps n) cls c2) cls (remove_comp names c2) |}, (remove_comp names c2).
  assert (Hst : static (remove_comp names c2) = static c).
  { unfold remove_comp; simpl. unfold c2. rewrite ia_static. unfold c1, import_components; simpl.
    rewrite filter_app.
    match goal with |- filter ?p ?a ++ filter ?q ?b = _ => set (A := a); set (B := b) end.
    assert (EA : A = static c).
    { unfold A. destruct ow; auto. apply filter_all. intros [x row] Ix. simpl.
      apply negb_true_iff, mem_false. intros Y. apply (Fresh x Y).
      unfold names_of. now apply (in_map fst) in Ix. }
    assert (EB : filter (fun e => negb (mem (fst e) names)) B = []).
    { apply filter_none. intros [x row] Ix. simpl. apply negb_false_iff, mem_In.
      assert (In x (dkeys (df_rows m names st))).
      { unfold B in Ix. destruct ow.
        - apply in_map_iff in Ix. destruct Ix as [[y r] [Ey Iy]]. injection Ey as <- <-.
          now apply (in_map fst) in Iy.
        - apply filter_In in Ix. destruct Ix as [Ix _].
          apply in_map_iff in Ix. destruct Ix as [[y r] [Ey Iy]]. injection Ey as <- <-.
          now apply (in_map fst) in Iy. }
      now rewrite dkeys_df_rows in H. }
    rewrite EB, app_nil_r, EA. apply filter_all. intros [x row] Ix. simpl.
    apply negb_true_iff, mem_false. intros Y. apply (Fresh x Y).
    unfold names_of. now apply (in_map fst) in Ix. }
  split.
  { unfold remove. rewrite Hm, Hc2. fold names. rewrite Hr. subst n'. reflexivity. }
  split; [simpl; apply dget_dset_eq|]. split; [exact Hst|]. split; [reflexivity|].
  split; [reflexivity|]. split.
  { intros cls' N. simpl. now rewrite !dget_dset_neq by congruence. }
  intros name attr s.
  destruct (in_dec string_dec name (names_of c)) as [In1|Nin1].
  - assert (Nn : ~ In name names) by (intros Y; now apply (Fresh name Y)).
    destruct (add_other n cls single raw sfx ow kw n' m c c2 name attr s I ND OK E Hm Hc Hc2 Cust In1 Nn)
      as [Hs He].
    rewrite <- He. apply eff_same.
    + rewrite Hst. now rewrite Hs.
    + left. unfold dval, remove_comp; simpl.
      rewrite (dget_map_val (fun _ t => drop_cols names t)).
      destruct (dget (dyn c2) attr); simpl; auto. rewrite tget_drop_cols.
      apply mem_false in Nn. now rewrite Nn.
  - unfold eff. rewrite Hst. apply dget_None_keys in Nin1. now rewrite Nin1.
Qed.

(* ---------- C06 ---------- *)
Lemma set_snapshots_ok_inv n sns dw n' :
  set_snapshots metas n sns dw = (n', None) ->
  n' = {| snaps := sns; weights := reindex_rows sns dw (weights n);
          comps := map (fun e => (fst e, set_snapshots_comp (meta_of metas (fst e)) sns (snd e)))
                       (comps n) |}.
Proof. unfold set_snapshots. destruct sns; [congruence|]. intros E. now injection E as <-. Qed.

Lemma set_snapshots_table_get m sns a t name s :
  tget (set_snapshots_table m sns a t) name s =
  if dmem (tcols t) name && mem s sns
  then Some (match tget t name s with Some v => v
             | None => if varying m a then default_of m a else VNaN end)
  else None.
Proof.
  unfold set_snapshots_table. destruct (tcols t) as [|e r] eqn:T.
  - reflexivity.
  - rewrite <- T. destruct (varying m a); apply tget_reindex_rows.
Qed.

Lemma set_snapshots_eff n sns dw n' cls m c c' :
  Inv metas n -> set_snapshots metas n sns dw = (n', None) ->
  dget metas cls = Some m -> dget (comps n) cls = Some c -> dget (comps n') cls = Some c' ->
  snaps n' = sns /\ static c' = static c /\
  (forall name attr s, In s sns -> In s (snaps n) ->
     eff m c' name attr s = eff m c name attr s) /\
  (forall name attr s t, In s sns -> ~ In s (snaps n) -> In name (names_of c) ->
     dget (dyn c) attr = Some t -> In name (dkeys (tcols t)) ->
     eff m c' name attr s = Some (if varying m attr then default_of m attr else VNaN)) /\
  (forall w s, In w (dkeys (tcols (weights n))) -> In s sns ->
     tget (weights n') w s = Some (match tget (weights n) w s with Some v => v | None => dw end)).
Proof.
  intros I E Hm Hc Hc'. apply set_snapshots_ok_inv in E. subst n'. simpl in *.
  rewrite (dget_map_val (fun cls c => set_snapshots_comp (meta_of metas cls) sns c)), Hc in Hc'.
  simpl in Hc'. injection Hc' as <-.
  assert (Hmo : meta_of metas cls = m) by (unfold meta_of; now rewrite Hm). rewrite Hmo.
  pose proof I as [_ [_ [_ [_ [_ F]]]]]. pose proof (F cls c m Hc Hm) as G.
  split; [reflexivity|]. split; [reflexivity|].
  assert (DG : forall attr, dget (dyn (set_snapshots_comp m sns c)) attr
                = option_map (set_snapshots_table m sns attr) (dget (dyn c) attr)).
  { intros attr. unfold set_snapshots_comp; simpl.
    apply (dget_map_val (fun a t => set_snapshots_table m sns a t)). }
  split; [|split].
  - intros name attr s I1 I2. apply eff_same; [reflexivity|]. left. unfold dval. rewrite DG.
    destruct (dget (dyn c) attr) as [t|] eqn:T; simpl; auto.
    rewrite set_snapshots_table_get. apply mem_In in I1. rewrite I1, andb_true_r.
    destruct (dmem (tcols t) name) eqn:D.
    + assert (Gt : good_table (snaps n) (names_of c) t).
      { destruct G as [_ [_ [_ [_ [_ G]]]]]. apply dget_In in T. eauto. }
      destruct (tget_good_Some _ _ _ _ _ Gt D I2) as [v ->]. reflexivity.
    + now rewrite tget_dmem_false.
  - intros name attr s t I1 N2 In1 T D. rewrite eff_unfold.
    apply dget_keys_Some in In1. destruct In1 as [row In1].
    change (static (set_snapshots_comp m sns c)) with (static c). rewrite In1.
    unfold dval. rewrite DG, T. simpl. rewrite set_snapshots_table_get.
    apply mem_In in I1. apply dmem_In in D. rewrite I1, D. simpl.
    assert (Gt : good_table (snaps n) (names_of c) t).
    { destruct G as [_ [_ [_ [_ [_ G]]]]]. apply dget_In in T. eauto. }
    destruct (tget t name s) eqn:X; auto. exfalso. apply N2.
    apply (tget_good_None (snaps n) (names_of c) t name s Gt). congruence.
  - intros w s Iw Is. rewrite tget_reindex_rows. apply dmem_In in Iw. apply mem_In in Is.
    now rewrite Iw, Is.
Qed.

(* ---------- C07 ---------- *)
Lemma dense_spec n cls m c attr sel inds r :
  Inv metas n -> dget metas cls = Some m -> dget (comps n) cls = Some c ->
  is_series m attr = false ->
  dense n c attr sel inds = Some r ->
  let sns := match sel with Some s => s | None => snaps n end in
  dkeys r = (match inds with None => names_of c
             | Some l => filter (fun x => mem x l) (names_of c) end) /\
  (forall name vals j s, dget r name = Some vals -> nth_error sns j = Some s ->
     eff m c name attr s = nth_error vals j) /\
  (forall name vals, dget r name = Some vals -> List.length vals = List.length sns) /\
  (forall s, In s sns -> In s (snaps n)).
Proof.
  intros I Hm Hc Sr. unfold dense.
  set (sns := match sel with Some s => s | None => snaps n end).
  destruct (forallb _ sns) eqn:Fs; simpl; [|discriminate].
  destruct (has_static_attr c attr) eqn:Hs; simpl; [|discriminate].
  intros E. injection E as <-.
  match goal with |- context [map (fun x => (x, ?f x)) _] => idtac | _ => idtac end.
  set (index := match inds with None => names_of c
                | Some l => filter (fun x => mem x l) (names_of c) end).
  set (dynamic := match dget (dyn c) attr with Some t => t
                  | None => {| tindex := snaps n; tcols := [] |} end).
  set (f := fun x => map (fun s => match tget dynamic x s with Some v => v
                 | None => match sget c x attr with Some v => v | None => VNaN end end) sns).
  change (map (fun x => (x, _)) index) with (map (fun x => (x, f x)) index).
  split; [apply dkeys_map_names|].
  assert (GI : forall name vals, dget (map (fun x => (x, f x)) index) name = Some vals ->
            vals = f name /\ In name (names_of c)).
  { intros name vals H. rewrite dget_map_names in H. destruct (mem name index) eqn:M; [|discriminate].
    injection H as <-. split; auto. apply mem_In in M. unfold index in M. destruct inds; auto.
    apply filter_In in M. tauto. }
  split; [|split].
  - intros name vals j s H Hj. destruct (GI _ _ H) as [-> In1].
    unfold f. rewrite nth_error_map, Hj. simpl.
    apply dget_keys_Some in In1. destruct In1 as [row In1].
    unfold eff, sget. rewrite In1, Sr.
    fold (old_table (snaps n) (dget (dyn c) attr)) in dynamic. unfold dynamic.
    rewrite old_table_tget. destruct (dget (dyn c) attr) as [t|]; auto.
    destruct (tget t name s); auto.
  - intros name vals H. destruct (GI _ _ H) as [-> _]. apply map_length.
  - intros s Is. rewrite forallb_forall in Fs. specialize (Fs s Is). now apply mem_In in Fs.
Qed.

Lemma dense_total n cls m c attr sel inds am :
  Inv metas n -> dget metas cls = Some m -> dget (comps n) cls = Some c ->
  dget m attr = Some am -> akind am <> KSeries ->
  (forall s, In s (match sel with Some l => l | None => snaps n end) -> In s (snaps n)) ->
  exists r, dense n c attr sel inds = Some r.
Proof.
  intros I Hm Hc Ha K Sub. unfold dense.
  assert (F1 : forallb (fun s => mem s (snaps n))
            (match sel with Some s => s | None => snaps n end) = true).
  { apply forallb_forall. intros s Is. now apply mem_In, Sub. }
  rewrite F1. simpl.
  assert (F2 : has_static_attr c attr = true).
  { apply forallb_forall. intros [name row] Ir. simpl. apply dmem_In.
    pose proof I as [_ [_ [_ [_ [_ F]]]]]. destruct (F cls c m Hc Hm) as [_ [_ [C _]]].
    eapply C; eauto. }
  rewrite F2. simpl. eauto.
Qed.

End NetProofs.
