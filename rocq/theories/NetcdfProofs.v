From Coq Require Import List String Bool ZArith Ascii Permutation Lia.
From Verif Require Import Assoc TablesModel TablesSpec TablesProofs TransferModel TransferProofs
  FileModel FileSpec FileProofs FileRead FileRound NetcdfModel NetcdfSpec.
Import ListNotations.
Open Scope string_scope.
Open Scope list_scope.

(* ---------- picking variables by name ---------- *)
Lemma pick_other attr_of vars k v : attr_of k = None -> pick attr_of (dset vars k v) = pick attr_of vars.
Proof.
  intros N. unfold pick. induction vars as [|[k' v'] r IH]; cbn [dset flat_map fst snd].
  - now rewrite N.
  - destruct (String.eqb_spec k' k) as [->|Ne]; cbn [flat_map fst snd].
    + now rewrite N.
    + now rewrite IH.
Qed.

Lemma pick_own attr_of vars k v a :
  (forall x y b, attr_of x = Some b -> attr_of y = Some b -> x = y) -> attr_of k = Some a ->
  pick attr_of (dset vars k v) = dset (pick attr_of vars) a v.
Proof.
  intros Inj A. unfold pick. induction vars as [|[k' v'] r IH]; cbn [dset flat_map fst snd].
  - now rewrite A.
  - destruct (String.eqb_spec k' k) as [->|Ne]; cbn [flat_map fst snd].
    + rewrite A. cbn [app dset]. now rewrite String.eqb_refl.
    + rewrite IH. destruct (attr_of k') as [b|] eqn:B; [|reflexivity]. cbn [app dset].
      destruct (String.eqb_spec b a) as [->|Nb]; [|reflexivity].
      exfalso. apply Ne. eapply Inj; eauto.
Qed.

Lemma fold_fresh {V} (g : string -> V) (ks : list string) (d : dict V) :
  NoDup ks -> (forall a, In a ks -> ~ In a (dkeys d)) ->
  fold_left (fun d a => dset d a (g a)) ks d = d ++ map (fun a => (a, g a)) ks.
Proof.
  revert d. induction ks as [|a ks IH]; intros d ND F; cbn [fold_left map].
  - now rewrite app_nil_r.
  - inversion ND as [|? ? NI ND']; subst. rewrite IH; auto.
    + assert (E : dset d a (g a) = d ++ [(a, g a)]).
      { assert (N := F a (or_introl eq_refl)). clear -N. induction d as [|[k v] d IH]; [reflexivity|].
        cbn [dset]. destruct (String.eqb_spec k a) as [->|Ne].
        - exfalso. apply N. now left.
        - cbn. rewrite IH; [reflexivity|]. intros X. apply N. now right. }
      rewrite E, <- app_assoc. reflexivity.
    + intros b Ib. unfold dkeys. intros X. assert (Y : In b (dkeys d) \/ a = b).
      { destruct (string_dec a b) as [->|Ne]; [now right|left].
        destruct (dget (dset d a (g a)) b) as [v|] eqn:D.
        - rewrite dget_dset_neq in D by exact Ne. eapply dget_Some_keys; eauto.
        - apply dget_None_keys in D. contradiction. }
      destruct Y as [Y|Y]; [exact (F b (or_intror Ib) Y)|]. subst. contradiction.
Qed.

(* ---------- names ---------- *)
Lemma static_attr_spec l key a :
  nc_static_attr l key = Some a <-> key = nc_static l a /\ drop_prefix "t_" a = None.
Proof.
  unfold nc_static_attr, nc_static.
  destruct (drop_prefix (String.append l "_") key) as [b|] eqn:D.
  - apply drop_prefix_spec in D. rewrite <- append_assoc in D. subst key.
    destruct (drop_prefix "t_" b) eqn:B.
    + split; [discriminate|]. intros [E N]. apply append_inj_l in E. apply append_inj_l in E. congruence.
    + split.
      * intros H. injection H as <-. auto.
      * intros [E N]. apply append_inj_l in E. apply append_inj_l in E. now subst.
  - split; [discriminate|]. intros [-> _]. exfalso.
    assert (X : drop_prefix (String.append l "_") (String.append l (String.append "_" a)) = Some a).
    { apply drop_prefix_spec. apply append_assoc. }
    congruence.
Qed.

Lemma nc_series_attr_spec l key a : nc_series_attr l key = Some a <-> key = nc_series l a.
Proof. unfold nc_series_attr, nc_series. rewrite drop_prefix_spec. now rewrite append_assoc. Qed.

Lemma series_is_static l a : nc_series l a = nc_static l (String.append "t_" a).
Proof. reflexivity. Qed.

Lemma static_inj_attr l x y b :
  nc_static_attr l x = Some b -> nc_static_attr l y = Some b -> x = y.
Proof. rewrite !static_attr_spec. intros [-> _] [-> _]. reflexivity. Qed.

Lemma series_inj_attr l x y b :
  nc_series_attr l x = Some b -> nc_series_attr l y = Some b -> x = y.
Proof. rewrite !nc_series_attr_spec. congruence. Qed.

(* one of two strings with a common extension starts the other *)
Lemma common_prefix a b x y : String.append a x = String.append b y ->
  (exists r, a = String.append b r) \/ (exists r, b = String.append a r).
Proof.
  revert b. induction a as [|c a IH]; intros [|d b] E.
  - left. now exists "".
  - right. now exists (String d b).
  - left. now exists (String c a).
  - cbn in E. injection E as -> E. destruct (IH b E) as [[r ->]|[r ->]]; [left|right]; now exists r.
Qed.

Definition apart (l l' : string) : Prop :=
  (forall r, String.append l "_" <> String.append l' (String.append "_" r)) /\
  (forall r, String.append l' "_" <> String.append l (String.append "_" r)).

Lemma apart_static l l' a b : apart l l' -> nc_static l a <> nc_static l' b.
Proof.
  intros [A B] E. unfold nc_static in E. rewrite !append_assoc in E.
  apply common_prefix in E. destruct E as [[r E]|[r E]]; rewrite <- append_assoc in E.
  - now apply A in E.
  - now apply B in E.
Qed.

Lemma apart_static_attr l l' a : apart l l' -> nc_static_attr l (nc_static l' a) = None.
Proof.
  intros A. destruct (nc_static_attr l (nc_static l' a)) as [b|] eqn:D; auto.
  apply static_attr_spec in D. destruct D as [D _]. symmetry in D.
  exfalso. revert D. now apply apart_static.
Qed.

Lemma apart_series_attr l l' a : apart l l' -> nc_series_attr l (nc_static l' a) = None.
Proof.
  intros A. destruct (nc_series_attr l (nc_static l' a)) as [b|] eqn:D; auto.
  apply nc_series_attr_spec in D. rewrite series_is_static in D. symmetry in D.
  exfalso. revert D. now apply apart_static.
Qed.

Lemma index_inj l l' : nc_index l = nc_index l' -> l = l'.
Proof. apply append_inj_r. Qed.

(* ---------- what a class leaves of another one ---------- *)
Lemma fold_same {A B} (g : B -> A -> B) (p : B -> Prop) l b :
  p b -> (forall x y, In y l -> p x -> p (g x y)) -> p (fold_left g l b).
Proof.
  revert b. induction l as [|y l IH]; intros b P H; cbn [fold_left]; auto.
  apply IH; [apply H; auto; now left|]. intros x z Iz. apply H. now right.
Qed.

Definition view (l : string) (s : nc) :=
  (dget (n_coords s) (nc_index l), pick (nc_static_attr l) (n_vars s), pick (nc_series_attr l) (n_vars s)).

Lemma class_elsewhere l k c s : apart l (k_list k) -> view l (nc_class k c s) = view l s.
Proof.
  intros A. unfold nc_class. destruct (static c) as [|e0 rest] eqn:Z; [reflexivity|].
  rewrite <- Z. fold (kept_rows (k_meta k) c).
  unfold view. cbn [n_coords n_vars]. set (rows := kept_rows (k_meta k) c).
  assert (Q : forall vars attr_of, (forall a, attr_of (nc_static (k_list k) a) = None) ->
     pick attr_of (fold_left (save_frame (k_list k) (k_meta k)) (dyn c)
        (save_columns (k_list k) rows vars)) = pick attr_of vars).
  { intros vars attr_of N. transitivity (pick attr_of (save_columns (k_list k) rows vars)).
    - apply (fold_same _ (fun v => pick attr_of v = pick attr_of (save_columns (k_list k) rows vars)));
        [reflexivity|]. intros x [a t] _ <-. unfold save_frame. cbn [fst snd].
      destruct (filter _ _); [reflexivity|]. apply pick_other. rewrite series_is_static. apply N.
    - unfold save_columns. apply (fold_same _ (fun v => pick attr_of v = pick attr_of vars)); [reflexivity|].
      intros x a _ <-. apply pick_other, N. }
  rewrite !Q.
  - f_equal. f_equal. apply dget_dset_neq. intros E. apply index_inj in E.
    destruct A as [A _]. apply (A ""). rewrite E. reflexivity.
  - intros a. now apply apart_series_attr.
  - intros a. now apply apart_static_attr.
Qed.

(* ---------- what it leaves of itself ---------- *)
Definition frames_of (m : meta) (d : dict table) (v : dict var) : dict var :=
  fold_left (fun v e =>
    match filter (fun g => keep_series m (fst e) (snd g)) (tcols (snd e)) with
    | [] => v
    | cols => dset v (fst e) (V2 (List.length (tindex (snd e))) cols)
    end) d v.

Lemma fold_commute {A B C} (h : B -> C) (g : B -> A -> B) (g' : C -> A -> C) l b :
  (forall x y, In y l -> h (g x y) = g' (h x) y) -> h (fold_left g l b) = fold_left g' l (h b).
Proof.
  revert b. induction l as [|y l IH]; intros b H; cbn [fold_left]; auto.
  rewrite IH; [now rewrite H by now left|]. intros x z Iz. apply H. now right.
Qed.

Definition column (rows : dict (dict val)) (a : string) : var :=
  V1 (map (fun e => (fst e, cell (snd e) a)) rows).

Lemma class_itself k c s :
  (forall name row a, In (name, row) (static c) -> In a (dkeys row) -> drop_prefix "t_" a = None) ->
  static c <> [] -> view (k_list k) s = (None, [], []) ->
  let rows := kept_rows (k_meta k) c in
  view (k_list k) (nc_class k c s) =
  (Some (dkeys rows), map (fun a => (a, column rows a)) (columns rows), frames_of (k_meta k) (dyn c) []).
Proof.
  intros St Ne V rows. unfold view in V. injection V as V1' V2' V3'.
  unfold nc_class. destruct (static c) as [|e0 rest] eqn:Z; [congruence|]. rewrite <- Z in *.
  fold (kept_rows (k_meta k) c). fold rows. unfold view. cbn [n_coords n_vars].
  set (l := k_list k) in *.
  assert (Cl : forall a, In a (columns rows) -> drop_prefix "t_" a = None).
  { intros a Ia. unfold columns in Ia. apply nodup_In in Ia. apply in_flat_map in Ia.
    destruct Ia as ([name row'] & Ir & Ia). unfold rows, kept_rows in Ir. apply in_map_iff in Ir.
    destruct Ir as ([name0 row] & E & Ir). cbn [fst snd] in E. injection E as <- <-.
    cbn [snd] in Ia. apply (St name0 row a Ir). unfold dkeys in *. apply in_map_iff in Ia.
    destruct Ia as (g & <- & Ig). apply filter_In in Ig. apply in_map. tauto. }
  f_equal; [f_equal|].
  - apply dget_dset_eq.
  - transitivity (pick (nc_static_attr l) (save_columns l rows (n_vars s))).
    + apply (fold_same _ (fun v => pick (nc_static_attr l) v =
              pick (nc_static_attr l) (save_columns l rows (n_vars s)))); [reflexivity|].
      intros x [a t] _ <-. unfold save_frame. cbn [fst snd].
      destruct (filter _ _); [reflexivity|]. apply pick_other.
      destruct (nc_static_attr l (nc_series l a)) as [b|] eqn:D; auto.
      apply static_attr_spec in D. destruct D as [D N]. rewrite series_is_static in D.
      unfold nc_static in D. apply append_inj_l in D. apply append_inj_l in D. subst b. discriminate.
    + unfold save_columns.
      rewrite (fold_commute (pick (nc_static_attr l)) _ (fun v a => dset v a (column rows a))).
      * rewrite V2'.
        refine (fold_fresh (column rows) (columns rows) [] (NoDup_nodup _ _) _). intros a _ [].
      * intros x a Ia. apply pick_own; [apply static_inj_attr|]. apply static_attr_spec. auto.
  - rewrite (fold_commute (pick (nc_series_attr l)) _
       (fun v e => match filter (fun g => keep_series (k_meta k) (fst e) (snd g)) (tcols (snd e)) with
                   | [] => v
                   | cols => dset v (fst e) (V2 (List.length (tindex (snd e))) cols)
                   end)).
    + unfold frames_of. f_equal.
      transitivity (pick (nc_series_attr l) (n_vars s)); [|exact V3'].
      unfold save_columns. apply (fold_same _ (fun v => pick (nc_series_attr l) v =
              pick (nc_series_attr l) (n_vars s))); [reflexivity|].
      intros x a Ia <-. apply pick_other.
      destruct (nc_series_attr l (nc_static l a)) as [b|] eqn:D; auto.
      apply nc_series_attr_spec in D. rewrite series_is_static in D.
      unfold nc_static in D. apply append_inj_l in D. apply append_inj_l in D. subst a.
      apply Cl in Ia. discriminate.
    + intros x [a t] _. unfold save_frame. cbn [fst snd]. destruct (filter _ _); [reflexivity|].
      apply pick_own; [apply series_inj_attr|]. now apply nc_series_attr_spec.
Qed.

Lemma dget_frames m d v a : NoDup (dkeys d) ->
  dget (frames_of m d v) a =
  match dget d a with
  | None => dget v a
  | Some t => match filter (fun g => keep_series m a (snd g)) (tcols t) with
              | [] => dget v a
              | cols => Some (V2 (List.length (tindex t)) cols)
              end
  end.
Proof.
  unfold frames_of. revert v. induction d as [|[b t] d IH]; intros v ND; [reflexivity|].
  inversion ND as [|? ? NI ND']; subst. cbn [fold_left fst snd dget]. rewrite IH by exact ND'.
  destruct (String.eqb_spec b a) as [->|N].
  - assert (X : dget d a = None) by now apply dget_None_keys. rewrite X.
    destruct (filter _ (tcols t)); [reflexivity|]. apply dget_dset_eq.
  - destruct (filter (fun g => keep_series m b (snd g)) (tcols t)); [reflexivity|].
    rewrite !dget_dset_neq by exact N. reflexivity.
Qed.

Lemma NoDup_frames m d v : NoDup (dkeys v) -> NoDup (dkeys (frames_of m d v)).
Proof.
  unfold frames_of. revert v. induction d as [|[b t] d IH]; intros v ND; cbn [fold_left]; auto.
  apply IH. destruct (filter _ _); auto. now apply NoDup_dset.
Qed.

(* ---------- a table by columns is the table ---------- *)
Definition full_rows (rows : dict (dict val)) : dict (dict val) :=
  map (fun e => (fst e, map (fun a => (a, cell (snd e) a)) (columns rows))) rows.

Lemma nc_rows_full rows : NoDup (dkeys rows) ->
  nc_rows (dkeys rows) (map (fun a => (a, column rows a)) (columns rows)) = inl (full_rows rows).
Proof.
  intros ND. unfold nc_rows.
  assert (F : forallb (fun e : string * var => is_1d (snd e))
                (map (fun a => (a, column rows a)) (columns rows)) = true).
  { apply forallb_forall. intros e Ie. apply in_map_iff in Ie. destruct Ie as (a & <- & _). reflexivity. }
  rewrite F. unfold full_rows, dkeys. rewrite map_map. apply f_equal. apply map_ext_in.
  intros [name row] Ir. cbn [fst snd]. f_equal. rewrite map_map. apply map_ext. intros a. cbn [fst snd].
  f_equal. unfold column.
  rewrite (dget_map_val (fun _ r => cell r a)). now rewrite (In_dget _ _ _ ND Ir).
Qed.

Lemma nodup_over (L M : list string) : incl L M -> nodup string_dec (L ++ M) = nodup string_dec M.
Proof.
  induction L as [|x L IH]; intros I; [reflexivity|]. cbn [app nodup].
  destruct (in_dec string_dec x (L ++ M)) as [_|N].
  - apply IH. intros y Y. apply I. now right.
  - exfalso. apply N. apply in_app_iff. right. apply I. now left.
Qed.

Lemma columns_full rows : rows <> [] -> columns (full_rows rows) = columns rows.
Proof.
  intros N. unfold columns at 1, full_rows.
  assert (K : forall r : dict (dict val), r <> [] ->
     nodup string_dec (flat_map (fun e => dkeys (snd e))
       (map (fun e => (fst e, map (fun a => (a, cell (snd e) a)) (columns rows))) r)) = columns rows).
  { clear N. intros r. induction r as [|e r IH]; intros N; [congruence|].
    cbn [map flat_map snd]. unfold dkeys at 1. rewrite map_map. cbn [fst]. rewrite map_id.
    destruct r as [|e' r].
    - cbn [map flat_map]. rewrite app_nil_r. apply nodup_fixed_point. apply NoDup_nodup.
    - rewrite nodup_over; [apply IH; discriminate|].
      intros x X. cbn [map flat_map snd]. apply in_app_iff. left. unfold dkeys. rewrite map_map.
      cbn [fst]. now rewrite map_id. }
  now apply K.
Qed.

Lemma kwargs_full rows : rows <> [] ->
  static_kwargs (full_rows rows) = static_kwargs rows /\ dkeys (full_rows rows) = dkeys rows.
Proof.
  intros N.
  assert (K : dkeys (full_rows rows) = dkeys rows).
  { unfold full_rows, dkeys. rewrite map_map. reflexivity. }
  split; [|exact K]. unfold static_kwargs. rewrite (columns_full rows N), K. apply map_ext_in.
  intros a Ia. f_equal. f_equal. unfold full_rows. rewrite map_map. apply map_ext. intros [name row].
  cbn [snd]. unfold cell at 1. rewrite (dget_map_names (fun a => cell row a)).
  assert (M : mem a (columns rows) = true).
  { unfold mem. apply existsb_exists. exists a. split; auto. apply String.eqb_refl. }
  now rewrite M.
Qed.

Lemma transfer_full m sns rows ts c : rows <> [] ->
  transfer m sns (full_rows rows) ts c = transfer m sns rows ts c.
Proof.
  intros N. destruct (kwargs_full rows N) as [A B]. unfold transfer, add_frame. now rewrite A, B.
Qed.

(* ---------- reading depends on the frames found ---------- *)
Lemma lists_alike k sns rows l l' : NoDup (dkeys l) -> NoDup (dkeys l') ->
  (forall a, dget l a = dget l' a) ->
  class_alike
    (match read_series sns l with
     | inr e => inr e
     | inl ts => match transfer (k_meta k) sns rows ts (fresh k sns) with inl c => inl c | inr _ => inr FValue end
     end)
    (match read_series sns l' with
     | inr e => inr e
     | inl ts => match transfer (k_meta k) sns rows ts (fresh k sns) with inl c => inl c | inr _ => inr FValue end
     end).
Proof.
  intros N N' S'.
  assert (T : forall g g' : list (string * item), NoDup (dkeys g) -> NoDup (dkeys g') ->
            (forall a, dget g a = dget g' a) -> forall a x, In (a, x) g' -> In (a, x) g).
  { intros g g' Ng Ng' Eg a x X. apply dget_In. rewrite Eg. now apply In_dget. }
  destruct (read_series sns l) as [ts|e] eqn:Rd.
  - destruct (read_series_ok _ _ _ Rd) as (K & G & A).
    destruct (read_series_def sns l') as [ts' Rd'].
    { intros a x X. apply (A a x). now apply (T l l'). }
    rewrite Rd'. destruct (read_series_ok _ _ _ Rd') as (K' & G' & _).
    destruct (transfer_cases (k_meta k) sns rows (fresh k sns)) as [[e H]|[c1 H]].
    + rewrite !H. exact I.
    + rewrite !H. apply import_all_alike.
      * now rewrite K.
      * now rewrite K'.
      * intros a. rewrite G, G', S'. reflexivity.
  - destruct (read_series sns l') as [ts'|e'] eqn:Rd'; [|exact I].
    destruct (read_series_ok _ _ _ Rd') as (_ & _ & A).
    destruct (read_series_def sns l) as [ts Rd2]; [|congruence].
    intros a x X. apply (A a x). apply (T l' l); auto.
Qed.

Section Reg.
Variable reg : dict class.
Hypothesis (R : registry reg) (PF : prefix_free reg).

Lemma classes_apart cls cls' : In cls (dkeys reg) -> In cls' (dkeys reg) -> cls <> cls' ->
  apart (k_list (class_of reg cls)) (k_list (class_of reg cls')).
Proof.
  intros A B N. apply in_reg in A. apply in_reg in B. split; intros r.
  - exact (PF _ _ _ _ r B A (fun e => N (eq_sym e))).
  - exact (PF _ _ _ _ r A B N).
Qed.

Lemma fold_elsewhere n cls order s :
  incl order (dkeys reg) -> In cls (dkeys reg) -> ~ In cls order ->
  view (k_list (class_of reg cls))
    (fold_left (fun s cls => nc_class (class_of reg cls) (comp_or_empty n cls) s) order s) =
  view (k_list (class_of reg cls)) s.
Proof.
  intros I Ic NI. apply (fold_same _ (fun x => view (k_list (class_of reg cls)) x =
                                            view (k_list (class_of reg cls)) s)); [reflexivity|].
  intros x c Io <-. apply class_elsewhere. apply classes_apart; auto. intros ->. contradiction.
Qed.

Lemma export_view d order cls :
  any_order reg order -> Inv (metas_of reg) (d_net d) -> storable (d_net d) -> In cls (dkeys reg) ->
  let k := class_of reg cls in
  let c := comp_or_empty (d_net d) cls in
  view (k_list k) (nc_export reg d order) =
  match static c with
  | [] => (None, [], [])
  | _ => let rows := kept_rows (k_meta k) c in
         (Some (dkeys rows), map (fun a => (a, column rows a)) (columns rows), frames_of (k_meta k) (dyn c) [])
  end.
Proof.
  intros O1 IV St Ic k c.
  assert (inc : incl order (dkeys reg)).
  { intros x X. eapply Permutation_in; [apply Permutation_sym; exact O1|exact X]. }
  assert (nd : NoDup order) by (eapply Permutation_NoDup; [exact O1|]; now destruct R).
  assert (Io : In cls order) by (eapply Permutation_in; eauto).
  unfold nc_export. set (s0 := {| n_network := _ |}).
  assert (V0 : view (k_list k) s0 = (None, [], [])) by reflexivity.
  clearbody s0. clear O1. revert s0 V0. induction order as [|x order IH]; intros s0 V0; [destruct Io|].
  inversion nd as [|? ? NI nd']; subst. cbn [fold_left].
  assert (inc' : incl order (dkeys reg)) by (intros y Y; apply inc; now right).
  destruct (string_dec x cls) as [->|N].
  - unfold k. rewrite fold_elsewhere by auto. fold k c.
    destruct (static c) as [|e0 rest] eqn:Z.
    + unfold nc_class. rewrite Z. exact V0.
    + apply class_itself; auto; [|congruence].
      intros name row a Ir Ia.
      destruct (St cls c name row a (comp_known reg _ cls IV Ic) Ir Ia) as [_ T].
      destruct (drop_prefix "t_" a) as [r|] eqn:D; auto. apply drop_prefix_spec in D. now apply T in D.
  - destruct Io as [Io|Io]; [congruence|]. apply IH; auto.
    rewrite <- V0. apply class_elsewhere. apply classes_apart; auto. apply inc. now left.
Qed.

Lemma class_as_csv d order order' st cls k :
  any_order reg order -> any_order reg order' -> Inv (metas_of reg) (d_net d) -> storable (d_net d) ->
  export reg CSV d order' [] = (st, None) -> In (cls, k) reg ->
  class_alike (nc_import_class k (snaps (d_net d)) (nc_export reg d order))
              (import_class CSV k (snaps (d_net d)) st).
Proof.
  intros O1 O2 IV St E Ik. assert (OK := Inv_dyn_ok reg _ IV).
  assert (Ic : In cls (dkeys reg)) by now apply (in_map fst) in Ik.
  assert (Ek := class_of_in reg R cls k Ik).
  assert (V := export_view d order cls O1 IV St Ic). cbn zeta in V. rewrite Ek in V.
  assert (S1 := st_static reg R CSV d order' [] st O2 OK E cls Ic).
  cbn zeta in S1. rewrite Ek, start_empty in S1.
  assert (T : forall a, dget st (series_name CSV (k_list k) a) =
             match static (comp_or_empty (d_net d) cls) with
             | [] => None | _ => series_effect CSV (k_meta k) (comp_or_empty (d_net d) cls) a None end).
  { intros a. assert (X := st_series reg R CSV d order' [] st O2 OK E cls a Ic).
    cbn zeta in X. rewrite Ek, start_empty in X. exact X. }
  assert (G := good_class reg R _ _ _ IV Ik).
  set (c := comp_or_empty (d_net d) cls) in *. set (sns := snaps (d_net d)) in *.
  unfold nc_import_class, import_class. rewrite S1. unfold static_effect.
  destruct (static c) as [|e0 rest] eqn:Z.
  - unfold view in V. injection V as V1' _ _. rewrite V1'. now split.
  - cbn zeta in V. unfold view in V. injection V as V1' V2' V3'.
    rewrite V1', V2', V3'. set (rows := kept_rows (k_meta k) c) in *.
    assert (NDr : NoDup (dkeys rows)).
    { unfold rows, kept_rows, dkeys. rewrite map_map. cbn [fst]. now destruct G as (X & _). }
    assert (Nr : rows <> []) by (unfold rows, kept_rows; rewrite Z; discriminate).
    rewrite nc_rows_full by exact NDr.
    assert (NDst : NoDup (dkeys st)) by (apply (st_nodup reg CSV d order' [] st); [constructor|exact E]).
    assert (NDd : NoDup (dkeys (dyn c))) by now destruct G as (_ & X & _).
    assert (A := lists_alike k sns rows
      (map (fun e => (fst e, as_item (snd e))) (frames_of (k_meta k) (dyn c) []))
      (get_series CSV (k_list k) st)).
    destruct (read_series sns (map (fun e => (fst e, as_item (snd e))) (frames_of (k_meta k) (dyn c) [])))
      as [ts|e].
    + rewrite (transfer_full (k_meta k) sns rows ts (fresh k sns) Nr). apply A.
      * unfold dkeys. rewrite map_map. cbn [fst]. apply NoDup_frames. constructor.
      * now apply NoDup_get_series.
      * intros a. rewrite dget_get_series, T.
        rewrite (dget_map_val (fun _ v => as_item v)), dget_frames by exact NDd.
        try rewrite Z. unfold series_effect. destruct (dget (dyn c) a) as [t|]; [|reflexivity].
        destruct (filter _ (tcols t)); reflexivity.
    + apply A.
      * unfold dkeys. rewrite map_map. cbn [fst]. apply NoDup_frames. constructor.
      * now apply NoDup_get_series.
      * intros a. rewrite dget_get_series, T.
        rewrite (dget_map_val (fun _ v => as_item v)), dget_frames by exact NDd.
        try rewrite Z. unfold series_effect. destruct (dget (dyn c) a) as [t|]; [|reflexivity].
        destruct (filter _ (tcols t)); reflexivity.
Qed.

Lemma nc_classes_alike sns s st l :
  (forall cls k, In (cls, k) l -> class_alike (nc_import_class k sns s) (import_class CSV k sns st)) ->
  classes_alike (nc_import_classes sns s l) (import_classes CSV sns st l).
Proof.
  induction l as [|[cls k] l IH]; intros H; cbn [nc_import_classes import_classes]; [constructor|].
  assert (A := H cls k (or_introl eq_refl)).
  assert (B : classes_alike (nc_import_classes sns s l) (import_classes CSV sns st l)).
  { apply IH. intros c k' X. apply (H c). now right. }
  destruct (nc_import_class k sns s) as [c|e], (import_class CSV k sns st) as [c'|e'];
    try contradiction; [|exact I].
  destruct (nc_import_classes sns s l) as [cs|e], (import_classes CSV sns st l) as [cs'|e'];
    try contradiction; [|exact I].
  constructor; auto.
Qed.

Lemma fold_heads n order s :
  let s' := fold_left (fun s cls => nc_class (class_of reg cls) (comp_or_empty n cls) s) order s in
  n_network s' = n_network s /\ n_crs s' = n_crs s /\ n_meta s' = n_meta s /\
  n_periods s' = n_periods s /\ n_weights s' = n_weights s.
Proof.
  cbn zeta. apply (fold_same _ (fun s' => n_network s' = n_network s /\ n_crs s' = n_crs s /\
    n_meta s' = n_meta s /\ n_periods s' = n_periods s /\ n_weights s' = n_weights s)).
  - auto.
  - intros x cls _ H. unfold nc_class. destruct (static (comp_or_empty n cls)); exact H.
Qed.

Lemma as_csv d order order' :
  any_order reg order -> any_order reg order' -> Inv (metas_of reg) (d_net d) -> storable (d_net d) ->
  exists st, export reg CSV d order' [] = (st, None) /\
    read_alike (nc_import reg (nc_export reg d order)) (import reg CSV st).
Proof.
  intros O1 O2 IV St. assert (OK := Inv_dyn_ok reg _ IV).
  destruct (export_ok reg R CSV d order' [] O2 IV (fits_empty reg CSV _)) as [st E].
  exists st. split; [exact E|].
  assert (H := st_head reg R CSV d order' [] st O2 OK E).
  destruct (fold_heads (d_net d) order
    {| n_network := d_network d; n_crs := d_crs d; n_meta := d_meta d; n_periods := d_periods d;
       n_weights := weights (d_net d); n_coords := []; n_vars := [] |}) as (H1 & H2 & H3 & H4 & H5).
  fold (nc_export reg d order) in H1, H2, H3, H4, H5. cbn [n_network n_crs n_meta n_periods n_weights] in *.
  unfold nc_import, import, read_snapshots. rewrite H by (unfold reserved; simpl; tauto).
  change (head_item d "snapshots") with (ISnaps (weights (d_net d))). cbn match. rewrite H5.
  assert (Ti : tindex (weights (d_net d)) = snaps (d_net d)) by now destruct IV as (_ & _ & X & _).
  rewrite Ti. destruct (snaps (d_net d)) as [|s0 sr] eqn:Es; [exact I|]. rewrite <- Es.
  assert (V := export_view d order "Bus" O1 IV St (bus_in reg R)). cbn zeta in V.
  assert (S1 := st_static reg R CSV d order' [] st O2 OK E "Bus" (bus_in reg R)).
  cbn zeta in S1. rewrite start_empty in S1. rewrite S1. unfold static_effect.
  set (x := match dget (n_coords (nc_export reg d order)) _ with Some _ => _ | None => _ end).
  match goal with |- context [match ?e with inl cs => inl {| d_net := _; d_network := text CSV st _;
      d_crs := _; d_meta := _; d_periods := _ |} | inr e => inr e end] => set (y := e) end.
  assert (A : classes_alike x y).
  { unfold x, y. unfold view in V.
    destruct (static (comp_or_empty (d_net d) "Bus")).
    - injection V as -> _ _. cbn. clear. induction reg as [|e l IH]; cbn [map]; constructor; auto.
      split; [reflexivity|split; reflexivity].
    - injection V as -> _ _. apply nc_classes_alike. intros cls k Ik.
      exact (class_as_csv d order order' st cls k O1 O2 IV St E Ik). }
  clearbody x y. destruct x as [cs|e], y as [cs'|e']; try contradiction; [|exact I].
  apply Forall2_same in A. destruct A as [K A].
  unfold text. rewrite !H by (unfold reserved; simpl; tauto).
  unfold read_alike, same_doc, same_net.
  cbn [d_net d_network d_crs d_meta d_periods snaps weights comps].
  rewrite H1, H2, H3, H4.
  split; [|repeat split; reflexivity].
  split; [reflexivity|]. split; [reflexivity|]. split; [exact K|exact A].
Qed.

Lemma nc_round_trip d order :
  any_order reg order -> Inv (metas_of reg) (d_net d) -> storable (d_net d) ->
  (exists c, dget (comps (d_net d)) "Bus" = Some c /\ static c <> []) ->
  exists d', nc_import reg (nc_export reg d order) = inl d' /\
    d_network d' = d_network d /\ d_crs d' = d_crs d /\ d_meta d' = d_meta d /\
    d_periods d' = d_periods d /\
    snaps (d_net d') = snaps (d_net d) /\
    (forall col s, In col ["objective"; "generators"; "stores"] ->
       In col (dkeys (tcols (weights (d_net d)))) ->
       tget (weights (d_net d')) col s = tget (weights (d_net d)) col s) /\
    (forall cls k c, In (cls, k) reg -> dget (comps (d_net d)) cls = Some c -> filled (k_meta k) c ->
       exists c', dget (comps (d_net d')) cls = Some c' /\ names_of c' = names_of c /\
         forall name attr s, In name (names_of c) -> In s (snaps (d_net d)) -> ~ In attr derived ->
           ~ hidden_default (k_meta k) c name attr ->
           eff (k_meta k) c' name attr s = eff (k_meta k) c name attr s).
Proof.
  intros O1 IV St Bu.
  assert (ND0 : NoDup (dkeys ([] : store))) by constructor.
  destruct (as_csv d order order O1 O1 IV St) as (st & E & A).
  destruct (round_trip reg R CSV d order [] O1 IV ND0 (fits_empty reg CSV _) Bu)
    as (st0 & d0 & E0 & I0 & T1 & T2 & T3 & T4 & Sn & W & C).
  assert (Es : st0 = st) by congruence. subst st0. rewrite I0 in A. unfold read_alike in A.
  destruct (nc_import reg (nc_export reg d order)) as [d'|e]; [|contradiction].
  destruct A as ((S1 & S2 & S3 & S4) & U1 & U2 & U3 & U4).
  exists d'. rewrite S1, S2, U1, U2, U3, U4.
  split; [reflexivity|]. split; [exact T1|]. split; [exact T2|]. split; [exact T3|].
  split; [exact T4|]. split; [exact Sn|]. split; [exact W|].
  intros cls k c Ik Dc Fl. destruct (C cls k c Ik Dc Fl) as (c0 & D0 & Nm & Ef).
  assert (Kc : In cls (dkeys (comps (d_net d')))) by (rewrite S3; eapply dget_Some_keys; eauto).
  apply dget_keys_Some in Kc. destruct Kc as [c' Dc']. exists c'. split; [exact Dc'|].
  assert (Sm := S4 cls c' c0 Dc' D0). split.
  - destruct Sm as [Z _]. unfold names_of in *. now rewrite Z.
  - intros name attr s I1 I2 I3 I4. rewrite (eff_same _ _ _ _ _ _ Sm). now apply Ef.
Qed.
End Reg.
