From Coq Require Import List String Bool ZArith Ascii Permutation Lia.
From Verif Require Import Assoc TablesModel TablesSpec TablesProofs TransferModel TransferProofs
  FileModel FileSpec.
Import ListNotations.
Open Scope string_scope.
Open Scope list_scope.

(* ---------- strings ---------- *)
Lemma drop_prefix_spec p s r : drop_prefix p s = Some r <-> s = String.append p r.
Proof.
  revert s. induction p as [|a p IH]; intros s; simpl.
  - split; [intros H; now injection H | intros ->; auto].
  - destruct s as [|b s]; [split; discriminate|].
    destruct (Ascii.eqb a b) eqn:E.
    + apply Ascii.eqb_eq in E. subst. rewrite IH. split; [now intros -> | now intros H; injection H].
    + split; [discriminate|]. intros H. injection H as -> _. now rewrite Ascii.eqb_refl in E.
Qed.

Lemma append_length a b : String.length (String.append a b) = String.length a + String.length b.
Proof. induction a as [|x a IH]; simpl; auto. Qed.

Lemma append_assoc a b c :
  String.append a (String.append b c) = String.append (String.append a b) c.
Proof. induction a as [|x a IH]; simpl; auto. now rewrite IH. Qed.

Lemma append_inj_l a x y : String.append a x = String.append a y -> x = y.
Proof. induction a as [|c a IH]; simpl; auto. intros H. injection H. auto. Qed.

Lemma append_inj_r x y s : String.append x s = String.append y s -> x = y.
Proof.
  revert y. induction x as [|a x IH]; intros [|b y]; simpl; auto; intros H.
  - exfalso. apply (f_equal String.length) in H. simpl in H. rewrite append_length in H. lia.
  - exfalso. apply (f_equal String.length) in H. simpl in H. rewrite append_length in H. lia.
  - injection H as -> H. now rewrite (IH y H).
Qed.

Lemma drop_suffix_spec x s r : drop_suffix x s = Some r <-> s = String.append r x.
Proof.
  revert r. induction s as [|a s IH]; intros r; cbn [drop_suffix].
  - destruct (String.eqb_spec "" x) as [<-|N].
    + split; [intros H; injection H as <-; auto | ].
      intros H. destruct r; [auto|discriminate].
    + split; [discriminate|]. intros H. destruct r; simpl in H; congruence.
  - destruct (String.eqb_spec (String a s) x) as [<-|N].
    + split; [intros H; now injection H as <-|].
      intros H. destruct r as [|b r]; auto. exfalso.
      apply (f_equal String.length) in H. rewrite append_length in H. simpl in H. lia.
    + destruct (drop_suffix x s) as [q|].
      * assert (D : s = String.append q x) by now apply IH. split.
        -- intros H. injection H as <-. simpl. now rewrite <- D.
        -- intros H. destruct r as [|b r]; [simpl in H; congruence|].
           simpl in H. injection H as <- H. rewrite D in H. apply append_inj_r in H. now subst.
      * split; [discriminate|]. intros H. destruct r as [|b r]; [simpl in H; congruence|].
        simpl in H. injection H as <- H. apply IH in H. discriminate.
Qed.

Lemma has_char_app a x y : has_char a (String.append x y) = has_char a x || has_char a y.
Proof. induction x as [|b x IH]; simpl; auto. rewrite IH. now rewrite orb_assoc. Qed.

(* the first occurrence of a separator is unambiguous *)
Lemma split_char a x y r t :
  has_char a x = false -> has_char a y = false ->
  String.append x (String a r) = String.append y (String a t) -> x = y /\ r = t.
Proof.
  revert y. induction x as [|b x IH]; intros [|c y]; simpl; intros X Y H.
  - injection H. auto.
  - injection H as <- _. rewrite Ascii.eqb_refl in Y. discriminate.
  - injection H as -> _. rewrite Ascii.eqb_refl in X. discriminate.
  - injection H as <- H. apply orb_false_iff in X. apply orb_false_iff in Y.
    destruct X as [_ X], Y as [_ Y]. destruct (IH y X Y H) as [-> ->]. auto.
Qed.

(* ---------- names ---------- *)
Lemma series_attr_spec f l key a : series_attr f l key = Some a <-> key = series_name f l a.
Proof.
  destruct f; simpl.
  - destruct (drop_prefix (String.append l "-") key) as [r|] eqn:D.
    + apply drop_prefix_spec in D. subst key. rewrite drop_suffix_spec.
      rewrite <- append_assoc. split.
      * intros ->. reflexivity.
      * intros H. apply append_inj_l in H. simpl in H. now injection H.
    + split; [discriminate|]. intros ->. exfalso.
      assert (X : drop_prefix (String.append l "-")
         (String.append l (String "-" (String.append a ".csv"))) = Some (String.append a ".csv")).
      { apply drop_prefix_spec. rewrite <- append_assoc. reflexivity. }
      simpl in D. congruence.
  - rewrite drop_prefix_spec. rewrite <- append_assoc. reflexivity.
  - change (drop_prefix (String.append "/" (String.append l "_t/")) key = Some a <->
            key = String.append "/" (String.append l (String.append "_t/" a))).
    rewrite drop_prefix_spec. rewrite <- !append_assoc. reflexivity.
Qed.

Definition reserved : list string := ["network"; "crs"; "meta"; "snapshots"; "investment_periods"].

Lemma no_dash f a l : f <> HDF5 -> has_char "-"%char (series_name f l a) = true.
Proof.
  intros N. destruct f; [| |congruence]; unfold series_name; rewrite !has_char_app; simpl;
    now rewrite !orb_true_r.
Qed.

Lemma static_inj f l l' : static_name f l = static_name f l' -> l = l'.
Proof.
  destruct f; simpl; intros H; auto.
  - now apply append_inj_r in H.
  - now injection H.
Qed.

Lemma static_series f l l' a : plain l -> static_name f l <> series_name f l' a.
Proof.
  intros (D & S & _) E. destruct f; simpl in E.
  - apply (f_equal (has_char "-"%char)) in E. rewrite !has_char_app, D in E. simpl in E.
    rewrite orb_true_r in E. discriminate.
  - subst l. rewrite has_char_app in D. simpl in D. rewrite orb_true_r in D. discriminate.
  - injection E as E. subst l. rewrite has_char_app in S. simpl in S.
    rewrite orb_true_r in S. discriminate.
Qed.

Lemma series_inj f l l' a a' :
  plain l -> plain l' -> series_name f l a = series_name f l' a' -> l = l' /\ a = a'.
Proof.
  intros (D & S & _) (D' & S' & _) E. destruct f; simpl in E.
  - destruct (split_char _ _ _ _ _ D D' E) as [-> H]. now apply append_inj_r in H.
  - exact (split_char _ _ _ _ _ D D' E).
  - injection E as E.
    assert (X : forall q b, String.append q (String "_" (String "t" (String "/" b))) =
                     String.append (String.append q "_t") (String "/" b)).
    { intros q b. rewrite <- append_assoc. reflexivity. }
    rewrite !X in E. apply split_char in E.
    + destruct E as [E ->]. split; auto. now apply append_inj_r in E.
    + rewrite has_char_app, S. reflexivity.
    + rewrite has_char_app, S'. reflexivity.
Qed.

Lemma head_static f h l : In h reserved -> plain l -> head_name f h <> static_name f l.
Proof.
  intros R (_ & _ & N) E. fold reserved in N. destruct f; simpl in E.
  - destruct (String.eqb h "crs" || (String.eqb h "meta" || false)) eqn:B.
    + exfalso. assert (Hh : h = "crs" \/ h = "meta").
      { apply orb_true_iff in B. destruct B as [B|B]; [left; now apply String.eqb_eq|].
        rewrite orb_false_r in B. right. now apply String.eqb_eq. }
      clear -E Hh. apply (f_equal (fun s => drop_suffix ".csv" s)) in E.
      assert (X : drop_suffix ".csv" (String.append l ".csv") = Some l)
        by now apply drop_suffix_spec.
      rewrite X in E. destruct Hh; subst; discriminate.
    + apply append_inj_r in E. subst. contradiction.
  - subst. contradiction.
  - injection E as <-. contradiction.
Qed.

Lemma head_series f h l a : In h reserved -> head_name f h <> series_name f l a.
Proof.
  intros R E. destruct f.
  - apply (f_equal (has_char "-"%char)) in E. rewrite no_dash in E by (auto; discriminate).
    repeat (destruct R as [<-|R]; [discriminate|]). destruct R.
  - apply (f_equal (has_char "-"%char)) in E. rewrite no_dash in E by (auto; discriminate).
    repeat (destruct R as [<-|R]; [discriminate|]). destruct R.
  - unfold head_name, series_name in E. apply append_inj_l in E.
    apply (f_equal (has_char "/"%char)) in E. rewrite !has_char_app in E. simpl in E.
    rewrite orb_true_r in E.
    repeat (destruct R as [<-|R]; [discriminate|]). destruct R.
Qed.

Lemma head_inj f h h' : In h reserved -> In h' reserved -> head_name f h = head_name f h' -> h = h'.
Proof.
  intros R R'. repeat (destruct R as [<-|R]; [|]); try destruct R;
    repeat (destruct R' as [<-|R']; [|]); try destruct R'; auto; destruct f; discriminate.
Qed.

(* ---------- files in a folder named like a class ---------- *)
Lemma in_subfolder_spec l key :
  in_subfolder l key = true -> exists file, key = String.append l (String.append "/" file).
Proof.
  unfold in_subfolder. destruct (drop_prefix (String.append l "/") key) as [r|] eqn:D; [|discriminate].
  intros _. apply drop_prefix_spec in D. exists r. now rewrite append_assoc.
Qed.

(* keys a class writes to or removes *)
Definition owns (f : format) (l key : string) : Prop :=
  key = static_name f l \/ exists a, key = series_name f l a.

Lemma sub_not_owned l l' file : plain l -> plain l' ->
  ~ owns CSV l' (String.append l (String.append "/" file)).
Proof.
  intros (D & S & _) (D' & S' & _) [E|[a E]].
  - simpl in E. apply (f_equal (has_char "/"%char)) in E. rewrite !has_char_app, S' in E. simpl in E.
    rewrite orb_true_r in E. discriminate.
  - simpl in E. revert E D S'. clear. revert l'.
    induction l as [|b l IH]; intros [|c l'] E D S'.
    + simpl in E. discriminate.
    + simpl in E. injection E as <- _. simpl in S'. discriminate.
    + simpl in E. injection E as -> _. simpl in D. discriminate.
    + simpl in E. injection E as -> E. simpl in D, S'. apply orb_false_iff in D. apply orb_false_iff in S'.
      destruct D, S'. eapply IH; eauto.
Qed.

Lemma sub_not_head l file h : In h reserved ->
  head_name CSV h <> String.append l (String.append "/" file).
Proof.
  intros R E. apply (f_equal (has_char "/"%char)) in E. rewrite !has_char_app in E. simpl in E.
  rewrite !orb_true_r in E.
  repeat (destruct R as [<-|R]; [discriminate|]). destruct R.
Qed.

(* ---------- what writing one class does to every key ---------- *)
Definition series_effect (f : format) (m : meta) (c : comp) (a : string) (old : option item)
  : option item :=
  match dget (dyn c) a with
  | None => old
  | Some t =>
      match filter (fun g => keep_series m a (snd g)) (tcols t) with
      | [] => match f with HDF5 => old | _ => None end
      | cols => Some (ISeries (List.length (tindex t)) cols)
      end
  end.

Definition kept_rows (m : meta) (c : comp) : dict (dict val) :=
  map (fun e => (fst e, filter (fun g => keep_static m (static c) (fst g)) (snd e))) (static c).

Definition static_effect (f : format) (m : meta) (c : comp) (old : option item) : option item :=
  match static c with
  | [] => match f with Excel => None | _ => old end
  | _ => Some (IFrame (kept_rows m c))
  end.

Lemma dget_export_series f l m st a t key :
  dget (export_series f l m st (a, t)) key =
  if String.eqb (series_name f l a) key
  then match filter (fun g => keep_series m a (snd g)) (tcols t) with
       | [] => match f with HDF5 => dget st key | _ => None end
       | cols => Some (ISeries (List.length (tindex t)) cols)
       end
  else dget st key.
Proof.
  unfold export_series. cbn [fst snd].
  destruct (filter (fun g => keep_series m a (snd g)) (tcols t)) as [|e r].
  - destruct (String.eqb_spec (series_name f l a) key) as [<-|N].
    + destruct f; unfold remove_series; auto using dget_ddel_eq.
    + destruct f; unfold remove_series; auto using dget_ddel_neq.
  - destruct (String.eqb_spec (series_name f l a) key) as [<-|N].
    + apply dget_dset_eq.
    + now apply dget_dset_neq.
Qed.

Lemma dget_export_all f l m d st key : plain l -> NoDup (dkeys d) ->
  dget (fold_left (export_series f l m) d st) key =
  match series_attr f l key with
  | None => dget st key
  | Some a => series_effect f m {| static := []; dyn := d |} a (dget st key)
  end.
Proof.
  intros P. revert st. induction d as [|[a t] d IH]; intros st ND.
  - simpl. unfold series_effect. simpl. now destruct (series_attr f l key).
  - simpl. inversion ND as [|? ? NI ND']; subst. rewrite IH by exact ND'.
    rewrite dget_export_series.
    destruct (series_attr f l key) as [b|] eqn:A.
    + apply series_attr_spec in A. subst key. unfold series_effect. simpl.
      destruct (String.eqb_spec (series_name f l a) (series_name f l b)) as [E|E].
      * apply series_inj in E; auto. destruct E as [_ <-]. rewrite String.eqb_refl.
        assert (X : dget d a = None) by now apply dget_None_keys. now rewrite X.
      * destruct (String.eqb_spec a b) as [->|N]; [congruence|reflexivity].
    + destruct (String.eqb_spec (series_name f l a) key) as [E|E]; auto.
      symmetry in E. apply series_attr_spec in E. congruence.
Qed.

Definition effect (f : format) (k : class) (c : comp) (key : string) (old : option item) : option item :=
  if String.eqb key (static_name f (k_list k)) then static_effect f (k_meta k) c old
  else match series_attr f (k_list k) key with
       | None => old
       | Some a => match static c with [] => old | _ => series_effect f (k_meta k) c a old end
       end.

Lemma dget_export_class f k c st st' key :
  plain (k_list k) -> NoDup (dkeys (dyn c)) -> export_class f k c st = (st', None) ->
  dget st' key = effect f k c key (dget st key).
Proof.
  intros P ND. unfold export_class, effect, static_effect.
  destruct (static c) as [|e0 rest] eqn:Sc.
  - intros H. unfold remove_static in H. destruct f.
    + destruct (existsb _ st); [discriminate|]. injection H as <-.
      destruct (String.eqb key (static_name CSV (k_list k))); auto.
      now destruct (series_attr CSV (k_list k) key).
    + injection H as <-. destruct (String.eqb_spec key (static_name Excel (k_list k))) as [->|N].
      * apply dget_ddel_eq.
      * rewrite dget_ddel_neq by (simpl in N; congruence). now destruct (series_attr Excel (k_list k) key).
    + injection H as <-. destruct (String.eqb key (static_name HDF5 (k_list k))); auto.
      now destruct (series_attr HDF5 (k_list k) key).
  - intros H. rewrite <- Sc in H. fold (kept_rows (k_meta k) c) in H.
    apply (f_equal fst) in H. cbn [fst] in H. subst st'. rewrite dget_export_all by auto.
    destruct (String.eqb_spec key (static_name f (k_list k))) as [->|N].
    + destruct (series_attr f (k_list k) (static_name f (k_list k))) as [a|] eqn:A.
      * apply series_attr_spec in A. exfalso. now apply static_series in A.
      * apply dget_dset_eq.
    + rewrite dget_dset_neq by congruence. reflexivity.
Qed.

Lemma effect_not_owned f k c key old : ~ owns f (k_list k) key -> effect f k c key old = old.
Proof.
  intros N. unfold effect.
  destruct (String.eqb_spec key (static_name f (k_list k))) as [E|E]; [exfalso; apply N; now left|].
  destruct (series_attr f (k_list k) key) as [a|] eqn:A; auto.
  apply series_attr_spec in A. exfalso. apply N. right. eauto.
Qed.

Lemma owns_class f l l' key : plain l -> plain l' -> owns f l key -> owns f l' key -> l = l'.
Proof.
  intros P P' [E|[a E]] [E'|[a' E']]; subst key.
  - now apply static_inj in E'.
  - exfalso. now apply static_series in E'.
  - symmetry in E'. exfalso. now apply static_series in E'.
  - apply series_inj in E'; tauto.
Qed.

(* ---------- distinct keys ---------- *)
Lemma NoDup_export_class f k c st :
  NoDup (dkeys st) -> NoDup (dkeys (fst (export_class f k c st))).
Proof.
  intros ND. unfold export_class. destruct (static c).
  - destruct f; simpl; auto.
    + destruct (existsb _ st); simpl; auto. now apply NoDup_map_filter.
    + now apply NoDup_ddel.
  - cbn [fst]. set (st0 := dset st _ _).
    assert (ND0 : NoDup (dkeys st0)) by now apply NoDup_dset. clearbody st0. clear ND.
    revert st0 ND0. induction (dyn c) as [|e dd IH]; intros st0 ND0; simpl; auto. apply IH.
    unfold export_series. destruct (filter _ _); [|now apply NoDup_dset].
    destruct f; simpl; auto; now apply NoDup_ddel.
Qed.

Lemma NoDup_export_head f d st : NoDup (dkeys st) -> NoDup (dkeys (export_head f d st)).
Proof. intros ND. unfold export_head. now repeat apply NoDup_dset. Qed.

(* ---------- head entries ---------- *)
Definition head_item (d : doc) (h : string) : item :=
  if String.eqb h "network" then IText (d_network d)
  else if String.eqb h "crs" then IText (d_crs d)
  else if String.eqb h "meta" then IText (d_meta d)
  else if String.eqb h "snapshots" then ISnaps (weights (d_net d))
  else IText (d_periods d).

Lemma dget_head f d st h : In h reserved -> dget (export_head f d st) (head_name f h) = Some (head_item d h).
Proof.
  intros R. unfold export_head.
  repeat (destruct R as [<-|R];
    [repeat (rewrite dget_dset_neq; [|destruct f; vm_compute; discriminate]);
     rewrite dget_dset_eq; reflexivity |]).
  destruct R.
Qed.

Lemma dget_head_other f d st key : (forall h, In h reserved -> head_name f h <> key) ->
  dget (export_head f d st) key = dget st key.
Proof.
  intros N. unfold export_head.
  repeat (rewrite dget_dset_neq; [|apply N; unfold reserved; simpl; tauto]). reflexivity.
Qed.

(* ---------- the loop over the classes ---------- *)
Section Reg.
Variable reg : dict class.
Hypothesis R : registry reg.

Lemma class_of_in cls k : In (cls, k) reg -> class_of reg cls = k.
Proof. intros H. unfold class_of. destruct R as [ND _]. now rewrite (In_dget _ _ _ ND H). Qed.

Lemma in_reg cls : In cls (dkeys reg) -> In (cls, class_of reg cls) reg.
Proof.
  intros H. apply dget_keys_Some in H. destruct H as [k H]. unfold class_of. rewrite H.
  now apply dget_In.
Qed.

Lemma class_plain cls : In cls (dkeys reg) -> plain (k_list (class_of reg cls)).
Proof. intros H. apply in_reg in H. destruct R as (_ & _ & _ & P). now apply P in H. Qed.

Lemma NoDup_map_inj {A B} (g : A -> B) (l : list A) x y :
  NoDup (map g l) -> In x l -> In y l -> g x = g y -> x = y.
Proof.
  induction l as [|z l IH]; simpl; [tauto|]. intros ND X Y E.
  inversion ND as [|? ? NI ND']; subst.
  destruct X as [X|X], Y as [Y|Y]; subst; auto.
  - exfalso. apply NI. rewrite E. now apply in_map.
  - exfalso. apply NI. rewrite <- E. now apply in_map.
Qed.

Lemma class_distinct cls cls' : In cls (dkeys reg) -> In cls' (dkeys reg) ->
  k_list (class_of reg cls) = k_list (class_of reg cls') -> cls = cls'.
Proof.
  intros A B E. apply in_reg in A. apply in_reg in B. destruct R as (_ & ND & _).
  assert (X := NoDup_map_inj _ _ _ _ ND A B E). now injection X.
Qed.

Definition dyn_ok (n : net) : Prop := forall cls, NoDup (dkeys (dyn (comp_or_empty n cls))).

Lemma Inv_dyn_ok n : Inv (metas_of reg) n -> dyn_ok n.
Proof.
  intros (_ & _ & _ & _ & K & G) cls. unfold comp_or_empty.
  destruct (dget (comps n) cls) as [c|] eqn:D; [|constructor].
  assert (X : In cls (dkeys (metas_of reg))) by (rewrite <- K; eapply dget_Some_keys; eauto).
  apply dget_keys_Some in X. destruct X as [m M]. now destruct (G cls c m D M) as (_ & ND & _).
Qed.

Definition eff_of_class (f : format) (n : net) (key : string) (o : option item) (cls : string) :=
  effect f (class_of reg cls) (comp_or_empty n cls) key o.

Lemma export_classes_get f n order st st' key :
  incl order (dkeys reg) -> dyn_ok n -> export_classes reg f n order st = (st', None) ->
  dget st' key = fold_left (eff_of_class f n key) order (dget st key).
Proof.
  intros I D. revert st. induction order as [|cls order IH]; intros st H; cbn [export_classes] in H.
  - injection H as <-. reflexivity.
  - destruct (export_class f (class_of reg cls) (comp_or_empty n cls) st) as [st1 [e|]] eqn:E;
      [discriminate|].
    cbn [fold_left]. unfold eff_of_class at 2.
    rewrite <- (dget_export_class f _ _ _ _ key (class_plain cls (I cls (or_introl eq_refl))) (D cls) E).
    apply IH; [|exact H]. intros x X. apply I. now right.
Qed.

Lemma fold_none f n key order o :
  (forall cls, In cls order -> ~ owns f (k_list (class_of reg cls)) key) ->
  fold_left (eff_of_class f n key) order o = o.
Proof.
  induction order as [|cls order IH]; cbn [fold_left]; intros N; auto.
  unfold eff_of_class at 2. rewrite effect_not_owned by (apply N; now left).
  apply IH. intros x X. apply N. now right.
Qed.

Lemma fold_one f n key order o cls :
  incl order (dkeys reg) -> NoDup order -> In cls order ->
  owns f (k_list (class_of reg cls)) key ->
  fold_left (eff_of_class f n key) order o = eff_of_class f n key o cls.
Proof.
  revert o. induction order as [|c order IH]; intros o I ND Ic Ow; [destruct Ic|].
  inversion ND as [|? ? NI ND']; subst. cbn [fold_left].
  assert (I' : incl order (dkeys reg)) by (intros x X; apply I; now right).
  destruct (string_dec c cls) as [->|N].
  - apply fold_none. intros x X Ow'. assert (x = cls).
    { assert (Ix : In x (dkeys reg)) by now apply I'.
      assert (Icls : In cls (dkeys reg)) by (apply I; now left).
      apply (class_distinct x cls Ix Icls).
      exact (owns_class f _ _ key (class_plain x Ix) (class_plain cls Icls) Ow' Ow). }
    subst. contradiction.
  - destruct Ic as [Ic|Ic]; [congruence|].
    unfold eff_of_class at 2. rewrite effect_not_owned.
    + apply IH; auto.
    + intros Ow'. apply N.
      assert (Ix : In c (dkeys reg)) by (apply I; now left).
      assert (Icls : In cls (dkeys reg)) by now apply I'.
      apply (class_distinct c cls Ix Icls).
      exact (owns_class f _ _ key (class_plain c Ix) (class_plain cls Icls) Ow' Ow).
Qed.

Lemma export_classes_ok f n order st :
  incl order (dkeys reg) -> dyn_ok n ->
  (f = CSV -> forall cls key, In cls order -> static (comp_or_empty n cls) = [] ->
     in_subfolder (k_list (class_of reg cls)) key = true -> dget st key = None) ->
  exists st', export_classes reg f n order st = (st', None).
Proof.
  revert st. induction order as [|cls order IH]; intros st I D H; cbn [export_classes]; [eauto|].
  assert (P := class_plain cls (I cls (or_introl eq_refl))).
  assert (E : exists st1, export_class f (class_of reg cls) (comp_or_empty n cls) st = (st1, None)).
  { unfold export_class. destruct (static (comp_or_empty n cls)) eqn:Sc; [|eauto].
    destruct f; unfold remove_static; eauto.
    destruct (existsb (fun e => in_subfolder (k_list (class_of reg cls)) (fst e)) st) eqn:Ex; [|eauto].
    apply existsb_exists in Ex. destruct Ex as ([key x] & Ik & S). cbn [fst] in S.
    assert (N : dget st key = None) by (apply (H eq_refl cls); auto; now left).
    apply dget_None_keys in N. exfalso. apply N. now apply (in_map fst) in Ik. }
  destruct E as [st1 E]. rewrite E. apply IH; auto.
  - intros x X. apply I. now right.
  - intros -> cls' key Ic' Sc' S.
    rewrite (dget_export_class CSV _ _ _ _ key P (D cls) E).
    rewrite effect_not_owned.
    + apply (H eq_refl cls'); auto. now right.
    + apply in_subfolder_spec in S. destruct S as [file ->]. apply sub_not_owned; auto.
      apply class_plain, I. now right.
Qed.

Lemma NoDup_export_classes f n order st :
  NoDup (dkeys st) -> NoDup (dkeys (fst (export_classes reg f n order st))).
Proof.
  revert st. induction order as [|cls order IH]; intros st ND; cbn [export_classes]; auto.
  assert (X := NoDup_export_class f (class_of reg cls) (comp_or_empty n cls) st ND).
  destruct (export_class f (class_of reg cls) (comp_or_empty n cls) st) as [st1 [e|]]; auto.
Qed.

(* ---------- the store after an export ---------- *)
Section Store.
Variables (f : format) (d : doc) (order : list string) (old st : store).
Hypothesis (OR : any_order reg order) (OK : dyn_ok (d_net d)) (ND : NoDup (dkeys old)).
Hypothesis (EX : export reg f d order old = (st, None)).

Let inc : incl order (dkeys reg).
Proof. intros x X. eapply Permutation_in; [apply Permutation_sym; exact OR | exact X]. Qed.
Let nd : NoDup order.
Proof. eapply Permutation_NoDup; [exact OR|]. now destruct R. Qed.

Lemma st_nodup : NoDup (dkeys st).
Proof.
  assert (X : st = fst (export reg f d order old)) by now rewrite EX. rewrite X.
  apply NoDup_export_classes, NoDup_export_head. destruct f; simpl; auto. constructor.
Qed.

Lemma st_head h : In h reserved -> dget st (head_name f h) = Some (head_item d h).
Proof.
  intros Rh. unfold export in EX. rewrite (export_classes_get _ _ _ _ _ _ inc OK EX).
  rewrite fold_none; [now apply dget_head|].
  intros cls Ic [E|[a E]].
  - revert E. apply head_static; auto using class_plain.
  - revert E. now apply head_series.
Qed.

Lemma st_static cls : In cls (dkeys reg) ->
  let l := k_list (class_of reg cls) in
  dget st (static_name f l) =
  static_effect f (k_meta (class_of reg cls)) (comp_or_empty (d_net d) cls)
    (dget (start f old) (static_name f l)).
Proof.
  intros Ic l. unfold export in EX. rewrite (export_classes_get _ _ _ _ _ _ inc OK EX).
  rewrite (fold_one _ _ _ _ _ cls); auto.
  - unfold eff_of_class, effect. fold l. rewrite String.eqb_refl.
    rewrite dget_head_other; auto. intros h Rh. apply head_static; auto using class_plain.
    unfold l. now apply class_plain.
  - eapply Permutation_in; eauto.
  - now left.
Qed.

Lemma st_series cls a : In cls (dkeys reg) ->
  let l := k_list (class_of reg cls) in
  let c := comp_or_empty (d_net d) cls in
  dget st (series_name f l a) =
  match static c with
  | [] => dget (start f old) (series_name f l a)
  | _ => series_effect f (k_meta (class_of reg cls)) c a (dget (start f old) (series_name f l a))
  end.
Proof.
  intros Ic l c. unfold export in EX. rewrite (export_classes_get _ _ _ _ _ _ inc OK EX).
  rewrite (fold_one _ _ _ _ _ cls); auto.
  - unfold eff_of_class, effect. fold l.
    destruct (String.eqb_spec (series_name f l a) (static_name f l)) as [E|_].
    + symmetry in E. exfalso. revert E. apply static_series. now apply class_plain.
    + assert (X : series_attr f l (series_name f l a) = Some a) by now apply series_attr_spec.
      rewrite X. rewrite dget_head_other; [reflexivity|]. intros h Rh. now apply head_series.
  - eapply Permutation_in; eauto.
  - right. now exists a.
Qed.

End Store.
End Reg.
