From Coq Require Import List String Ascii Bool Arith Lia.
From Verif Require Import Assoc OptionsModel OptionsSpec.
Import ListNotations.
Open Scope string_scope.
Open Scope list_scope.

(* ---------- dotted names ---------- *)
Fixpoint join_dot (l : list string) : string :=
  match l with
  | [] => EmptyString
  | [a] => a
  | a :: r => String.append a (String "." (join_dot r))
  end.

Lemma split_dot_nonnil s : split_dot s <> [].
Proof.
  destruct s as [|c s]; simpl; [discriminate|].
  destruct (Ascii.eqb c "."); [discriminate|]. destruct (split_dot s); discriminate.
Qed.

Lemma join_cons_char c h t : join_dot (String c h :: t) = String c (join_dot (h :: t)).
Proof. destruct t; reflexivity. Qed.

Lemma split_join s : join_dot (split_dot s) = s.
Proof.
  induction s as [|c s IH]; [reflexivity|]. simpl.
  destruct (Ascii.eqb c ".") eqn:E.
  - apply Ascii.eqb_eq in E; subst.
    destruct (split_dot s) as [|h t] eqn:Es; [now apply split_dot_nonnil in Es|].
    change (join_dot (EmptyString :: h :: t)) with (String "." (join_dot (h :: t))).
    now rewrite IH.
  - destruct (split_dot s) as [|h t] eqn:Es; [now apply split_dot_nonnil in Es|].
    now rewrite join_cons_char, IH.
Qed.

Lemma split_inj s1 s2 : split_dot s1 = split_dot s2 -> s1 = s2.
Proof. intros H. rewrite <- (split_join s1), <- (split_join s2). now rewrite H. Qed.

Lemma split_app p r :
  split_dot (String.append p (String "." r)) = split_dot p ++ split_dot r.
Proof.
  induction p as [|c p IH]; [reflexivity|]. simpl.
  destruct (Ascii.eqb c "."); [now rewrite IH|].
  rewrite IH. destruct (split_dot p) as [|h t] eqn:E; [now apply split_dot_nonnil in E|].
  reflexivity.
Qed.

Lemma split_cut s : forall a b, split_dot s = a ++ b -> a <> [] -> b <> [] ->
  exists s1 s2, s = String.append s1 (String "." s2) /\ split_dot s1 = a /\ split_dot s2 = b.
Proof.
  induction s as [|c s IH]; intros a b H Ha Hb; simpl in H.
  - destruct a as [|x a]; [congruence|]. simpl in H. injection H as <- H.
    symmetry in H. apply app_eq_nil in H. now destruct H.
  - destruct (Ascii.eqb c ".") eqn:E.
    + apply Ascii.eqb_eq in E; subst c. destruct a as [|x a]; [congruence|].
      simpl in H. injection H as <- H.
      destruct a as [|y a].
      * exists EmptyString, s. simpl in H. split; [reflexivity|]. split; [reflexivity|exact H].
      * destruct (IH (y :: a) b H) as (s1 & s2 & -> & H1 & H2); try congruence.
        exists (String "." s1), s2. split; [reflexivity|]. simpl. rewrite H1. auto.
    + destruct (split_dot s) as [|h t] eqn:Es; [now apply split_dot_nonnil in Es|].
      destruct a as [|x a]; [congruence|]. simpl in H. injection H as <- H. subst t.
      destruct (IH (h :: a) b eq_refl) as (s1 & s2 & -> & H1 & H2); try congruence.
      exists (String c s1), s2. split; [reflexivity|]. split; [|exact H2].
      simpl. rewrite E, H1. reflexivity.
Qed.

Lemma prefix_app p r : String.prefix p (String.append p r) = true.
Proof.
  induction p as [|c p IH]; simpl; [now destruct r|].
  destruct (ascii_dec c c); congruence.
Qed.

Lemma prefix_exists p : forall q, String.prefix p q = true -> exists r, q = String.append p r.
Proof.
  induction p as [|c p IH]; intros q H; [now exists q|].
  destruct q as [|c' q]; simpl in H; [discriminate|].
  destruct (ascii_dec c c'); [|discriminate]. subst. destruct (IH q H) as [r ->].
  now exists r.
Qed.

Lemma append_assoc a b c : String.append (String.append a b) c = String.append a (String.append b c).
Proof. induction a; simpl; congruence. Qed.

Lemma below_iff p q : below p q = true <-> exists l, l <> [] /\ split_dot q = split_dot p ++ l.
Proof.
  unfold below. split.
  - intros H. apply prefix_exists in H. destruct H as [r ->].
    exists (split_dot r). split; [apply split_dot_nonnil|].
    rewrite append_assoc. apply split_app.
  - intros [l [Hl H]].
    destruct (split_cut q _ _ H (split_dot_nonnil p) Hl) as (s1 & s2 & -> & H1 & H2).
    apply split_inj in H1; subst.
    replace (String.append p (String "." s2))
      with (String.append (String.append p ".") s2) by (now rewrite append_assoc).
    apply prefix_app.
Qed.

Section P.
Context {V : Type}.
Implicit Types (t : tree V) (ps qs : list string).

(* ---------- what a tree says at a list of path parts ---------- *)
Inductive view_t := VOpt (v d : V) | VCat | VNone.

Fixpoint view t ps : view_t :=
  match ps with
  | [] => VCat
  | p :: rest => match child t p with
                 | None => VNone
                 | Some (Opt v d) => match rest with [] => VOpt v d | _ => VNone end
                 | Some (Cat ch) => view ch rest
                 end
  end.

Lemma child_set_eq t k n : child (set_child t k n) k = Some n.
Proof.
  induction t as [|[k' n'] r IH]; simpl; [now rewrite String.eqb_refl|].
  destruct (String.eqb k' k) eqn:E; simpl; rewrite E; auto.
Qed.

Lemma child_set_neq t k k' n : k <> k' -> child (set_child t k n) k' = child t k'.
Proof.
  intros N. induction t as [|[k0 n0] r IH]; simpl.
  - apply String.eqb_neq in N. now rewrite N.
  - destruct (String.eqb k0 k) eqn:E; simpl.
    + apply String.eqb_eq in E; subst. apply String.eqb_neq in N. now rewrite N.
    + destruct (String.eqb k0 k'); auto.
Qed.

Lemma set_parts_cons t p q rest v : set_parts t (p :: q :: rest) v =
  match child t p with
  | Some (Cat ch') => match set_parts ch' (q :: rest) v with
                      | inl ch'' => inl (set_child t p (Cat ch''))
                      | inr e => inr e
                      end
  | _ => inr InvalidOption
  end.
Proof. reflexivity. Qed.

Lemma add_parts_cons t p q rest d : add_parts t (p :: q :: rest) d =
  match child t p with
  | None => match add_parts [] (q :: rest) d with
            | inl ch'' => inl (set_child t p (Cat ch''))
            | inr e => inr e
            end
  | Some (Cat ch') =>
      match add_parts ch' (q :: rest) d with
      | inl ch'' => inl (set_child t p (Cat ch''))
      | inr e => inr e
      end
  | Some (Opt _ _) => inr ValueErr
  end.
Proof. reflexivity. Qed.

Lemma view_cons t p rest : view t (p :: rest) =
  match child t p with
  | None => VNone
  | Some (Opt v d) => match rest with [] => VOpt v d | _ => VNone end
  | Some (Cat ch) => view ch rest
  end.
Proof. reflexivity. Qed.

Lemma get_parts_view : forall ps t, ps <> [] ->
  get_parts t ps = match view t ps with VOpt v _ => inl v | _ => inr InvalidOption end.
Proof.
  induction ps as [|p rest IH]; intros t H; [congruence|].
  destruct rest as [|q rest].
  - simpl. destruct (child t p) as [[v d|ch]|]; reflexivity.
  - cbn [get_parts]. rewrite !view_cons. destruct (child t p) as [[v d|ch]|]; try reflexivity.
    apply IH. discriminate.
Qed.

Lemma attr_set_eq : forall ps t v, attr_set t ps v = set_parts t ps v.
Proof.
  induction ps as [|p rest IH]; intros t v; [reflexivity|].
  destruct rest as [|q rest].
  - simpl. destruct (child t p) as [[v0 d|ch]|]; reflexivity.
  - cbn [attr_set]. cbn [set_parts]. destruct (child t p) as [[v0 d|ch]|]; reflexivity.
Qed.

Lemma set_parts_spec : forall ps t v, ps <> [] ->
  match view t ps with
  | VOpt v0 d => exists t', set_parts t ps v = inl t' /\ view t' ps = VOpt v d /\
                   (forall qs, qs <> ps -> view t' qs = view t qs)
  | _ => set_parts t ps v = inr InvalidOption
  end.
Proof.
  induction ps as [|p rest IH]; intros t v H; [congruence|].
  destruct rest as [|q rest].
  - simpl. destruct (child t p) as [[v0 d|ch]|] eqn:E; try reflexivity.
    exists (set_child t p (Opt v d)). split; [reflexivity|]. split.
    + now rewrite child_set_eq.
    + intros qs N. destruct qs as [|k qs]; [reflexivity|]. rewrite !view_cons.
      destruct (string_dec p k) as [->|Nk].
      * rewrite child_set_eq, E. destruct qs; [congruence|reflexivity].
      * now rewrite child_set_neq.
  - rewrite set_parts_cons, (view_cons t p). destruct (child t p) as [[v0 d|ch]|] eqn:E; try reflexivity.
    specialize (IH ch v ltac:(discriminate)).
    destruct (view ch (q :: rest)) as [v0 d| |]; [|now rewrite IH|now rewrite IH].
    destruct IH as (ch' & -> & IH1 & IH2).
    exists (set_child t p (Cat ch')). split; [reflexivity|]. split.
    + now rewrite view_cons, child_set_eq.
    + intros qs N. destruct qs as [|k qs]; [reflexivity|]. rewrite !view_cons.
      destruct (string_dec p k) as [->|Nk].
      * rewrite child_set_eq, E. apply IH2. congruence.
      * now rewrite child_set_neq.
Qed.

Lemma child_reset t k :
  child (map (fun e => (fst e, reset_node (snd e))) t) k = option_map reset_node (child t k).
Proof.
  induction t as [|[k' n] r IH]; simpl; [reflexivity|].
  destruct (String.eqb k' k); auto.
Qed.

Lemma view_reset : forall ps t,
  view (reset_all t) ps = match view t ps with VOpt _ d => VOpt d d | w => w end.
Proof.
  unfold reset_all.
  induction ps as [|p rest IH]; intros t; [reflexivity|]. rewrite !view_cons.
  rewrite child_reset. destruct (child t p) as [[v d|ch]|]; simpl; [|apply IH|reflexivity].
  destruct rest; reflexivity.
Qed.

(* strict prefixes *)
Definition sprefix ps qs : Prop := exists l, l <> [] /\ qs = ps ++ l.

Lemma view_empty ps : ps <> [] -> view [] ps = VNone.
Proof. destruct ps; [congruence|reflexivity]. Qed.

Lemma add_parts_spec : forall ps t d, ps <> [] ->
  (view t ps = VCat \/ (exists qs v0 d0, sprefix qs ps /\ view t qs = VOpt v0 d0)
   -> add_parts t ps d = inr ValueErr) /\
  (view t ps <> VCat -> (forall qs v0 d0, sprefix qs ps -> view t qs <> VOpt v0 d0) ->
   exists t', add_parts t ps d = inl t' /\ view t' ps = VOpt d d /\
     (forall qs, qs <> ps -> sprefix qs ps -> view t' qs = VCat) /\
     (forall qs, qs <> ps -> ~ sprefix qs ps -> view t' qs = view t qs)).
Proof.
  induction ps as [|p rest IH]; intros t d H; [congruence|].
  destruct rest as [|q rest].
  - split.
    + intros [Hc|(qs & v0 & d0 & (l & Hl & E) & Hv)].
      * simpl in *. destruct (child t p) as [[v1 d1|ch]|]; try discriminate. reflexivity.
      * destruct qs as [|k qs]; [discriminate Hv|].
        destruct qs; [|discriminate E]. simpl in E. injection E as _ E. congruence.
    + intros Hc _. simpl in *.
      assert (Ha : exists t', t' = set_child t p (Opt d d) /\
        match child t p with Some (Cat _) => inr ValueErr
        | _ => inl (set_child t p (Opt d d)) end = inl (B:=oerr) t').
      { destruct (child t p) as [[v1 d1|ch]|]; [eauto|congruence|eauto]. }
      destruct Ha as (t' & -> & Ha). exists (set_child t p (Opt d d)).
      split; [exact Ha|]. split; [now rewrite child_set_eq|]. split.
      * intros qs N (l & Hl & E). destruct qs as [|k qs]; [reflexivity|].
        destruct qs; [|discriminate E]. simpl in E. injection E as _ E. congruence.
      * intros qs N NS. destruct qs as [|k qs].
        { exfalso. apply NS. exists [p]. split; [discriminate|reflexivity]. }
        rewrite !view_cons. destruct (string_dec p k) as [->|Nk]; [|now rewrite child_set_neq].
        rewrite child_set_eq. destruct qs as [|k' qs]; [congruence|].
        destruct (child t k) as [[v1 d1|ch]|]; [reflexivity|congruence|reflexivity].
  - assert (Hne : q :: rest <> []) by discriminate.
    rewrite add_parts_cons, (view_cons t p).
    destruct (child t p) as [[v1 d1|ch]|] eqn:E.
    + split; [reflexivity|]. intros _ NP. exfalso.
      apply (NP [p] v1 d1).
      * exists (q :: rest). split; [discriminate|reflexivity].
      * simpl. now rewrite E.
    + destruct (IH ch d Hne) as [IH1 IH2]. split.
      * intros Hcase. rewrite IH1; [reflexivity|].
        destruct Hcase as [Hc|(qs & v0 & d0 & (l & Hl & El) & Hv)]; [now left|right].
        destruct qs as [|k qs]; [discriminate Hv|]. simpl in El. injection El as <- El.
        exists qs, v0, d0. split; [exists l; auto|]. simpl in Hv. rewrite E in Hv. exact Hv.
      * intros Hc NP. destruct (IH2 Hc) as (ch' & -> & A1 & A2 & A3).
        { intros qs v0 d0 (l & Hl & El) Hv. apply (NP (p :: qs) v0 d0).
          - exists l. split; [exact Hl|]. simpl. now rewrite El.
          - rewrite !view_cons. now rewrite E. }
        exists (set_child t p (Cat ch')). split; [reflexivity|].
        split; [now rewrite view_cons, child_set_eq|]. split.
        -- intros qs N (l & Hl & El). destruct qs as [|k qs]; [reflexivity|].
           simpl in El. injection El as <- El. rewrite !view_cons. rewrite child_set_eq.
           apply A2; [congruence|]. exists l; auto.
        -- intros qs N NS. destruct qs as [|k qs]; [reflexivity|]. rewrite !view_cons.
           destruct (string_dec p k) as [->|Nk]; [|now rewrite child_set_neq].
           rewrite child_set_eq, E. apply A3; [congruence|].
           intros (l & Hl & El). apply NS. exists l. split; [exact Hl|]. simpl. now rewrite El.
    + destruct (IH [] d Hne) as [_ IH2]. split.
      * intros [Hc|(qs & v0 & d0 & (l & Hl & El) & Hv)]; [discriminate|].
        destruct qs as [|k qs]; [discriminate Hv|]. simpl in El. injection El as <- El.
        simpl in Hv. rewrite E in Hv. discriminate.
      * intros _ _. destruct IH2 as (ch' & -> & A1 & A2 & A3).
        { now rewrite view_empty. }
        { intros qs v0 d0 _. destruct qs; [discriminate|]. now rewrite view_empty. }
        exists (set_child t p (Cat ch')). split; [reflexivity|].
        split; [now rewrite view_cons, child_set_eq|]. split.
        -- intros qs N (l & Hl & El). destruct qs as [|k qs]; [reflexivity|].
           simpl in El. injection El as <- El. rewrite !view_cons. rewrite child_set_eq.
           apply A2; [congruence|]. exists l; auto.
        -- intros qs N NS. destruct qs as [|k qs]; [reflexivity|]. rewrite !view_cons.
           destruct (string_dec p k) as [->|Nk]; [|now rewrite child_set_neq].
           rewrite child_set_eq, E.
           destruct qs as [|k' qs].
           { exfalso. apply NS. exists (q :: rest). split; [discriminate|reflexivity]. }
           rewrite A3; [reflexivity|congruence|].
           intros (l & Hl & El). apply NS. exists l. split; [exact Hl|]. simpl. now rewrite El.
Qed.

(* ---------- refinement to the flat map ---------- *)
Definition R t (m : flat V) : Prop :=
  forall s, (forall v d, view t (split_dot s) = VOpt v d <-> dget m s = Some (v, d)) /\
            (view t (split_dot s) = VCat <-> exists q, In q (dkeys m) /\ below s q = true).

Lemma dget_map (f : V * V -> V * V) (m : flat V) s :
  dget (map (fun e => (fst e, f (snd e))) m) s = option_map f (dget m s).
Proof. induction m as [|[k x] r IH]; simpl; [reflexivity|]. destruct (String.eqb k s); auto. Qed.

Lemma dkeys_map (f : V * V -> V * V) (m : flat V) :
  dkeys (map (fun e => (fst e, f (snd e))) m) = dkeys m.
Proof. unfold dkeys. rewrite map_map. reflexivity. Qed.

Lemma R_nil : R [] [].
Proof.
  intros s. rewrite view_empty by apply split_dot_nonnil. split.
  - intros; split; discriminate.
  - split; [discriminate|]. intros (q & [] & _).
Qed.

Lemma sprefix_below s q : sprefix (split_dot s) (split_dot q) <-> below s q = true.
Proof. rewrite below_iff. unfold sprefix. tauto. Qed.

Lemma sprefix_split qs s : qs <> [] -> sprefix qs (split_dot s) -> exists q, split_dot q = qs.
Proof.
  intros N (l & Hl & E). destruct (split_cut _ _ _ E N Hl) as (s1 & s2 & _ & H & _). eauto.
Qed.

Lemma below_irrefl s : below s s = false.
Proof.
  destruct (below s s) eqn:E; [|reflexivity].
  apply below_iff in E. destruct E as (l & Hl & E).
  rewrite <- (app_nil_r (split_dot s)) in E at 1. apply app_inv_head in E. congruence.
Qed.

Lemma In_dkeys_dset (m : flat V) p x q : In q (dkeys (dset m p x)) <-> q = p \/ In q (dkeys m).
Proof.
  destruct (in_dec string_dec p (dkeys m)) as [H|H].
  - rewrite dkeys_dset_in by exact H. split; [tauto|]. intros [->|]; auto.
  - rewrite dkeys_dset_notin by exact H. rewrite in_app_iff. simpl. intuition.
Qed.

Lemma R_set t m p v v0 d t' :
  R t m -> dget m p = Some (v0, d) ->
  view t' (split_dot p) = VOpt v d ->
  (forall qs, qs <> split_dot p -> view t' qs = view t qs) ->
  R t' (dset m p (v, d)).
Proof.
  intros HR Hp H1 H2 s. destruct (HR s) as [HRo HRc].
  assert (Hin : In p (dkeys m)) by (eapply dget_Some_keys; eauto).
  destruct (string_dec p s) as [->|N].
  - split.
    + intros v1 d1. rewrite H1, dget_dset_eq. split; intros E; injection E as -> ->; reflexivity.
    + rewrite H1, dkeys_dset_in by exact Hin. split; [discriminate|]. intros Hq.
      apply HRc in Hq. apply HRo in Hp. congruence.
  - assert (Ns : split_dot s <> split_dot p) by (intros E; apply N; symmetry; now apply split_inj).
    rewrite (H2 _ Ns). split.
    + intros v1 d1. rewrite dget_dset_neq by exact N. apply HRo.
    + rewrite dkeys_dset_in by exact Hin. exact HRc.
Qed.

Lemma clash_false_iff (m : flat V) p :
  clash m p = false <-> forall q, In q (dkeys m) -> below p q = false /\ below q p = false.
Proof.
  unfold clash. split.
  - intros H q Hq. destruct (below p q || below q p) eqn:E.
    + assert (existsb (fun q => below p q || below q p) (dkeys m) = true)
        by (apply existsb_exists; eauto). congruence.
    + now apply orb_false_iff in E.
  - intros H. destruct (existsb _ _) eqn:E; [|reflexivity].
    apply existsb_exists in E. destruct E as (q & Hq & E). destruct (H q Hq) as [H1 H2].
    rewrite H1, H2 in E. discriminate.
Qed.

Lemma clash_true_iff (m : flat V) p :
  clash m p = true <-> exists q, In q (dkeys m) /\ (below p q = true \/ below q p = true).
Proof.
  unfold clash. rewrite existsb_exists. split; intros (q & Hq & E); exists q; split; auto.
  - now apply orb_true_iff.
  - now apply orb_true_iff.
Qed.

Lemma step_refines t m o : R t m ->
  R (fst (step t o)) (fst (flat_step m o)) /\
  snd (step t o) = snd (flat_step m o) /\
  (snd (step t o) <> None -> fst (step t o) = t).
Proof.
  intros HR.
  assert (HS : forall p v, let r := commit t (set_parts t (split_dot p) v) in
    let r' := match dget m p with
              | Some (_, d) => (dset m p (v, d), None)
              | None => (m, Some InvalidOption)
              end in
    R (fst r) (fst r') /\ snd r = snd r' /\ (snd r <> None -> fst r = t)).
  { intros p v. pose proof (set_parts_spec (split_dot p) t v (split_dot_nonnil p)) as H.
    destruct (HR p) as [HRo HRc]. cbv zeta.
    destruct (view t (split_dot p)) as [v0 d| |] eqn:E.
    - destruct H as (t' & -> & H1 & H2).
      assert (Hm : dget m p = Some (v0, d)) by (now apply HRo). rewrite Hm. simpl.
      split; [eapply R_set; eauto|]. split; [reflexivity|congruence].
    - rewrite H. destruct (dget m p) as [[v0 d]|] eqn:Em.
      + assert (VCat = VOpt v0 d) by (now apply HRo). discriminate.
      + simpl. auto.
    - rewrite H. destruct (dget m p) as [[v0 d]|] eqn:Em.
      + assert (VNone = VOpt v0 d) by (now apply HRo). discriminate.
      + simpl. auto. }
  destruct o as [p v|p v| |p d].
  - apply HS.
  - simpl. rewrite attr_set_eq. apply HS.
  - simpl. split; [|split; [reflexivity|congruence]].
    intros s. rewrite view_reset. destruct (HR s) as [HRo HRc]. split.
    + intros v d. rewrite (dget_map (fun x => (snd x, snd x))).
      destruct (view t (split_dot s)) as [v0 d0| |] eqn:E.
      * assert (Hm : dget m s = Some (v0, d0)) by (now apply HRo). rewrite Hm. simpl.
        split; intros X; injection X as -> ->; reflexivity.
      * split; [discriminate|]. destruct (dget m s) as [[v0 d0]|] eqn:Em; [|discriminate].
        assert (VCat = VOpt v0 d0) by (now apply HRo). discriminate.
      * split; [discriminate|]. destruct (dget m s) as [[v0 d0]|] eqn:Em; [|discriminate].
        assert (VNone = VOpt v0 d0) by (now apply HRo). discriminate.
    + rewrite (dkeys_map (fun x => (snd x, snd x))). rewrite <- HRc.
      destruct (view t (split_dot s)); split; congruence.
  - simpl. unfold add_option.
    destruct (add_parts_spec (split_dot p) t d (split_dot_nonnil p)) as [HE HO].
    destruct (clash m p) eqn:Ec.
    + apply clash_true_iff in Ec. destruct Ec as (q & Hq & Hb).
      rewrite HE; [simpl; auto|]. destruct Hb as [Hb|Hb].
      * left. apply HR. eauto.
      * right. apply dget_keys_Some in Hq. destruct Hq as [[v0 d0] Hq].
        exists (split_dot q), v0, d0. split; [now apply sprefix_below|]. now apply HR.
    + rewrite clash_false_iff in Ec.
      destruct HO as (t' & -> & A1 & A2 & A3).
      { intros Hc. apply HR in Hc. destruct Hc as (q & Hq & Hb). destruct (Ec q Hq). congruence. }
      { intros qs v0 d0 Hs Hv.
        destruct qs as [|k qs]; [discriminate|].
        destruct (sprefix_split (k :: qs) p ltac:(discriminate) Hs) as [q Eq].
        rewrite <- Eq in Hs, Hv. apply sprefix_below in Hs. apply HR in Hv.
        apply dget_Some_keys in Hv. destruct (Ec q Hv). congruence. }
      simpl. split; [|split; [reflexivity|congruence]].
      intros s. destruct (HR s) as [HRo HRc].
      destruct (string_dec p s) as [->|N].
      * rewrite A1. split.
        -- intros v1 d1. rewrite dget_dset_eq. split; intros X; injection X as -> ->; reflexivity.
        -- split; [discriminate|]. intros (q & Hq & Hb). apply In_dkeys_dset in Hq.
           destruct Hq as [->|Hq].
           ++ rewrite below_irrefl in Hb. discriminate.
           ++ destruct (Ec q Hq). congruence.
      * assert (Ns : split_dot s <> split_dot p) by (intros E; apply N; symmetry; now apply split_inj).
        destruct (below s p) eqn:Eb.
        -- rewrite (A2 _ Ns) by (now apply sprefix_below). split.
           ++ intros v1 d1. rewrite dget_dset_neq by exact N. split; [discriminate|].
              intros Hm. apply dget_Some_keys in Hm. destruct (Ec s Hm). congruence.
           ++ split; [|reflexivity]. intros _. exists p. rewrite In_dkeys_dset. auto.
        -- rewrite (A3 _ Ns) by (rewrite sprefix_below; congruence). split.
           ++ intros v1 d1. rewrite dget_dset_neq by exact N. apply HRo.
           ++ rewrite HRc. split; intros (q & Hq & Hb); exists q; split; auto.
              ** apply In_dkeys_dset. now right.
              ** apply In_dkeys_dset in Hq. destruct Hq as [->|Hq]; [congruence|exact Hq].
Qed.

Lemma run_refines (h : list (op V)) : R (run [] h) (flat_run h).
Proof.
  unfold run, flat_run. generalize R_nil. generalize (@nil (string * node V)) (@nil (string * (V * V))).
  induction h as [|o h IH]; intros t m HR; simpl; [exact HR|].
  apply IH. now apply step_refines.
Qed.

Lemma get_option_flat t m p : R t m ->
  get_option t p = match dget m p with Some (v, _) => inl v | None => inr InvalidOption end.
Proof.
  intros HR. unfold get_option. rewrite get_parts_view by apply split_dot_nonnil.
  destruct (HR p) as [HRo _].
  destruct (view t (split_dot p)) as [v d| |] eqn:E.
  - assert (H : dget m p = Some (v, d)) by (now apply HRo). now rewrite H.
  - destruct (dget m p) as [[v d]|] eqn:Em; [|reflexivity].
    assert (VCat = VOpt v d) by (now apply HRo). discriminate.
  - destruct (dget m p) as [[v d]|] eqn:Em; [|reflexivity].
    assert (VNone = VOpt v d) by (now apply HRo). discriminate.
Qed.

Lemma options_refine (h : list (op V)) p :
  get_option (run [] h) p =
  match dget (flat_run h) p with Some (v, _) => inl v | None => inr InvalidOption end.
Proof. apply get_option_flat, run_refines. Qed.

Lemma options_outcome (h : list (op V)) o :
  snd (step (run [] h) o) = snd (flat_step (flat_run h) o) /\
  (snd (step (run [] h) o) <> None -> fst (step (run [] h) o) = run [] h).
Proof.
  destruct (step_refines _ _ o (run_refines h)) as (_ & H1 & H2). auto.
Qed.

Lemma options_last_write (h0 h : list (op V)) p v0 d :
  only_writes h -> get_option (run [] h0) p = inl v0 ->
  get_option (reset_all (run [] h0)) p = inl d ->
  get_option (run (run [] h0) h) p = inl (last_write v0 d (rev h) p).
Proof.
  intros Hw Hv Hd.
  set (t0 := run [] h0) in *.
  assert (Hview : view t0 (split_dot p) = VOpt v0 d).
  { unfold get_option in Hv, Hd. rewrite get_parts_view in Hv, Hd by apply split_dot_nonnil.
    rewrite view_reset in Hd. destruct (view t0 (split_dot p)) as [a b| |]; try discriminate.
    now injection Hv as ->; injection Hd as ->. }
  assert (Hw' : only_writes (rev h)).
  { unfold only_writes in *. rewrite Forall_forall in *. intros o Ho. apply Hw. now apply in_rev. }
  clear Hw Hv Hd. unfold run at 1.
  rewrite <- (fold_left_rev_right (fun o t => fst (step t o))).
  cut (view (fold_right (fun (y : op V) (x : tree V) => fst (step x y)) t0 (rev h)) (split_dot p)
       = VOpt (last_write v0 d (rev h) p) d).
  { intros H. unfold get_option. rewrite get_parts_view by apply split_dot_nonnil. now rewrite H. }
  induction (rev h) as [|o h' IH]; simpl; [exact Hview|].
  inversion Hw' as [|? ? Ho Hw'']; subst. specialize (IH Hw'').
  set (t := fold_right _ t0 h') in *.
  assert (HS : forall q v, view (fst (commit t (set_parts t (split_dot q) v))) (split_dot p)
     = VOpt (if String.eqb q p then v else last_write v0 d h' p) d).
  { intros q v. pose proof (set_parts_spec (split_dot q) t v (split_dot_nonnil q)) as H.
    destruct (String.eqb q p) eqn:E.
    - apply String.eqb_eq in E; subst q. rewrite IH in H.
      destruct H as (t' & -> & H1 & _). exact H1.
    - apply String.eqb_neq in E.
      assert (Ns : split_dot p <> split_dot q) by (intros X; apply E; symmetry; now apply split_inj).
      destruct (view t (split_dot q)).
      + destruct H as (t' & -> & _ & H2). simpl. now rewrite H2.
      + rewrite H. exact IH.
      + rewrite H. exact IH. }
  destruct o as [q v|q v| |q v]; [apply HS| |simpl; rewrite view_reset, IH; reflexivity|contradiction].
  simpl. rewrite attr_set_eq. apply HS.
Qed.

(* ---------- option_context ---------- *)
Variable as_str : V -> option string.

Lemma get_set t p v v0 : get_option t p = inl v0 ->
  exists t', set_option t p v = inl t' /\ get_option t' p = inl v /\
    forall q, q <> p -> get_option t' q = get_option t q.
Proof.
  unfold get_option, set_option. intros H.
  rewrite get_parts_view in H by apply split_dot_nonnil.
  pose proof (set_parts_spec (split_dot p) t v (split_dot_nonnil p)) as HS.
  destruct (view t (split_dot p)) as [a b| |]; try discriminate.
  destruct HS as (t' & H1 & H2 & H3). exists t'. split; [exact H1|]. split.
  - rewrite get_parts_view by apply split_dot_nonnil. now rewrite H2.
  - intros q N. rewrite !get_parts_view by apply split_dot_nonnil. rewrite H3; [reflexivity|].
    intros X. apply N. now apply split_inj.
Qed.



Lemma values_for_snoc n (l : list (string * V)) m v :
  values_for n (l ++ [(m, v)]) = if String.eqb m n then v :: values_for n l else values_for n l.
Proof.
  unfold values_for. rewrite filter_app, map_app, rev_app_distr. simpl.
  destruct (String.eqb m n); reflexivity.
Qed.

Lemma values_for_notin n (l : list (string * V)) : ~ In n (map fst l) <-> values_for n l = [].
Proof.
  unfold values_for. split.
  - intros H. destruct (filter _ l) as [|[a b] r] eqn:E; [reflexivity|].
    assert (X : In (a, b) (filter (fun e => String.eqb (fst e) n) l)) by (rewrite E; now left).
    apply filter_In in X. destruct X as [X Y]. apply String.eqb_eq in Y. simpl in Y. subst.
    exfalso. apply H. now apply (in_map fst) in X.
  - intros H X. apply in_map_iff in X. destruct X as ((a & b) & <- & X).
    apply (f_equal (@rev V)) in H. rewrite rev_involutive in H. simpl in H.
    apply map_eq_nil in H.
    assert (Y : In (a, b) (filter (fun e => String.eqb (fst e) a) l))
      by (apply filter_In; simpl; rewrite String.eqb_refl; auto).
    simpl in H. rewrite H in Y. contradiction.
Qed.


(* invariant of the entering loop after the pairs `done` have been processed *)
Definition entered t0 t (orig : dict V) (done : list (string * V)) : Prop :=
  (forall n, get_option t n = newest n done (get_option t0 n)) /\
  (forall n v, dget orig n = Some v <-> (In n (map fst done) /\ saved t0 n done = inl v)) /\
  NoDup (dkeys orig) /\
  (forall n, In n (map fst done) -> registered t0 n).

Lemma entered_nil t : entered t t [] [].
Proof.
  split; [reflexivity|]. split; [|split; [constructor|intros n []]].
  intros n v. simpl. split; [discriminate|]. intros [[] _].
Qed.

Lemma entered_snoc t0 t orig done n v v0 t' :
  entered t0 t orig done -> get_option t n = inl v0 ->
  get_option t' n = inl v -> (forall q, q <> n -> get_option t' q = get_option t q) ->
  entered t0 t' (dset orig n v0) (done ++ [(n, v)]).
Proof.
  intros (E1 & E2 & E3 & E4) Hg H1 H2.
  assert (Hreg : registered t0 n).
  { rewrite E1 in Hg. unfold newest in Hg. destruct (values_for n done) eqn:Ev.
    - now exists v0.
    - apply E4. destruct (in_dec string_dec n (map fst done)) as [Hi|Hi]; [exact Hi|].
      apply values_for_notin in Hi. congruence. }
  split; [|split; [|split]].
  - intros m. unfold newest. rewrite values_for_snoc. destruct (String.eqb n m) eqn:E.
    + apply String.eqb_eq in E; subst. exact H1.
    + apply String.eqb_neq in E. rewrite H2 by congruence. apply E1.
  - intros m w. rewrite map_app, in_app_iff. simpl. unfold saved. rewrite values_for_snoc.
    destruct (string_dec n m) as [->|N].
    + rewrite dget_dset_eq, String.eqb_refl. rewrite E1 in Hg. unfold newest in Hg.
      destruct (values_for m done) as [|x l] eqn:Ev.
      * split; intros X.
        -- injection X as <-. split; [auto|exact Hg].
        -- destruct X as [_ X]. congruence.
      * injection Hg as ->. split; intros X; [injection X as <-; auto|].
        destruct X as [_ X]. now injection X as ->.
    + rewrite dget_dset_neq by exact N. apply String.eqb_neq in N as N'. rewrite N'.
      rewrite E2. unfold saved. split; intros [X Y]; split; auto.
      destruct X as [X|[X|[]]]; [exact X|congruence].
  - now apply NoDup_dset.
  - intros m. rewrite map_app, in_app_iff. simpl. intros [X|[<-|[]]]; auto.
Qed.

Lemma enter_spec : forall pairs t0 t orig done,
  entered t0 t orig done ->
  let names := map (fun p => as_str (fst p)) pairs in
  match enter as_str t orig pairs with
  | (t1, orig1, None) =>
      Forall (fun o => exists n, o = Some n /\ registered t0 n) names /\
      entered t0 t1 orig1 (done ++ given as_str pairs)
  | (t1, orig1, Some e) =>
      e = InvalidOption /\
      ~ Forall (fun o => exists n, o = Some n /\ registered t0 n) names /\
      exists done', entered t0 t1 orig1 done'
  end.
Proof.
  induction pairs as [|[nv v] pairs IH]; intros t0 t orig done He; simpl.
  - rewrite app_nil_r. auto.
  - destruct (as_str nv) as [n|] eqn:En.
    + assert (Hsame : forall e, get_option t n = inr e -> ~ registered t0 n /\ e = InvalidOption).
      { intros e Hg. split.
        - intros [w Hw]. rewrite (proj1 He) in Hg. unfold newest in Hg.
          destruct (values_for n done); congruence.
        - unfold get_option in Hg. rewrite get_parts_view in Hg by apply split_dot_nonnil.
          destruct (view t (split_dot n)); congruence. }
      destruct (get_option t n) as [v0|e] eqn:Eg.
      * destruct (get_set t n v v0 Eg) as (t' & -> & H1 & H2).
        pose proof (entered_snoc _ _ _ _ n v v0 t' He Eg H1 H2) as He'.
        specialize (IH t0 t' _ _ He').
        assert (Hreg : registered t0 n).
        { apply (proj2 (proj2 (proj2 He'))). rewrite map_app, in_app_iff. simpl. auto. }
        destruct (enter as_str t' (dset orig n v0) pairs) as [[t1 orig1] [e|]].
        -- destruct IH as (-> & IH1 & IH2). split; [reflexivity|]. split; [|exact IH2].
           intros F. inversion F; subst. auto.
        -- destruct IH as (IH1 & IH2). split; [constructor; eauto|].
           rewrite <- app_assoc in IH2. exact IH2.
      * destruct (Hsame e eq_refl) as [Hn ->]. split; [reflexivity|]. split; [|eauto].
        intros F. inversion F as [|? ? (m & Em & Hm) _]; subst. injection Em as <-. contradiction.
    + split; [reflexivity|]. split; [|eauto].
      intros F. inversion F as [|? ? (m & Em & Hm) _]; subst. discriminate.
Qed.

Lemma restore_spec : forall orig t, NoDup (dkeys orig) ->
  (forall n, In n (dkeys orig) -> registered t n) ->
  exists t', restore t orig = (t', None) /\
    forall n, get_option t' n = match dget orig n with Some v => inl v | None => get_option t n end.
Proof.
  induction orig as [|[n v] orig IH]; intros t ND Hr; simpl.
  - eauto.
  - inversion ND as [|? ? NI ND']; subst.
    destruct (Hr n) as [v0 Hv0]; [now left|].
    destruct (get_set t n v v0 Hv0) as (t' & -> & H1 & H2).
    destruct (IH t' ND') as (t'' & -> & H3).
    { intros m Hm. destruct (Hr m) as [w Hw]; [now right|]. exists w.
      rewrite H2; [exact Hw|]. intros ->. contradiction. }
    exists t''. split; [reflexivity|]. intros m. rewrite H3.
    destruct (String.eqb n m) eqn:E.
    + apply String.eqb_eq in E; subst. apply dget_None_keys in NI. now rewrite NI.
    + apply String.eqb_neq in E. destruct (dget orig m); [reflexivity|]. now rewrite H2 by congruence.
Qed.


Lemma context_general t args pairs body :
  pair_up args = Some pairs -> keeps_options body ->
  let names := map (fun p => as_str (fst p)) pairs in
  let '(t', out) := option_context as_str t args body in
  (Forall (fun o => exists n, o = Some n /\ registered t n) names /\
   exists t1, (forall n, get_option t1 n = newest n (given as_str pairs) (get_option t n)) /\
     out = snd (body t1) /\
     forall n, get_option t' n =
       (if in_dec string_dec n (map fst (given as_str pairs))
        then saved t n (given as_str pairs) else get_option (fst (body t1)) n))
  \/
  (~ Forall (fun o => exists n, o = Some n /\ registered t n) names /\ out = Some InvalidOption).
Proof.
  intros Hp Hk names. unfold option_context. rewrite Hp. unfold with_pairs.
  pose proof (enter_spec pairs t t [] [] (entered_nil t)) as H.
  destruct (enter as_str t [] pairs) as [[t1 orig] [e|]].
  - cbv zeta in H. destruct H as (-> & H1 & (done & E1 & E2 & E3 & E4)).
    destruct (restore_spec orig t1 E3) as (t3 & -> & _).
    { intros n Hn. apply dget_keys_Some in Hn. destruct Hn as [v Hn]. apply E2 in Hn.
      destruct Hn as [Hn _]. destruct (E4 n Hn) as [w Hw]. unfold registered. rewrite E1.
      unfold newest. destruct (values_for n done); eauto. }
    right. auto.
  - cbv zeta in H. destruct H as (H1 & (E1 & E2 & E3 & E4)). simpl in E1, E2, E4.
    destruct (body t1) as [t2 out] eqn:Eb.
    destruct (restore_spec orig t2 E3) as (t3 & -> & H3).
    { intros n Hn. apply dget_keys_Some in Hn. destruct Hn as [v Hn]. apply E2 in Hn.
      destruct Hn as [Hn _]. replace t2 with (fst (body t1)) by (now rewrite Eb). apply Hk.
      destruct (E4 n Hn) as [w Hw]. unfold registered. rewrite E1. unfold newest.
      destruct (values_for n _); eauto. }
    left. split; [exact H1|]. exists t1. split; [exact E1|]. split; [now rewrite Eb|].
    intros n. rewrite H3, Eb. simpl.
    destruct (in_dec string_dec n (map fst (given as_str pairs))) as [Hi|Hi].
    + assert (Hs : exists v, saved t n (given as_str pairs) = inl v).
      { unfold saved. destruct (values_for n (given as_str pairs)) as [|a [|b l]]; try (now apply E4).
        eauto. }
      destruct Hs as [v Hs]. rewrite Hs.
      assert (X : dget orig n = Some v) by (apply E2; auto). now rewrite X.
    + destruct (dget orig n) as [v|] eqn:Eo; [|reflexivity].
      apply E2 in Eo. tauto.
Qed.

(* on a failed entry everything already changed is put back *)
Lemma NoDup_values n (l : list (string * V)) :
  NoDup (map fst l) -> In n (map fst l) -> exists v, values_for n l = [v].
Proof.
  unfold values_for. induction l as [|[a b] l IH]; simpl; [tauto|].
  intros ND Hin. inversion ND as [|? ? NI ND']; subst.
  destruct (String.eqb a n) eqn:E; simpl.
  - apply String.eqb_eq in E; subst. apply values_for_notin in NI. unfold values_for in NI.
    rewrite NI. simpl. eauto.
  - apply String.eqb_neq in E. destruct Hin as [?|Hin]; [congruence|]. auto.
Qed.

Lemma context_distinct t args pairs body :
  pair_up args = Some pairs -> keeps_options body ->
  NoDup (map fst (given as_str pairs)) ->
  let names := map (fun p => as_str (fst p)) pairs in
  let '(t', out) := option_context as_str t args body in
  (forall n, In n (map fst (given as_str pairs)) -> get_option t' n = get_option t n) /\
  ((Forall (fun o => exists n, o = Some n /\ registered t n) names /\
    exists t1,
      (forall n v, In (n, v) (given as_str pairs) -> get_option t1 n = inl v) /\
      (forall n, ~ In n (map fst (given as_str pairs)) -> get_option t1 n = get_option t n) /\
      out = snd (body t1) /\
      (forall n, ~ In n (map fst (given as_str pairs)) ->
                 get_option t' n = get_option (fst (body t1)) n))
   \/
   (~ Forall (fun o => exists n, o = Some n /\ registered t n) names /\
    out = Some InvalidOption /\ forall n, get_option t' n = get_option t n)).
Proof.
  intros Hp Hk ND names.
  unfold option_context. rewrite Hp. unfold with_pairs.
  (* strengthen: prefix processed is a prefix of given *)
  assert (Hpre : forall pairs t0 t orig done, entered t0 t orig done ->
    forall t1 orig1 e, enter as_str t orig pairs = (t1, orig1, e) ->
    exists l, (exists l', given as_str pairs = l ++ l') /\ entered t0 t1 orig1 (done ++ l)).
  { clear. induction pairs as [|[nv v] pairs IH]; intros t0 t orig done He t1 orig1 e; simpl.
    - intros X; injection X as <- <- <-. exists []. rewrite app_nil_r.
      split; [now exists []|exact He].
    - destruct (as_str nv) as [n|].
      + destruct (get_option t n) as [v0|e0] eqn:Eg.
        * destruct (get_set t n v v0 Eg) as (t' & -> & H1 & H2). intros X.
          destruct (IH t0 _ _ _ (entered_snoc _ _ _ _ n v v0 t' He Eg H1 H2) _ _ _ X)
            as (l & (l' & Hl) & Hent).
          exists ((n, v) :: l). split.
          -- exists l'. simpl. now rewrite Hl.
          -- rewrite <- app_assoc in Hent. exact Hent.
        * intros X; injection X as <- <- <-. exists []. rewrite app_nil_r.
          split; [eexists; reflexivity|exact He].
      + intros X; injection X as <- <- <-. exists []. rewrite app_nil_r.
        split; [eexists; reflexivity|exact He]. }
  destruct (enter as_str t [] pairs) as [[t1 orig] err] eqn:Een.
  destruct (Hpre _ _ _ _ _ (entered_nil t) _ _ _ Een) as (l & (l' & Hl) & (E1 & E2 & E3 & E4)).
  simpl in E1, E2, E4.
  assert (NDl : NoDup (map fst l)).
  { rewrite Hl, map_app in ND. clear -ND. induction (map fst l); simpl in *; [constructor|].
    inversion ND; subst. constructor; auto. rewrite in_app_iff in *. tauto. }
  assert (Hsaved : forall n v, dget orig n = Some v -> get_option t n = inl v).
  { intros n v Hn. apply E2 in Hn. destruct Hn as [Hi Hs]. unfold saved in Hs.
    destruct (NoDup_values n l NDl Hi) as [w Hw]. now rewrite Hw in Hs. }
  assert (Hdom : forall n, In n (map fst l) -> exists v, dget orig n = Some v).
  { intros n Hn. destruct (E4 n Hn) as [v Hv]. exists v. apply E2. split; [exact Hn|].
    unfold saved. destruct (NoDup_values n l NDl Hn) as [w Hw]. now rewrite Hw. }
  pose proof (enter_spec pairs t t [] [] (entered_nil t)) as HEN. rewrite Een in HEN. cbv zeta in HEN.
  destruct err as [e|].
  - destruct HEN as (-> & HNF & _).
    destruct (restore_spec orig t1 E3) as (t3 & -> & H3).
    { intros n Hn. apply dget_keys_Some in Hn. destruct Hn as [v Hn]. apply E2 in Hn.
      destruct Hn as [Hn _]. destruct (E4 n Hn) as [w Hw]. unfold registered. rewrite E1.
      unfold newest. destruct (values_for n l); eauto. }
    assert (Hall : forall n, get_option t3 n = get_option t n).
    { intros n. rewrite H3. destruct (dget orig n) as [v|] eqn:Eo; [symmetry; auto|].
      rewrite E1. unfold newest. destruct (values_for n l) eqn:Ev; [reflexivity|].
      destruct (in_dec string_dec n (map fst l)) as [Hi|Hi].
      - destruct (Hdom n Hi). congruence.
      - apply values_for_notin in Hi. congruence. }
    split; [intros; apply Hall|]. right. auto.
  - destruct HEN as (HF & HE).
    destruct (body t1) as [t2 out] eqn:Eb.
    destruct HE as (G1 & G2 & G3 & G4). simpl in G1, G2, G4.
    assert (Gs : forall n v, dget orig n = Some v -> get_option t n = inl v) by exact Hsaved.
    assert (Gd : forall n, In n (map fst (given as_str pairs)) -> exists v, dget orig n = Some v).
    { intros n Hn. destruct (G4 n Hn) as [v Hv]. exists v. apply G2. split; [exact Hn|].
      unfold saved. destruct (NoDup_values n _ ND Hn) as [w Hw]. now rewrite Hw. }
    destruct (restore_spec orig t2 E3) as (t3 & -> & H3).
    { intros n Hn. apply dget_keys_Some in Hn. destruct Hn as [v Hn].
      replace t2 with (fst (body t1)) by (now rewrite Eb). apply Hk. unfold registered.
      rewrite E1. apply Gs in Hn. unfold newest. destruct (values_for n l); eauto. }
    split.
    + intros n Hn. rewrite H3. destruct (Gd n Hn) as [v Hv]. rewrite Hv. symmetry; auto.
    + left. split; [exact HF|]. exists t1. split; [|split; [|split]].
      * intros n v Hin. rewrite G1. unfold newest.
        destruct (NoDup_values n _ ND (in_map fst _ _ Hin)) as [w Hw]. rewrite Hw. f_equal.
        assert (X : In w (values_for n (given as_str pairs))) by (rewrite Hw; now left).
        unfold values_for in X. rewrite <- in_rev in X. apply in_map_iff in X.
        destruct X as ((a & b) & <- & X). apply filter_In in X. destruct X as [X Y].
        apply String.eqb_eq in Y. simpl in Y. subst a. simpl.
        assert (Z1 := In_dget _ _ _ ND Hin). assert (Z2 := In_dget _ _ _ ND X). congruence.
      * intros n Hn. rewrite G1. unfold newest. apply values_for_notin in Hn. now rewrite Hn.
      * now rewrite Eb.
      * intros n Hn. rewrite H3, Eb. simpl. destruct (dget orig n) as [v|] eqn:Eo; [|reflexivity].
        apply G2 in Eo. tauto.
Qed.

(* every sequence of API calls keeps registered options registered *)
Lemma step_keeps t o n : registered t n -> registered (fst (step t o)) n.
Proof.
  intros [v Hv]. unfold registered, get_option in *.
  rewrite get_parts_view in * by apply split_dot_nonnil.
  assert (HS : forall q w, exists u, match view (fst (commit t (set_parts t (split_dot q) w))) (split_dot n) with
     VOpt x _ => inl x | _ => inr InvalidOption end = inl (B:=oerr) u).
  { intros q w. pose proof (set_parts_spec (split_dot q) t w (split_dot_nonnil q)) as H.
    destruct (view t (split_dot q)) eqn:Ev.
    - destruct H as (t' & -> & H1 & H2). simpl.
      destruct (string_dec q n) as [->|N]; [rewrite H1; eauto|].
      rewrite H2; [eauto|]. intros X. apply N. symmetry. now apply split_inj.
    - rewrite H. simpl. eauto.
    - rewrite H. simpl. eauto. }
  destruct (view t (split_dot n)) as [a b| |] eqn:Ev; try discriminate.
  destruct o as [q w|q w| |q w]; simpl.
  - apply HS.
  - rewrite attr_set_eq. apply HS.
  - rewrite view_reset, Ev. eauto.
  - unfold add_option.
    destruct (add_parts_spec (split_dot q) t w (split_dot_nonnil q)) as [HE HO].
    destruct (add_parts t (split_dot q) w) as [t'|e] eqn:Ea; simpl; [|rewrite Ev; eauto].
    assert (Hc : view t (split_dot q) <> VCat).
    { intros X. discriminate (HE (or_introl X)). }
    assert (Hp : forall qs v0 d0, sprefix qs (split_dot q) -> view t qs <> VOpt v0 d0).
    { intros qs v0 d0 X Y. assert (Z : inl t' = inr (A:=tree V) ValueErr); [|discriminate].
      apply HE. right. eauto 6. }
    destruct (HO Hc Hp) as (t'' & X & A1 & A2 & A3). injection X as <-.
    destruct (string_dec q n) as [->|N]; [rewrite A1; eauto|].
    rewrite A3; [rewrite Ev; eauto| |].
    + intros X. apply N. symmetry. now apply split_inj.
    + intros X. eapply Hp; eauto.
Qed.

Lemma history_keeps (h : list (op V)) out : keeps_options (fun t => (run t h, out)).
Proof.
  intros t n. simpl. unfold run. revert t. induction h as [|o h IH]; intros t Hr; simpl; [exact Hr|].
  apply IH, step_keeps, Hr.
Qed.

Lemma pair_up_odd : forall (k : nat) (args : list V), List.length args <= k ->
  Nat.Odd (List.length args) -> pair_up args = None.
Proof.
  induction k as [|k IH]; intros [|a [|b r]] Hk [m Hm]; simpl in *; try lia; try reflexivity.
  rewrite IH; [reflexivity|lia|]. exists (m - 1). lia.
Qed.

Lemma context_odd t (args : list V) body :
  Nat.Odd (List.length args) -> option_context as_str t args body = (t, Some ValueErr).
Proof. intros H. unfold option_context. now rewrite (pair_up_odd _ args (le_n _) H). Qed.

End P.
