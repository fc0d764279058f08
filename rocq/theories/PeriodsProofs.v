From Coq Require Import List String Bool ZArith QArith Lia Arith.
From Verif Require Import Assoc TablesModel TablesSpec TablesProofs PeriodsModel.
Import ListNotations.
Open Scope string_scope.
Open Scope list_scope.

(* an asset exists in a period from its build year up to (excluding) build year + lifetime *)
Definition alive (a : asset) (p : Z) : Prop :=
  (build_year a <= p)%Z /\
  match lifetime a with None => True | Some l => (inject_Z p < inject_Z (build_year a) + l)%Q end.

Lemma in_life_spec a p : in_life a p = true <-> alive a p.
Proof.
  unfold in_life, alive. rewrite andb_true_iff, Z.leb_le.
  destruct (lifetime a) as [l|]; [|tauto].
  rewrite negb_true_iff.
  assert (X : Qle_bool (inject_Z (build_year a) + l) (inject_Z p) = false <->
              (inject_Z p < inject_Z (build_year a) + l)%Q).
  { rewrite <- not_true_iff_false, Qle_bool_iff. split.
    - intros H. now apply Qnot_le_lt.
    - intros H. now apply Qlt_not_le. }
  tauto.
Qed.

Lemma existsb_Zeqb p l : existsb (Z.eqb p) l = true <-> In p l.
Proof.
  rewrite existsb_exists. split.
  - intros [x [H E]]. apply Z.eqb_eq in E. now subst.
  - intros H. exists p. split; auto. apply Z.eqb_refl.
Qed.

Definition marked (r : list (string * bool) + nerr) (i : nat) (a : asset) (P : Prop) : Prop :=
  exists l b, r = inl l /\ nth_error l i = Some (aname a, b) /\ (b = true <-> P).

Lemma active_none known hl assets i a :
  nth_error assets i = Some a ->
  marked (get_active_assets known hl None assets) i a (aactive a = true).
Proof.
  intros H. unfold marked, get_active_assets. eexists. exists (aactive a).
  split; [reflexivity|]. split; [|tauto]. now rewrite nth_error_map, H.
Qed.

Lemma active_nolife known req assets i a :
  nth_error assets i = Some a ->
  marked (get_active_assets known false req assets) i a (aactive a = true).
Proof.
  intros H. unfold marked, get_active_assets. destruct req; simpl; eexists; exists (aactive a);
    (split; [reflexivity|]); (split; [|tauto]); now rewrite nth_error_map, H.
Qed.

Lemma active_periods known ps assets i a :
  (forall p, In p ps -> In p known) -> nth_error assets i = Some a ->
  marked (get_active_assets known true (Some ps) assets) i a
    (aactive a = true /\ exists p, In p ps /\ alive a p).
Proof.
  intros K H. unfold marked, get_active_assets. simpl.
  assert (X : forallb (fun p => existsb (Z.eqb p) known) ps = true).
  { apply forallb_forall. intros p Ip. apply existsb_Zeqb. auto. }
  rewrite X. eexists. exists (existsb (in_life a) ps && aactive a).
  split; [reflexivity|]. split; [now rewrite nth_error_map, H|].
  rewrite andb_true_iff, existsb_exists. setoid_rewrite in_life_spec. tauto.
Qed.

Lemma active_unknown known ps assets p :
  In p ps -> ~ In p known -> get_active_assets known true (Some ps) assets = inr ValueErr.
Proof.
  intros Ip N. unfold get_active_assets. simpl.
  destruct (forallb (fun p => existsb (Z.eqb p) known) ps) eqn:F; auto.
  rewrite forallb_forall in F. specialize (F p Ip). apply existsb_Zeqb in F. contradiction.
Qed.

Lemma active_length known hl req assets l :
  get_active_assets known hl req assets = inl l -> map fst l = map aname assets.
Proof.
  unfold get_active_assets. destruct req as [ps|].
  - destruct hl; simpl.
    + destruct (forallb _ ps); [|discriminate]. intros E. injection E as <-. now rewrite map_map.
    + intros E. injection E as <-. now rewrite map_map.
  - intros E. injection E as <-. now rewrite map_map.
Qed.

Lemma msnap_eqb_eq a b : msnap_eqb a b = true <-> a = b.
Proof.
  destruct a as [p s], b as [q t]. unfold msnap_eqb; simpl.
  rewrite andb_true_iff, Z.eqb_eq, String.eqb_eq. split; [intros [-> ->]; auto|].
  intros E. injection E; auto.
Qed.

Lemma In_uniq l x : In x (uniq l) <-> In x l.
Proof.
  induction l as [|y r IH]; simpl; [tauto|]. rewrite filter_In, IH, negb_true_iff, Z.eqb_neq.
  destruct (Z.eq_dec y x); intuition.
Qed.

Lemma NoDup_uniq l : NoDup (uniq l).
Proof.
  induction l as [|y r IH]; simpl; constructor.
  - rewrite filter_In, negb_true_iff, Z.eqb_neq. tauto.
  - now apply NoDup_filter.
Qed.

Lemma mask_multi sns assets i a p t :
  In (p, t) sns -> nth_error assets i = Some a ->
  marked (activity_row sns true assets (p, t)) i a (aactive a = true /\ alive a p).
Proof.
  intros Is H. unfold activity_row.
  assert (X : existsb (msnap_eqb (p, t)) sns = true).
  { apply existsb_exists. exists (p, t). split; auto. now apply msnap_eqb_eq. }
  rewrite X. simpl.
  destruct (active_periods (periods_of sns) [p] assets i a) as [l [b [E [N B]]]]; auto.
  - intros q [<-|[]]. unfold periods_of. apply In_uniq. now apply (in_map fst) in Is.
  - exists l, b. split; [exact E|]. split; [exact N|]. rewrite B. split.
    + intros [A [q [[<-|[]] Al]]]. auto.
    + intros [A Al]. split; auto. exists p. simpl. auto.
Qed.

(* ---- set_investment_periods ---- *)
Lemma increasing_sorted ps p : increasing (p :: ps) = true -> forall q, In q ps -> (p < q)%Z.
Proof.
  revert p. induction ps as [|x r IH]; intros p H q Iq; [destruct Iq|].
  simpl in H. apply andb_true_iff in H. destruct H as [H1 H2]. apply Z.ltb_lt in H1.
  destruct Iq as [->|Iq]; auto. specialize (IH x H2 q Iq). lia.
Qed.

Lemma increasing_tail p ps : increasing (p :: ps) = true -> increasing ps = true.
Proof. destruct ps; simpl; auto. intros H. apply andb_true_iff in H. tauto. Qed.

Lemma increasing_NoDup ps : increasing ps = true -> NoDup ps.
Proof.
  induction ps as [|p r IH]; intros H; constructor.
  - intros I. pose proof (increasing_sorted r p H p I). lia.
  - apply IH. eapply increasing_tail; eauto.
Qed.

Lemma assoc_snap_app d1 d2 k :
  assoc_snap (d1 ++ d2) k = match assoc_snap d1 k with Some v => Some v | None => assoc_snap d2 k end.
Proof. induction d1 as [|[k' v] r IH]; simpl; auto. destruct (msnap_eqb k' k); auto. Qed.

Lemma combine_app' {A B} (a1 a2 : list A) (b1 b2 : list B) :
  List.length a1 = List.length b1 -> combine (a1 ++ a2) (b1 ++ b2) = combine a1 b1 ++ combine a2 b2.
Proof.
  revert b1. induction a1 as [|x a1 IH]; intros [|y b1] E; simpl in *; try discriminate; auto.
  f_equal. apply IH. lia.
Qed.

Lemma assoc_block p idx col q s :
  List.length col = List.length idx ->
  assoc_snap (combine (map (fun s => (p, s)) idx) col) (q, s) =
  if Z.eqb p q then colget idx col s else None.
Proof.
  revert col. induction idx as [|x r IH]; intros [|v col] E; simpl in *; try discriminate.
  - now destruct (Z.eqb p q).
  - unfold msnap_eqb; simpl. specialize (IH col ltac:(lia)).
    unfold colget in *. simpl. destruct (Z.eqb p q); simpl; auto.
    now destruct (String.eqb x s).
Qed.

Lemma assoc_repeat ps idx col q s :
  List.length col = List.length idx -> NoDup ps ->
  assoc_snap (combine (flat_map (fun p => map (fun s => (p, s)) idx) ps)
                      (flat_map (fun _ => col) ps)) (q, s) =
  if existsb (Z.eqb q) ps then colget idx col s else None.
Proof.
  intros E. induction ps as [|p r IH]; intros ND; simpl; auto.
  inversion ND as [|? ? NI ND']; subst.
  rewrite combine_app' by (now rewrite map_length). rewrite assoc_snap_app, assoc_block by exact E.
  rewrite IH by exact ND'. rewrite (Z.eqb_sym q p). destruct (Z.eqb p q) eqn:Q; simpl; auto.
  apply Z.eqb_eq in Q. subst q.
  assert (X : existsb (Z.eqb p) r = false).
  { apply not_true_iff_false. rewrite existsb_Zeqb. exact NI. }
  rewrite X. destruct (colget idx col s); auto.
Qed.

Lemma mget_repeat ps S N t name q s :
  good_table S N t -> NoDup ps -> In q ps ->
  mget (repeat_table ps t) name (q, s) = tget t name s.
Proof.
  intros [Ti [_ Tc]] ND Iq. unfold mget, repeat_table, tget; simpl.
  rewrite (dget_map_val (fun _ col => flat_map (fun _ => col) ps)).
  destruct (dget (tcols t) name) as [col|] eqn:C; simpl; auto.
  apply dget_In in C. destruct (Tc name col C) as [_ L].
  rewrite assoc_repeat; auto.
  - apply existsb_Zeqb in Iq. now rewrite Iq.
  - now rewrite L, Ti.
Qed.

Lemma In_product (ps : list Z) (sns : list string) p s :
  In (p, s) (flat_map (fun p => map (fun s => (p, s)) sns) ps) <-> In p ps /\ In s sns.
Proof.
  rewrite in_flat_map. split.
  - intros [q [Iq I]]. apply in_map_iff in I. destruct I as [t [E I]]. injection E as -> ->. auto.
  - intros [A B]. exists p. split; auto. apply in_map_iff. eauto.
Qed.

Lemma NoDup_product (ps : list Z) (sns : list string) :
  NoDup ps -> NoDup sns -> NoDup (flat_map (fun p => map (fun s => (p, s)) sns) ps).
Proof.
  intros A B. induction ps as [|p r IH]; simpl; [constructor|].
  inversion A as [|? ? NI A']; subst.
  assert (H1 : NoDup (map (fun s => (p, s)) sns)).
  { clear - B. induction sns as [|s r IH]; simpl; [constructor|]. inversion B as [|? ? NI B']; subst.
    constructor; auto. rewrite in_map_iff. intros [x [E I]]. injection E as ->. contradiction. }
  apply NoDup_app_disjoint; auto.
  intros [q s] I1 I2. apply in_map_iff in I1. destruct I1 as [t [E _]]. injection E as -> ->.
  apply In_product in I2. tauto.
Qed.

Lemma uniq_NoDup_id l : NoDup l -> uniq l = l.
Proof.
  induction 1 as [|x r NI ND IH]; simpl; auto. rewrite IH. f_equal. apply filter_all.
  intros y Iy. apply negb_true_iff, Z.eqb_neq. intros ->. contradiction.
Qed.

Lemma uniq_app_repeat p n l :
  uniq (repeat p (S n) ++ l) = p :: filter (fun y => negb (Z.eqb p y)) (uniq l).
Proof.
  induction n as [|n IH]; [reflexivity|].
  change (repeat p (S (S n)) ++ l) with (p :: repeat p (S n) ++ l).
  cbn [uniq]. rewrite IH. cbn [filter]. rewrite Z.eqb_refl. cbn [negb]. f_equal.
  apply filter_all. intros y Iy. apply filter_In in Iy. tauto.
Qed.

Lemma periods_product ps sns :
  sns <> [] -> NoDup ps ->
  periods_of (flat_map (fun p => map (fun s => (p, s)) sns) ps) = ps.
Proof.
  intros Ne. unfold periods_of. induction ps as [|p r IH]; intros ND; simpl; auto.
  inversion ND as [|? ? NI ND']; subst. rewrite map_app, map_map. simpl.
  destruct sns as [|s0 sr]; [congruence|]. 
  assert (E : map (fun _ : string => p) (s0 :: sr) = repeat p (S (List.length sr))).
  { simpl. f_equal. clear. induction sr; simpl; congruence. }
  rewrite E, uniq_app_repeat, (IH ND'). f_equal. apply filter_all.
  intros y Iy. apply negb_true_iff, Z.eqb_neq. intros ->. contradiction.
Qed.

Lemma assocz_reindex ps pw p :
  In p ps -> assocz (reindex_pw ps pw) p
             = Some (match assocz pw p with Some v => v | None => VNum 1 end).
Proof.
  intros I. unfold reindex_pw. induction ps as [|q r IH]; [destruct I|]. simpl.
  destruct (Z.eqb q p) eqn:E.
  - apply Z.eqb_eq in E. now subst.
  - apply IH. destruct I as [->|I]; auto. now rewrite Z.eqb_refl in E.
Qed.

Lemma set_periods_error n ps e : snd (set_periods n ps) = Some e -> fst (set_periods n ps) = n.
Proof.
  unfold set_periods. destruct ps; [auto|].
  destruct (negb _); [auto|]. destruct n as [sns w fr|sns w fr pw]; [discriminate|].
  destruct (negb _); [auto|]. destruct (Nat.ltb _ _); auto. discriminate.
Qed.

Lemma set_periods_reject n ps : increasing ps = false -> set_periods n ps = (n, Some ValueErr).
Proof. intros H. unfold set_periods. destruct ps; [discriminate|]. now rewrite H. Qed.

Lemma set_periods_single sns w fr ps :
  ps <> [] -> sns <> [] -> increasing ps = true -> NoDup sns ->
  (exists N, good_table sns N w) ->
  (forall a t, In (a, t) fr -> exists N, good_table sns N t) -> NoDup (dkeys fr) ->
  exists sns' w' fr' pw,
    set_periods (Single sns w fr) ps = (Multi sns' w' fr' pw, None) /\
    periods_of sns' = ps /\ NoDup sns' /\
    (forall p s, In (p, s) sns' <-> In p ps /\ In s sns) /\
    (forall c p s, In p ps -> mget w' c (p, s) = tget w c s) /\
    (forall a t, dget fr a = Some t -> exists t', dget fr' a = Some t' /\ mindex t' = sns' /\
       forall name p s, In p ps -> mget t' name (p, s) = tget t name s) /\
    dkeys fr' = dkeys fr /\
    (forall p, In p ps -> assocz pw p = Some (VNum 1)).
Proof.
  intros Np Ns Inc NDs [N Gw] Gf NDf. pose proof (increasing_NoDup ps Inc) as NDp.
  unfold set_periods. destruct ps as [|p0 pr]; [congruence|]. remember (p0 :: pr) as ps.
  rewrite Inc. simpl. do 4 eexists. split; [reflexivity|].
  rewrite periods_product by auto. split; [reflexivity|]. split; [now apply NoDup_product|].
  split; [intros p s; apply In_product|]. split; [|split; [|split]].
  - intros c p s Ip. eapply mget_repeat; eauto.
  - intros a t Ha. exists (repeat_table ps t).
    rewrite (dget_map_val (fun _ t => repeat_table ps t)), Ha. split; [reflexivity|].
    destruct (Gf a t (dget_In _ _ _ Ha)) as [N' G']. split.
    + unfold repeat_table; simpl. destruct G' as [-> _]. reflexivity.
    + intros name p s Ip. eapply mget_repeat; eauto.
  - apply (dkeys_map_val (fun _ t => repeat_table ps t)).
  - intros p Ip. now rewrite assocz_reindex.
Qed.

Lemma set_periods_again sns w fr pw ps n' :
  set_periods (Multi sns w fr pw) ps = (n', None) ->
  exists pw', n' = Multi sns w fr pw' /\
    (ps <> [] -> (forall p, In p ps <-> In p (periods_of sns)) /\
       forall p, In p ps -> assocz pw' p = Some (match assocz pw p with Some v => v | None => VNum 1 end)).
Proof.
  unfold set_periods. destruct ps as [|p0 pr].
  { intros E. injection E as <-. exists pw. split; auto. congruence. }
  remember (p0 :: pr) as ps. destruct (increasing ps) eqn:Inc; simpl; [|discriminate].
  destruct (forallb _ ps) eqn:F; simpl; [|discriminate].
  destruct (Nat.ltb _ _) eqn:L; [discriminate|].
  intros E. injection E as <-. eexists. split; [reflexivity|]. intros _.
  assert (Sub : forall p, In p ps -> In p (periods_of sns)).
  { rewrite forallb_forall in F. intros p Ip. apply existsb_Zeqb. auto. }
  apply Nat.ltb_ge in L.
  assert (Eq : forall p, In p (periods_of sns) -> In p ps).
  { apply NoDup_length_incl; auto. now apply increasing_NoDup. }
  split.
  - intros p. split; auto.
  - intros p Ip. apply assocz_reindex. auto.
Qed.
