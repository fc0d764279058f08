From Coq Require Import List String Bool ZArith Arith Lia Relations.
From Verif Require Import Assoc TablesModel PeriodsModel PeriodsProofs TopologyModel TopologySpec.
Import ListNotations.
Open Scope string_scope.
Open Scope list_scope.

(* ---------- labels ---------- *)
Definition conn (E : list (nat * nat)) : nat -> nat -> Prop :=
  clos_refl_sym_trans nat (fun x y => In (x, y) E).

Lemma conn_mono E E' x y : (forall e, In e E -> In e E') -> conn E x y -> conn E' x y.
Proof.
  intros H C. induction C as [x y I|x|x y _ IH|x y z _ IH1 _ IH2].
  - apply rst_step. auto.
  - apply rst_refl.
  - now apply rst_sym.
  - now apply rst_trans with y.
Qed.

Definition labels_ok (L : list nat) (E : list (nat * nat)) : Prop :=
  (forall i j v, nth_error L i = Some v -> nth_error L j = Some v -> conn E i j) /\
  (forall i j, conn E i j -> nth_error L i = nth_error L j).

Lemma merge_length L e : List.length (merge_labels L e) = List.length L.
Proof.
  unfold merge_labels. destruct (nth_error L (fst e)), (nth_error L (snd e)); auto. now rewrite map_length.
Qed.

Lemma merge_ok L E a b :
  labels_ok L E -> a < List.length L -> b < List.length L -> labels_ok (merge_labels L (a, b)) ((a, b) :: E).
Proof.
  intros [H1 H2] La Lb. unfold merge_labels. simpl.
  destruct (nth_error L a) as [va|] eqn:Ea; [|apply nth_error_None in Ea; lia].
  destruct (nth_error L b) as [vb|] eqn:Eb; [|apply nth_error_None in Eb; lia].
  assert (W : forall x y, conn E x y -> conn ((a, b) :: E) x y).
  { intros x y. apply conn_mono. simpl. auto. }
  assert (AB : conn ((a, b) :: E) a b) by (apply rst_step; simpl; auto).
  split.
  - intros i j v Hi Hj. rewrite nth_error_map in Hi, Hj.
    destruct (nth_error L i) as [vi|] eqn:Ei; [|discriminate].
    destruct (nth_error L j) as [vj|] eqn:Ej; [|discriminate]. simpl in Hi, Hj.
    destruct (Nat.eqb_spec vi vb) as [->|Ni]; destruct (Nat.eqb_spec vj vb) as [->|Nj].
    + apply W. eapply H1; eauto.
    + injection Hi as Hi. injection Hj as Hj. subst v. subst vj.
      apply rst_trans with b; [apply W; eapply H1; eauto|].
      apply rst_trans with a; [now apply rst_sym|]. apply W. eapply H1; eauto.
    + injection Hi as Hi. injection Hj as Hj. subst v. subst vi.
      apply rst_trans with a; [apply W; eapply H1; eauto|].
      apply rst_trans with b; auto. apply W. eapply H1; eauto.
    + assert (vi = vj) by congruence. subst. apply W. eapply H1; eauto.
  - intros i j C. induction C as [x y I|x|x y _ IH|x y z _ IH1 _ IH2]; try congruence.
    rewrite !nth_error_map. destruct I as [I|I].
    + injection I as <- <-. rewrite Ea, Eb. simpl. rewrite Nat.eqb_refl.
      now destruct (Nat.eqb va vb).
    + now rewrite (H2 x y) by (now apply rst_step).
Qed.

Lemma fold_ok es : forall L E,
  labels_ok L E -> (forall a b, In (a, b) es -> a < List.length L /\ b < List.length L) ->
  labels_ok (fold_left merge_labels es L) (rev es ++ E) /\
  List.length (fold_left merge_labels es L) = List.length L.
Proof.
  induction es as [|[a b] es IH]; intros L E H B; simpl; auto.
  destruct (B a b (or_introl eq_refl)) as [Ba Bb].
  destruct (IH (merge_labels L (a, b)) ((a, b) :: E)) as [I1 I2].
  - now apply merge_ok.
  - intros x y I. rewrite merge_length. apply B. now right.
  - split; [|now rewrite I2, merge_length]. now rewrite <- app_assoc.
Qed.

Lemma seq_ok m : labels_ok (seq 0 m) [].
Proof.
  split.
  - intros i j v Hi Hj. assert (i = j); [|subst; apply rst_refl].
    assert (Bi : i < m) by (rewrite <- (seq_length m 0); apply nth_error_Some; congruence).
    assert (Bj : j < m) by (rewrite <- (seq_length m 0); apply nth_error_Some; congruence).
    apply (nth_error_nth _ _ 0) in Hi. apply (nth_error_nth _ _ 0) in Hj.
    rewrite seq_nth in Hi, Hj by auto. simpl in *. congruence.
  - intros i j C. induction C as [x y []|x|x y _ IH|x y z _ IH1 _ IH2]; congruence.
Qed.

(* ---------- renumbering ---------- *)
Lemma memb_In x l : memb x l = true <-> In x l.
Proof.
  unfold memb. rewrite existsb_exists. split.
  - intros [y [H E]]. apply Nat.eqb_eq in E. now subst.
  - intros H. exists x. split; auto. apply Nat.eqb_refl.
Qed.

Lemma firsts_In l : forall seen x, In x (firsts seen l) <-> In x l /\ ~ In x seen.
Proof.
  induction l as [|y l IH]; intros seen x; simpl; [tauto|].
  destruct (memb y seen) eqn:M.
  - apply memb_In in M. rewrite IH. split; [tauto|]. intros [[->|H] N]; tauto.
  - assert (N : ~ In y seen) by (rewrite <- memb_In; congruence).
    simpl. rewrite IH. simpl. destruct (Nat.eq_dec y x) as [->|D]; [tauto|]. tauto.
Qed.

Lemma firsts_NoDup l : forall seen, NoDup (firsts seen l).
Proof.
  induction l as [|y l IH]; intros seen; simpl; [constructor|].
  destruct (memb y seen); auto. constructor; auto. rewrite firsts_In. simpl. tauto.
Qed.

Lemma pos_nth u x : In x u -> nth_error u (pos u x) = Some x.
Proof.
  induction u as [|y u IH]; simpl; [tauto|]. intros H.
  destruct (Nat.eqb_spec y x) as [->|N]; auto. simpl. apply IH. tauto.
Qed.
Lemma pos_lt u x : In x u -> pos u x < List.length u.
Proof. intros H. apply nth_error_Some. rewrite pos_nth; congruence. Qed.
Lemma pos_inj u x y : In x u -> In y u -> pos u x = pos u y -> x = y.
Proof.
  intros Hx Hy E. apply pos_nth in Hx. apply pos_nth in Hy. rewrite E in Hx. congruence.
Qed.
Lemma pos_at u i x : NoDup u -> nth_error u i = Some x -> pos u x = i.
Proof.
  revert i. induction u as [|y u IH]; intros i ND H; [destruct i; discriminate|].
  inversion ND as [|? ? NI ND']; subst. destruct i as [|i]; simpl in H.
  - injection H as ->. simpl. now rewrite Nat.eqb_refl.
  - simpl. destruct (Nat.eqb_spec y x) as [->|N].
    + exfalso. apply NI. now apply nth_error_In in H.
    + f_equal. now apply IH.
Qed.

(* the labels of a graph whose edges are within range *)
Lemma cc_spec size E k labels :
  (forall a b, In (a, b) E -> a < size /\ b < size) ->
  connected_components size E = (k, labels) ->
  List.length labels = size /\
  (forall i j v, nth_error labels i = Some v -> nth_error labels j = Some v -> conn E i j) /\
  (forall i j, conn E i j -> nth_error labels i = nth_error labels j) /\
  (forall i v, nth_error labels i = Some v -> v < k) /\
  (forall v, v < k -> exists i, nth_error labels i = Some v).
Proof.
  intros B H. unfold connected_components in H. injection H as Hk Hl. subst k labels.
  set (raw := fold_left merge_labels E (seq 0 size)). set (u := firsts [] raw).
  destruct (fold_ok E (seq 0 size) [] (seq_ok size)) as [[O1 O2] OL].
  { intros a b I. rewrite seq_length. auto. }
  rewrite seq_length in OL. rewrite app_nil_r in O1, O2. fold raw in O1, O2, OL.
  assert (U : forall x, In x raw -> In x u).
  { intros x I. apply firsts_In. auto. }
  assert (CE : forall i j, conn (rev E) i j <-> conn E i j).
  { intros i j. split; apply conn_mono; intros e; rewrite <- in_rev; auto. }
  split; [now rewrite map_length|]. split; [|split; [|split]].
  - intros i j v Hi Hj. rewrite nth_error_map in Hi, Hj.
    destruct (nth_error raw i) as [x|] eqn:Ei; [|discriminate].
    destruct (nth_error raw j) as [y|] eqn:Ej; [|discriminate]. simpl in Hi, Hj.
    apply CE. assert (x = y).
    { apply (pos_inj u); try (apply U; eapply nth_error_In; eauto). congruence. }
    subst y. eapply O1; eauto.
  - intros i j C. apply CE, O2 in C. now rewrite !nth_error_map, C.
  - intros i v Hi. rewrite nth_error_map in Hi. destruct (nth_error raw i) as [x|] eqn:Ei; [|discriminate].
    simpl in Hi. injection Hi as <-. apply pos_lt, U. eapply nth_error_In; eauto.
  - intros v Lv. destruct (nth_error u v) as [x|] eqn:Ex; [|apply nth_error_None in Ex; lia].
    assert (Ix : In x raw) by (apply nth_error_In, firsts_In in Ex; tauto).
    apply In_nth_error in Ix. destruct Ix as [i Hi]. exists i. rewrite nth_error_map, Hi. simpl.
    f_equal. apply pos_at; auto. apply firsts_NoDup.
Qed.

(* canonical numbering: lists with the same partition get the same numbers *)
Lemma firsts_map (f : nat -> nat) l : forall seen,
  (forall x y, (In x l \/ In x seen) -> (In y l \/ In y seen) -> f x = f y -> x = y) ->
  firsts (map f seen) (map f l) = map f (firsts seen l).
Proof.
  induction l as [|y l IH]; intros seen I; simpl; auto.
  assert (M : memb (f y) (map f seen) = memb y seen).
  { apply eq_true_iff_eq. rewrite !memb_In, in_map_iff. split.
    - intros [z [E H]]. assert (z = y) by (apply I; simpl; auto). now subst.
    - intros H. eauto. }
  rewrite M. destruct (memb y seen).
  - apply IH. intros a b Ha Hb. apply I; simpl; tauto.
  - simpl. f_equal. apply (IH (y :: seen)). intros a b Ha Hb. apply I; simpl in *; tauto.
Qed.
Lemma pos_map (f : nat -> nat) u x :
  (forall y, In y u -> f y = f x -> y = x) -> pos (map f u) (f x) = pos u x.
Proof.
  induction u as [|y u IH]; intros I; simpl; auto.
  destruct (Nat.eqb_spec y x) as [->|N]; [now rewrite Nat.eqb_refl|].
  destruct (Nat.eqb_spec (f y) (f x)) as [E|_]; [exfalso; apply N, I; simpl; auto|].
  f_equal. apply IH. intros z Hz. apply I. now right.
Qed.

Lemma canon_eq raw raw' :
  List.length raw = List.length raw' ->
  (forall i j, nth_error raw i = nth_error raw j <-> nth_error raw' i = nth_error raw' j) ->
  List.length (firsts [] raw) = List.length (firsts [] raw') /\
  map (pos (firsts [] raw)) raw = map (pos (firsts [] raw')) raw'.
Proof.
  intros L P.
  set (f := fun v => nth (pos raw v) raw' 0).
  assert (F : forall i v, nth_error raw i = Some v -> nth_error raw' i = Some (f v)).
  { intros i v Hi. assert (Iv : In v raw) by (eapply nth_error_In; eauto).
    pose proof (pos_nth raw v Iv) as Pv.
    assert (E : nth_error raw' i = nth_error raw' (pos raw v)) by (apply P; congruence).
    rewrite E. unfold f. apply nth_error_nth'. rewrite <- L. now apply pos_lt. }
  assert (M : raw' = map f raw).
  { apply nth_ext with 0 0; [now rewrite map_length|]. intros i Li.
    destruct (nth_error raw i) as [v|] eqn:E; [|apply nth_error_None in E; lia].
    rewrite (nth_error_nth _ _ _ (F i v E)). symmetry. apply nth_error_nth.
    now rewrite nth_error_map, E. }
  assert (I : forall x y, In x raw -> In y raw -> f x = f y -> x = y).
  { intros x y Hx Hy E. apply In_nth_error in Hx. destruct Hx as [i Hi].
    apply In_nth_error in Hy. destruct Hy as [j Hj].
    assert (nth_error raw i = nth_error raw j) by (apply P; rewrite (F i x Hi), (F j y Hj); congruence).
    congruence. }
  assert (FM : firsts [] raw' = map f (firsts [] raw)).
  { rewrite M. apply (firsts_map f raw []). simpl. intros x y Hx Hy. apply I; tauto. }
  split; [now rewrite FM, map_length|].
  rewrite FM. rewrite M, map_map. apply map_ext_in. intros x Hx. symmetry. apply pos_map.
  intros y Hy E. apply firsts_In in Hy. apply I; tauto.
Qed.

Lemma cc_same size E E' :
  (forall a b, In (a, b) E -> a < size /\ b < size) ->
  (forall a b, In (a, b) E' -> a < size /\ b < size) ->
  (forall i j, conn E i j <-> conn E' i j) ->
  connected_components size E = connected_components size E'.
Proof.
  intros B B' C. unfold connected_components.
  destruct (fold_ok E (seq 0 size) [] (seq_ok size)) as [[O1 O2] OL].
  { intros a b I. rewrite seq_length. auto. }
  destruct (fold_ok E' (seq 0 size) [] (seq_ok size)) as [[P1 P2] PL].
  { intros a b I. rewrite seq_length. auto. }
  rewrite seq_length in OL, PL. rewrite app_nil_r in O1, O2, P1, P2.
  assert (CE : forall E i j, conn (rev E) i j <-> conn E i j).
  { intros E0 i j. split; apply conn_mono; intros e; rewrite <- in_rev; auto. }
  destruct (canon_eq (fold_left merge_labels E (seq 0 size)) (fold_left merge_labels E' (seq 0 size)))
    as [H1 H2]; [congruence| |now rewrite H1, H2].
  intros i j. split; intros H.
  - destruct (nth_error (fold_left merge_labels E (seq 0 size)) i) as [v|] eqn:Hi.
    + apply P2, CE, C, CE. eapply O1; eauto.
    + symmetry in H. apply nth_error_None in Hi, H.
      assert (X : nth_error (fold_left merge_labels E' (seq 0 size)) i = None) by (apply nth_error_None; lia).
      assert (Y : nth_error (fold_left merge_labels E' (seq 0 size)) j = None) by (apply nth_error_None; lia).
      congruence.
  - destruct (nth_error (fold_left merge_labels E' (seq 0 size)) i) as [v|] eqn:Hi.
    + apply O2, CE, C, CE. eapply P1; eauto.
    + symmetry in H. apply nth_error_None in Hi, H.
      assert (X : nth_error (fold_left merge_labels E (seq 0 size)) i = None) by (apply nth_error_None; lia).
      assert (Y : nth_error (fold_left merge_labels E (seq 0 size)) j = None) by (apply nth_error_None; lia).
      congruence.
Qed.

(* ---------- activity ---------- *)
Definition act (period : option Z) (b : branch) : bool :=
  match period with
  | None => aactive (basset b)
  | Some p => existsb (in_life (basset b)) [p] && aactive (basset b)
  end.

Lemma act_usable period b : act period b = true <-> usable period b.
Proof.
  unfold act, usable. destruct period as [p|]; simpl; [|tauto].
  rewrite orb_false_r, andb_true_iff, in_life_spec. tauto.
Qed.


Lemma active_mask known period brs :
  period_ok known period ->
  get_active_assets known true (option_map (fun p => [p]) period) (map basset brs) =
  inl (map (fun b => (aname (basset b), act period b)) brs).
Proof.
  intros K. unfold get_active_assets. destruct period as [p|]; simpl.
  - assert (X : existsb (Z.eqb p) known = true) by (apply existsb_Zeqb, K; reflexivity).
    rewrite X. simpl. rewrite map_map. reflexivity.
  - now rewrite map_map.
Qed.

Lemma select_ok known period brs :
  period_ok known period -> select_active known period brs = inl (filter (act period) brs).
Proof.
  intros K. unfold select_active. rewrite active_mask by exact K. f_equal. rewrite map_map. simpl.
  induction brs as [|b r IH]; simpl; auto. destruct (act period b); simpl; [f_equal|]; exact IH.
Qed.

Definition last_len (period : option Z) (tabs : list (list branch)) (d : nat) : nat :=
  fold_left (fun _ t => List.length (filter (act period) t)) tabs d.

Lemma collect_ok known period names tabs : forall d,
  period_ok known period ->
  collect known period names tabs d =
  inl (flat_map (fun t => map (fun b => (index_of names (bus0 b), index_of names (bus1 b)))
                             (filter (act period) t)) tabs, last_len period tabs d).
Proof.
  induction tabs as [|t r IH]; intros d K; simpl; auto.
  rewrite select_ok by exact K. rewrite IH by exact K. reflexivity.
Qed.

Lemma index_of_nth names x i : index_of names x = Some i -> nth_error names i = Some x.
Proof.
  revert i. induction names as [|y r IH]; intros i H; simpl in H; [discriminate|].
  destruct (String.eqb_spec y x) as [->|N].
  - injection H as <-. reflexivity.
  - destruct (index_of r x) as [j|]; [|discriminate]. injection H as <-. simpl. now apply IH.
Qed.
Lemma nth_index_of names x i : NoDup names -> nth_error names i = Some x -> index_of names x = Some i.
Proof.
  revert i. induction names as [|y r IH]; intros i ND H; [destruct i; discriminate|].
  inversion ND as [|? ? NI ND']; subst. simpl. destruct i as [|i]; simpl in H.
  - injection H as ->. now rewrite String.eqb_refl.
  - destruct (String.eqb_spec y x) as [->|N].
    + exfalso. apply NI. eapply nth_error_In; eauto.
    + now rewrite (IH i).
Qed.
Lemma index_of_In names x : In x names -> exists i, index_of names x = Some i.
Proof.
  induction names as [|y r IH]; simpl; [tauto|]. intros H. destruct (String.eqb_spec y x) as [->|N]; eauto.
  destruct IH as [i ->]; [tauto|]. simpl. eauto.
Qed.

Lemma all_some_ok l :
  (forall e, In e l -> exists a b, e = (Some a, Some b)) ->
  exists es, all_some l = Some es /\ forall a b, In (a, b) es <-> In (Some a, Some b) l.
Proof.
  induction l as [|e l IH]; intros H; simpl.
  - exists []. split; auto. simpl. tauto.
  - destruct (H e (or_introl eq_refl)) as [a [b ->]]. destruct IH as [es [-> IH]]; [intros; apply H; now right|].
    exists ((a, b) :: es). split; auto. intros a' b'. simpl. rewrite IH. split.
    + intros [E|E]; auto. injection E as -> ->. auto.
    + intros [E|E]; auto. injection E as -> ->. auto.
Qed.

Lemma all_some_none l :
  (exists e, In e l /\ (fst e = None \/ snd e = None)) -> all_some l = None.
Proof.
  induction l as [|[[a|] [b|]] l IH]; intros [e [H N]]; simpl; auto; [destruct H|].
  destruct H as [<-|H]; [simpl in N; destruct N; discriminate|]. rewrite IH; auto. eauto.
Qed.

(* ---------- the classes in order ---------- *)
Lemma tables_In passive n t :
  In t (tables_in_order passive n) <->
  t <> [] /\ exists cls, In cls passive /\ dget (tbranches n) cls = Some t.
Proof.
  unfold tables_in_order. rewrite filter_In, in_map_iff. split.
  - intros [[cls [E I]] N]. destruct (dget (tbranches n) cls) as [brs|] eqn:D.
    + subst t. split; [destruct brs; congruence|]. eauto.
    + subst t. discriminate.
  - intros [N [cls [I D]]]. split; [exists cls; now rewrite D|]. destruct t; congruence.
Qed.

Lemma passive_tables passive n b :
  (exists cls, passive_branch passive n cls b) <-> exists t, In t (tables_in_order passive n) /\ In b t.
Proof.
  split.
  - intros [cls [brs [I [D B]]]]. exists brs. split; auto. apply tables_In. split; eauto.
    intros ->. destruct B.
  - intros [t [T B]]. apply tables_In in T. destruct T as [_ [cls [I D]]]. exists cls, t. auto.
Qed.

(* the value no_branches has after the loop *)
Lemma last_len_app period t1 t2 d : last_len period (t1 ++ t2) d = last_len period t2 (last_len period t1 d).
Proof. unfold last_len. apply fold_left_app. Qed.

Lemma tables_app p1 p2 n : tables_in_order (p1 ++ p2) n = tables_in_order p1 n ++ tables_in_order p2 n.
Proof. unfold tables_in_order. now rewrite map_app, filter_app. Qed.

Lemma tables_nil p n :
  (forall c, In c p -> dget (tbranches n) c = None \/ dget (tbranches n) c = Some []) ->
  tables_in_order p n = [].
Proof.
  induction p as [|c p IH]; intros H; auto. unfold tables_in_order in *. simpl.
  destruct (H c (or_introl eq_refl)) as [->| ->]; apply IH; intros c' I; apply H; now right.
Qed.

Lemma last_len_visited period passive n cls brs :
  visited_last passive n cls -> dget (tbranches n) cls = Some brs ->
  last_len period (tables_in_order passive n) 0 = List.length (filter (act period) brs).
Proof.
  intros [pre [post [-> [[b [brs' [_ [D B]]]] P]]]] D'. rewrite D' in D. injection D as <-.
  rewrite tables_app, last_len_app. change (cls :: post) with ([cls] ++ post).
  rewrite tables_app, last_len_app, (tables_nil post n P).
  unfold tables_in_order. simpl. rewrite D'. destruct brs as [|b0 brs]; [destruct B|]. reflexivity.
Qed.

Lemma visited_last_exists passive n :
  tables_in_order passive n <> [] -> exists cls, visited_last passive n cls.
Proof.
  induction passive as [|c p IH] using rev_ind; intros H; [now destruct H|].
  destruct (dget (tbranches n) c) as [[|b brs]|] eqn:D.
  - rewrite tables_app, (tables_nil [c] n), app_nil_r in H.
    + destruct (IH H) as [cls [pre [post [-> [B P]]]]]. exists cls, pre, (post ++ [c]).
      split; [now rewrite <- app_assoc|]. split; auto. intros c' I. apply in_app_iff in I.
      destruct I as [I|[<-|[]]]; auto.
    + intros c' [<-|[]]. auto.
  - exists c, p, []. split; auto. split; [|intros c' []]. exists b, (b :: brs). simpl. auto.
  - rewrite tables_app, (tables_nil [c] n), app_nil_r in H.
    + destruct (IH H) as [cls [pre [post [-> [B P]]]]]. exists cls, pre, (post ++ [c]).
      split; [now rewrite <- app_assoc|]. split; auto. intros c' I. apply in_app_iff in I.
      destruct I as [I|[<-|[]]]; auto.
    + intros c' [<-|[]]. auto.
Qed.

Lemma adjacency_ok known period passive n :
  topo_wf known period passive n -> last_class_counts period passive n ->
  exists E, adjacency known period passive n = inl E /\
    (forall i j, In (i, j) E <-> exists x y, nth_error (busnames n) i = Some x /\
                                   nth_error (busnames n) j = Some y /\ joined period passive n x y).
Proof.
  intros [ND [K BB]] LC. unfold adjacency. rewrite collect_ok by exact K.
  set (tabs := tables_in_order passive n).
  set (es := flat_map _ tabs).
  assert (ES : forall e, In e es <-> exists x y, joined period passive n x y /\
                 e = (index_of (busnames n) x, index_of (busnames n) y)).
  { intros e. unfold es. rewrite in_flat_map. split.
    - intros [t [T I]]. apply in_map_iff in I. destruct I as [b [<- I]]. apply filter_In in I.
      destruct I as [I A]. exists (bus0 b), (bus1 b). split; auto.
      destruct (proj2 (passive_tables passive n b)) as [cls P]; [eauto|].
      exists cls, b. split; auto. split; auto. now apply act_usable.
    - intros [x [y [[cls [b [P [U [<- <-]]]]] ->]]].
      destruct (proj1 (passive_tables passive n b)) as [t [T I]]; [eauto|].
      exists t. split; auto. apply in_map_iff. exists b. split; auto. apply filter_In.
      split; auto. now apply act_usable. }
  destruct (Nat.eqb_spec (last_len period tabs 0) 0) as [Z0|NZ].
  - exists []. split; auto. intros i j. split; [intros []|]. intros [x [y [_ [_ J]]]].
    destruct J as [cls [b [P [U _]]]].
    assert (T : tabs <> []).
    { intros E. destruct (proj1 (passive_tables passive n b)) as [t [T I]]; [eauto|].
      fold tabs in T. rewrite E in T. destruct T. }
    destruct (visited_last_exists passive n T) as [last VL].
    destruct (LC cls b last P U VL) as [b' [[brs [I' [D' B']]] U']].
    unfold tabs in Z0. rewrite (last_len_visited period passive n last brs VL D') in Z0.
    apply act_usable in U'.
    assert (X : In b' (filter (act period) brs)) by (apply filter_In; auto).
    destruct (filter (act period) brs); [destruct X|discriminate].
  - destruct (all_some_ok es) as [E [HE HI]].
    { intros e He. apply ES in He. destruct He as [x [y [J ->]]]. destruct (BB x y J) as [Hx Hy].
      apply index_of_In in Hx. apply index_of_In in Hy. destruct Hx as [i ->], Hy as [j ->]. eauto. }
    rewrite HE. exists E. split; auto. intros i j. rewrite HI, ES. split.
    + intros [x [y [J Eq]]]. injection Eq as Ei Ej. exists x, y.
      split; [now apply index_of_nth|]. split; [now apply index_of_nth|]. exact J.
    + intros [x [y [Hi [Hj J]]]]. exists x, y. split; auto.
      now rewrite (nth_index_of _ _ _ ND Hi), (nth_index_of _ _ _ ND Hj).
Qed.

(* an end of a usable branch that is no bus: ValueError *)
Lemma adjacency_unknown known period passive n x y :
  period_ok known period -> last_class_counts period passive n -> joined period passive n x y ->
  ~ (In x (busnames n) /\ In y (busnames n)) -> adjacency known period passive n = inr ValueErr.
Proof.
  intros K LC J NB. unfold adjacency. rewrite collect_ok by exact K.
  destruct J as [cls [b [P [U [<- <-]]]]].
  assert (T : tables_in_order passive n <> []).
  { intros E. destruct (proj1 (passive_tables passive n b)) as [t [T I]]; [eauto|]. rewrite E in T. destruct T. }
  destruct (visited_last_exists passive n T) as [last VL].
  destruct (LC cls b last P U VL) as [b' [[brs [I' [D' B']]] U']].
  rewrite (last_len_visited period passive n last brs VL D').
  assert (X : In b' (filter (act period) brs)) by (apply filter_In; split; auto; now apply act_usable).
  destruct (filter (act period) brs) as [|b0 l0]; [destruct X|]. simpl.
  rewrite all_some_none; auto.
  destruct (proj1 (passive_tables passive n b)) as [t [Tt It]]; [eauto|].
  exists (index_of (busnames n) (bus0 b), index_of (busnames n) (bus1 b)). split.
  - apply in_flat_map. exists t. split; auto. apply in_map_iff. exists b. split; auto.
    apply filter_In. split; auto. now apply act_usable.
  - simpl. destruct (index_of (busnames n) (bus0 b)) as [i|] eqn:Ei; [|auto].
    destruct (index_of (busnames n) (bus1 b)) as [j|] eqn:Ej; [|auto].
    exfalso. apply NB. apply index_of_nth in Ei. apply index_of_nth in Ej.
    split; eapply nth_error_In; eauto.
Qed.

Lemma adjacency_lost known period passive n last :
  period_ok known period -> visited_last passive n last ->
  (forall b, passive_branch passive n last b -> ~ usable period b) ->
  adjacency known period passive n = inl [].
Proof.
  intros K VL NU. unfold adjacency. rewrite collect_ok by exact K.
  pose proof VL as VL'. destruct VL' as [pre [post [Ep [[b [brs [_ [D B]]]] P]]]].
  rewrite (last_len_visited period passive n last brs VL D).
  destruct (filter (act period) brs) as [|b0 l0] eqn:F; auto. exfalso.
  assert (X : In b0 (filter (act period) brs)) by (rewrite F; simpl; auto). apply filter_In in X.
  destruct X as [X A]. apply (NU b0); [|now apply act_usable]. exists brs. split; auto.
  rewrite Ep, in_app_iff. simpl. auto.
Qed.

(* ---------- from indices to names ---------- *)
Lemma conn_connected known period passive n E :
  topo_wf known period passive n ->
  (forall i j, In (i, j) E <-> exists x y, nth_error (busnames n) i = Some x /\
                                 nth_error (busnames n) j = Some y /\ joined period passive n x y) ->
  forall i j, conn E i j -> forall x, nth_error (busnames n) i = Some x ->
    exists y, nth_error (busnames n) j = Some y /\ connected period passive n x y.
Proof.
  intros [ND _] HE i j C.
  assert (G : i = j \/ exists x y, nth_error (busnames n) i = Some x /\ nth_error (busnames n) j = Some y /\
                          connected period passive n x y).
  { induction C as [a b I|a|a b _ IH|a b c _ IH1 _ IH2].
    - apply HE in I. destruct I as [x [y [A [B J]]]]. right. exists x, y. repeat split; auto. now apply rst_step.
    - auto.
    - destruct IH as [->|[x [y [A [B D]]]]]; auto. right. exists y, x. repeat split; auto. now apply rst_sym.
    - destruct IH1 as [->|[x [y [A [B D]]]]]; auto.
      destruct IH2 as [<-|[y' [z [A' [B' D']]]]]; [right; eauto|]. right. exists x, z. repeat split; auto.
      assert (y' = y) by congruence. subst y'. now apply rst_trans with y. }
  intros x Hx. destruct G as [<-|[x' [y [A [B D]]]]].
  - exists x. split; auto. apply rst_refl.
  - exists y. split; auto. assert (x' = x) by congruence. now subst x'.
Qed.

Lemma connected_conn known period passive n E :
  topo_wf known period passive n ->
  (forall i j, In (i, j) E <-> exists x y, nth_error (busnames n) i = Some x /\
                                 nth_error (busnames n) j = Some y /\ joined period passive n x y) ->
  forall x y, connected period passive n x y ->
    forall i j, nth_error (busnames n) i = Some x -> nth_error (busnames n) j = Some y -> conn E i j.
Proof.
  intros [ND [K BB]] HE x y C.
  assert (U : forall i j z, nth_error (busnames n) i = Some z -> nth_error (busnames n) j = Some z -> i = j).
  { intros i j z A B. apply (nth_index_of _ _ _ ND) in A. apply (nth_index_of _ _ _ ND) in B. congruence. }
  assert (G : x = y \/ exists i j, nth_error (busnames n) i = Some x /\ nth_error (busnames n) j = Some y /\ conn E i j).
  { induction C as [a b J|a|a b _ IH|a b c _ IH1 _ IH2].
    - right. destruct (BB a b J) as [Ia Ib]. apply In_nth_error in Ia. apply In_nth_error in Ib.
      destruct Ia as [i Hi], Ib as [j Hj]. exists i, j. repeat split; auto. apply rst_step. apply HE. eauto.
    - auto.
    - destruct IH as [->|[i [j [A [B D]]]]]; auto. right. exists j, i. repeat split; auto. now apply rst_sym.
    - destruct IH1 as [->|[i [j [A [B D]]]]]; auto.
      destruct IH2 as [<-|[j' [k [A' [B' D']]]]]; [right; eauto|]. right. exists i, k. repeat split; auto.
      rewrite (U j j' b B A') in D. now apply rst_trans with j'. }
  intros i j Hi Hj. destruct G as [<-|[i' [j' [A [B D]]]]].
  - rewrite (U i j x Hi Hj). apply rst_refl.
  - now rewrite (U i i' x Hi A), (U j j' y Hj B).
Qed.

Lemma dget_combine (names : list string) (labels : list nat) x v :
  List.length names = List.length labels -> NoDup names ->
  (dget (combine names labels) x = Some v <->
   exists i, nth_error names i = Some x /\ nth_error labels i = Some v).
Proof.
  revert labels. induction names as [|y names IH]; intros [|l labels] L ND; simpl in *; try discriminate.
  - split; [discriminate|]. intros [[|i] [A B]]; discriminate.
  - inversion ND as [|? ? NI ND']; subst. destruct (String.eqb_spec y x) as [->|N].
    + split.
      * intros H. injection H as ->. exists 0. auto.
      * intros [[|i] [A B]]; simpl in *; [congruence|]. exfalso. apply NI. eapply nth_error_In; eauto.
    + rewrite IH by (auto; lia). split.
      * intros [i H]. exists (S i). exact H.
      * intros [[|i] [A B]]; simpl in *; [congruence|]. eauto.
Qed.

(* ---------- sub-network table ---------- *)
Lemma sub_filter (buses : list (string * string)) labels i :
  map fst (filter (fun e : string * nat => Nat.eqb (snd e) i) (combine (map fst buses) labels)) =
  map (fun bl => fst (fst bl))
      (filter (fun bl : (string * string) * nat => Nat.eqb (snd bl) i) (combine buses labels)).
Proof.
  revert labels. induction buses as [|b r IH]; intros [|l labels]; simpl; auto.
  destruct (Nat.eqb l i); simpl; [f_equal|]; apply IH.
Qed.

Lemma make_subs_NoDup skip n k labels : NoDup (map fst (make_subs skip n k labels)).
Proof.
  unfold make_subs. generalize (seq_NoDup k 0). generalize (seq 0 k) as l.
  induction l as [|i l IH]; intros ND; simpl; [constructor|].
  inversion ND as [|? ? NI ND']; subst. rewrite map_app.
  assert (X : forall j, In j (map fst (flat_map (fun i =>
    match filter (fun bl : string * string * nat => Nat.eqb (snd bl) i) (combine (tbuses n) labels) with
    | [] => [] | [b] => if skip then [] else [(i, snd (fst b))] | b :: _ => [(i, snd (fst b))] end) l)) -> In j l).
  { intros j Ij. apply in_map_iff in Ij. destruct Ij as [[a c] [<- Ij]]. apply in_flat_map in Ij.
    destruct Ij as [i0 [I0 Ij]].
    destruct (filter _ _) as [|b [|b' r]]; simpl in Ij; [destruct Ij| |].
    - destruct skip; [destruct Ij|]. destruct Ij as [Ij|[]]. injection Ij as <- _. exact I0.
    - destruct Ij as [Ij|[]]. injection Ij as <- _. exact I0. }
  destruct (filter (fun bl => Nat.eqb (snd bl) i) (combine (tbuses n) labels)) as [|b [|b' r]]; simpl; auto.
  - destruct skip; simpl; auto. constructor; auto.
  - constructor; auto.
Qed.

Lemma dget_buses_In (d : list (string * string)) b : NoDup (map fst d) -> In b d -> dget d (fst b) = Some (snd b).
Proof. intros ND I. apply In_dget; auto. now destruct b. Qed.

Lemma make_subs_In skip n k labels i c :
  NoDup (busnames n) -> In (i, c) (make_subs skip n k labels) ->
  exists x rest, map fst (filter (fun e : string * nat => Nat.eqb (snd e) i) (combine (busnames n) labels)) = x :: rest /\
    dget (tbuses n) x = Some c /\ (skip = true -> rest <> []).
Proof.
  intros ND H. unfold make_subs in H. apply in_flat_map in H. destruct H as [j [_ H]].
  unfold busnames. rewrite sub_filter.
  destruct (filter (fun bl => Nat.eqb (snd bl) j) (combine (tbuses n) labels)) as [|b [|b' r]] eqn:F.
  - destruct H.
  - destruct skip; [destruct H|]. destruct H as [H|[]]. injection H as -> <-. rewrite F.
    simpl. eexists. exists []. split; [reflexivity|]. split; [|discriminate].
    apply dget_buses_In; auto.
    assert (I : In b (filter (fun bl => Nat.eqb (snd bl) i) (combine (tbuses n) labels))) by (rewrite F; simpl; auto).
    apply filter_In in I. destruct I as [I _]. destruct b as [b l]. now apply in_combine_l in I.
  - destruct H as [H|[]]. injection H as -> <-. rewrite F. simpl. eexists. eexists.
    split; [reflexivity|]. split; [|discriminate]. apply dget_buses_In; auto.
    assert (I : In b (filter (fun bl => Nat.eqb (snd bl) i) (combine (tbuses n) labels))) by (rewrite F; simpl; auto).
    apply filter_In in I. destruct I as [I _]. destruct b as [b0 l]. now apply in_combine_l in I.
Qed.

Lemma make_subs_complete skip n k labels i x rest :
  i < k -> map fst (filter (fun e : string * nat => Nat.eqb (snd e) i) (combine (busnames n) labels)) = x :: rest ->
  (skip = true -> rest <> []) -> In i (map fst (make_subs skip n k labels)).
Proof.
  intros Lk H S. unfold busnames in H. rewrite sub_filter in H. apply in_map_iff.
  destruct (filter (fun bl => Nat.eqb (snd bl) i) (combine (tbuses n) labels)) as [|b [|b' r]] eqn:F;
    simpl in H; [discriminate| |].
  - injection H as <- <-. destruct skip; [now specialize (S eq_refl)|]. exists (i, snd (fst b)). split; auto.
    apply in_flat_map. exists i. split; [apply in_seq; lia|]. rewrite F. simpl. auto.
  - exists (i, snd (fst b)). split; auto.
    apply in_flat_map. exists i. split; [apply in_seq; lia|]. rewrite F. simpl. auto.
Qed.

(* ---------- branch labels ---------- *)
Lemma label_branches_ok known period bsub brs :
  period_ok known period ->
  label_branches known period bsub brs =
  inl (map (fun b => (aname (basset b),
                      match period with
                      | None => dget bsub (bus0 b)
                      | Some _ => if act period b then dget bsub (bus0 b) else None
                      end)) brs).
Proof.
  intros K. unfold label_branches. destruct period as [p|]; auto.
  pose proof (active_mask known (Some p) brs K) as M. cbn [option_map] in M. rewrite M. f_equal.
  clear. generalize (act (Some p)). intros f.
  induction brs as [|b r IH]; simpl; auto. f_equal; auto.
Qed.

Lemma label_classes_ok known period bsub n passive :
  period_ok known period ->
  exists d, label_classes known period bsub n passive = inl d /\
    forall cls brs, In cls passive -> dget (tbranches n) cls = Some brs -> brs <> [] ->
      dget d cls = Some (map (fun b => (aname (basset b),
                      match period with
                      | None => dget bsub (bus0 b)
                      | Some _ => if act period b then dget bsub (bus0 b) else None
                      end)) brs).
Proof.
  intros K. induction passive as [|c p [d [IH1 IH2]]]; simpl.
  - exists []. split; auto. intros ? ? [].
  - destruct (dget (tbranches n) c) as [[|b0 brs0]|] eqn:D.
    + exists d. split; auto. intros cls brs [<-|I] D' N; [congruence|]. now apply IH2.
    + rewrite label_branches_ok by exact K. rewrite IH1. eexists. split; [reflexivity|].
      intros cls brs I D' N. cbn [dget]. destruct (String.eqb_spec c cls) as [->|Nc].
      * rewrite D in D'. injection D' as <-. reflexivity.
      * apply IH2; auto. destruct I; congruence.
    + exists d. split; auto. intros cls brs [<-|I] D' N; [congruence|]. now apply IH2.
Qed.

Lemma topology_spec known period skip passive n :
  topo_wf known period passive n -> last_class_counts period passive n ->
  exists t, determine_network_topology known period skip passive n = inl t /\
    map fst (bus_sub t) = busnames n /\
    (forall x y i j, dget (bus_sub t) x = Some i -> dget (bus_sub t) y = Some j ->
       (i = j <-> connected period passive n x y)) /\
    NoDup (map fst (sub_networks t)) /\
    (forall i, In i (map fst (sub_networks t)) <->
       exists x rest, sub_buses t i = x :: rest /\ (skip = true -> rest <> [])) /\
    (forall i c, In (i, c) (sub_networks t) ->
       exists x rest, sub_buses t i = x :: rest /\ dget (tbuses n) x = Some c) /\
    (forall cls brs k b, In cls passive -> dget (tbranches n) cls = Some brs -> nth_error brs k = Some b ->
       exists l, dget (branch_sub t) cls = Some l /\ List.length l = List.length brs /\
         (usable period b ->
            nth_error l k = Some (aname (basset b), dget (bus_sub t) (bus0 b)) /\
            dget (bus_sub t) (bus1 b) = dget (bus_sub t) (bus0 b) /\ dget (bus_sub t) (bus0 b) <> None) /\
         (~ usable period b ->
            nth_error l k = Some (aname (basset b),
                                  match period with None => dget (bus_sub t) (bus0 b) | Some _ => None end))).
Proof.
  intros WF LC. pose proof WF as [ND [K BB]].
  destruct (adjacency_ok known period passive n WF LC) as [E [AE HE]].
  unfold determine_network_topology. rewrite AE.
  destruct (connected_components (List.length (tbuses n)) E) as [k labels] eqn:CC.
  assert (BE : forall a b, In (a, b) E -> a < List.length (tbuses n) /\ b < List.length (tbuses n)).
  { intros a b I. apply HE in I. destruct I as [x [y [A [B _]]]].
    assert (a < List.length (busnames n)) by (apply nth_error_Some; congruence).
    assert (b < List.length (busnames n)) by (apply nth_error_Some; congruence).
    unfold busnames in *. rewrite map_length in *. auto. }
  destruct (cc_spec _ E k labels BE CC) as [CL [C1 [C2 [C3 C4]]]].
  set (bsub := combine (busnames n) labels).
  destruct (label_classes_ok known period bsub n passive K) as [d [LD HD]]. rewrite LD.
  assert (LL : List.length (busnames n) = List.length labels) by (unfold busnames; rewrite map_length; lia).
  assert (DG : forall x v, dget bsub x = Some v <->
                 exists i, nth_error (busnames n) i = Some x /\ nth_error labels i = Some v).
  { intros x v. apply dget_combine; auto. }
  assert (SAME : forall x y i j, dget bsub x = Some i -> dget bsub y = Some j ->
                   (i = j <-> connected period passive n x y)).
  { intros x y i j Hx Hy. apply DG in Hx. apply DG in Hy.
    destruct Hx as [a [Na La]], Hy as [b [Nb Lb]]. split.
    - intros ->. pose proof (C1 a b j La Lb) as C.
      destruct (conn_connected known period passive n E WF HE a b C x Na) as [y' [Ny Cy]]. congruence.
    - intros C. pose proof (connected_conn known period passive n E WF HE x y C a b Na Nb) as C'.
      apply C2 in C'. congruence. }
  eexists. split; [reflexivity|]. cbn [bus_sub sub_networks branch_sub sub_buses].
  split.
  { unfold bsub. clear - LL. revert labels LL. induction (busnames n) as [|x l IH]; intros [|v r] L; simpl in *;
      try discriminate; auto. f_equal. apply IH. lia. }
  split; [exact SAME|].
  split; [apply make_subs_NoDup|].
  split.
  { intros i. unfold sub_buses. cbn [bus_sub]. split.
    - intros H. apply in_map_iff in H. destruct H as [[i' c] [<- H]].
      apply make_subs_In in H; auto. destruct H as [x [rest [A [_ B]]]]. exists x, rest. auto.
    - intros [x [rest [H S]]]. apply (make_subs_complete _ _ _ _ _ x rest); auto.
      assert (I : In x (x :: rest)) by (simpl; auto). fold bsub in H. rewrite <- H in I.
      apply in_map_iff in I. destruct I as [[x' v] [<- I]]. apply filter_In in I. destruct I as [I Ev].
      apply Nat.eqb_eq in Ev. simpl in Ev. subst v. apply in_combine_r, In_nth_error in I.
      destruct I as [a Ha]. now apply C3 in Ha. }
  split.
  { intros i c H. unfold sub_buses. cbn [bus_sub]. apply make_subs_In in H; auto.
    destruct H as [x [rest [A [B _]]]]. exists x, rest. auto. }
  intros cls brs kk b I D Nk.
  assert (NB : brs <> []) by (intros ->; destruct kk; discriminate).
  rewrite (HD cls brs I D NB). eexists. split; [reflexivity|].
  split; [now rewrite map_length|].
  rewrite nth_error_map, Nk. simpl. split.
  - intros U.
    assert (J : joined period passive n (bus0 b) (bus1 b)).
    { exists cls, b. split; auto. exists brs. split; auto. split; auto. eapply nth_error_In; eauto. }
    destruct (BB _ _ J) as [I0 I1].
    assert (G : forall x, In x (busnames n) -> exists v, dget bsub x = Some v).
    { intros x Ix. apply In_nth_error in Ix. destruct Ix as [a Ha].
      destruct (nth_error labels a) as [v|] eqn:La.
      - exists v. apply DG. eauto.
      - apply nth_error_None in La. assert (a < List.length (busnames n)) by (apply nth_error_Some; congruence). lia. }
    destruct (G _ I0) as [v0 G0]. destruct (G _ I1) as [v1 G1].
    assert (v0 = v1) by (apply (SAME _ _ _ _ G0 G1); now apply rst_step). subst v1.
    rewrite G0, G1. split; [|split; [reflexivity|discriminate]].
    destruct period as [p|]; auto. apply act_usable in U. now rewrite U.
  - intros NU. destruct period as [p|]; auto.
    destruct (act (Some p) b) eqn:A; auto. apply act_usable in A. contradiction.
Qed.

(* the labels do not depend on the order in which the classes are visited *)
Lemma topology_order known period skip p1 p2 n t1 t2 :
  topo_wf known period p1 n -> last_class_counts period p1 n -> last_class_counts period p2 n ->
  (forall c, In c p1 <-> In c p2) ->
  determine_network_topology known period skip p1 n = inl t1 ->
  determine_network_topology known period skip p2 n = inl t2 ->
  bus_sub t1 = bus_sub t2 /\ sub_networks t1 = sub_networks t2.
Proof.
  intros WF L1 L2 P H1 H2.
  assert (J : forall x y, joined period p1 n x y <-> joined period p2 n x y).
  { intros x y. split; intros [cls [b [[brs [I [D B]]] R]]]; exists cls, b; (split; [|exact R]);
      exists brs; (split; [now apply P|]); auto. }
  assert (WF2 : topo_wf known period p2 n).
  { destruct WF as [ND [K BB]]. split; auto. split; auto. intros x y Jx. apply BB. now apply J. }
  destruct (adjacency_ok known period p1 n WF L1) as [E1 [A1 HE1]].
  destruct (adjacency_ok known period p2 n WF2 L2) as [E2 [A2 HE2]].
  assert (EE : forall i j, In (i, j) E1 <-> In (i, j) E2).
  { intros i j. rewrite HE1, HE2. split; intros [x [y [X [Y Z]]]]; exists x, y; (split; [exact X|]);
      (split; [exact Y|]); now apply J. }
  assert (BE : forall a b, In (a, b) E1 -> a < List.length (tbuses n) /\ b < List.length (tbuses n)).
  { intros a b I. apply HE1 in I. destruct I as [x [y [A [B _]]]].
    assert (a < List.length (busnames n)) by (apply nth_error_Some; congruence).
    assert (b < List.length (busnames n)) by (apply nth_error_Some; congruence).
    unfold busnames in *. rewrite map_length in *. auto. }
  assert (CC : connected_components (List.length (tbuses n)) E1 = connected_components (List.length (tbuses n)) E2).
  { apply cc_same; auto.
    - intros a b I. apply BE, EE, I.
    - intros i j. split; apply conn_mono; intros [a b]; apply EE. }
  unfold determine_network_topology in H1, H2. rewrite A1 in H1. rewrite A2 in H2. rewrite CC in H1.
  destruct (connected_components (List.length (tbuses n)) E2) as [k labels].
  destruct (label_classes known period _ n p1); [|discriminate].
  destruct (label_classes known period _ n p2); [|discriminate].
  injection H1 as <-. injection H2 as <-. auto.
Qed.

Lemma topology_lost known period skip passive n last :
  NoDup (busnames n) -> period_ok known period -> visited_last passive n last ->
  (forall b, passive_branch passive n last b -> ~ usable period b) ->
  exists t, determine_network_topology known period skip passive n = inl t /\
    forall x y i, dget (bus_sub t) x = Some i -> dget (bus_sub t) y = Some i -> x = y.
Proof.
  intros ND K VL NU. unfold determine_network_topology.
  rewrite (adjacency_lost known period passive n last K VL NU).
  destruct (connected_components (List.length (tbuses n)) []) as [k labels] eqn:CC.
  assert (BE : forall a b, In (a, b) (@nil (nat * nat)) -> a < List.length (tbuses n) /\ b < List.length (tbuses n))
    by (intros a b []).
  destruct (cc_spec _ [] k labels BE CC) as [CL [C1 _]].
  destruct (label_classes_ok known period (combine (busnames n) labels) n passive K) as [d [LD _]].
  rewrite LD. eexists. split; [reflexivity|]. cbn [bus_sub]. intros x y i Hx Hy.
  assert (LL : List.length (busnames n) = List.length labels) by (unfold busnames; rewrite map_length; lia).
  apply dget_combine in Hx; auto. apply dget_combine in Hy; auto.
  destruct Hx as [a [Na La]], Hy as [b [Nb Lb]].
  pose proof (C1 a b i La Lb) as C.
  assert (G : forall a b, conn [] a b -> a = b).
  { clear. intros a b C. induction C as [a b []|a|a b _ IH|a b c _ IH1 _ IH2]; congruence. }
  apply G in C. congruence.
Qed.

Lemma topology_unknown known period skip passive n x y :
  period_ok known period -> last_class_counts period passive n -> joined period passive n x y ->
  ~ (In x (busnames n) /\ In y (busnames n)) ->
  determine_network_topology known period skip passive n = inr ValueErr.
Proof.
  intros K LC J NB. unfold determine_network_topology.
  now rewrite (adjacency_unknown known period passive n x y K LC J NB).
Qed.

Lemma usable_dec period b : usable period b \/ ~ usable period b.
Proof.
  unfold usable. destruct (aactive (basset b)); [|right; intros [? _]; discriminate]. destruct period as [p|]; [|left; auto].
  destruct (in_life (basset b) p) eqn:E; [left; split; auto; now apply in_life_spec|]. right. intros [_ A]. apply in_life_spec in A. congruence.
Qed.
Lemma members known period skip passive n t cls brs i nm :
  topo_wf known period passive n -> last_class_counts period passive n -> determine_network_topology known period skip passive n = inl t ->
  In cls passive -> dget (tbranches n) cls = Some brs ->
  (In nm (sub_branches t i cls) <->
   exists b, In b brs /\ aname (basset b) = nm /\ dget (bus_sub t) (bus0 b) = Some i /\ (period <> None -> usable period b)).
Proof.
  intros WF LC E IC D. destruct (topology_spec known period skip passive n WF LC) as [t' [E' [_ [_ [_ [_ [_ S]]]]]]]. rewrite E in E'. injection E' as <-.
  unfold sub_branches. split.
  - destruct (dget (branch_sub t) cls) as [l|] eqn:L; [|intros []]. intros I. apply in_map_iff in I. destruct I as [[m o] [<- I]]. apply filter_In in I. destruct I as [I Z]. cbn [fst snd] in *.
    destruct o as [j|]; [|discriminate]. apply Nat.eqb_eq in Z. subst j. apply In_nth_error in I. destruct I as [k K].
    destruct brs as [|b0' brs'] eqn:EB.
    { exfalso. clear S. unfold determine_network_topology in E. destruct (adjacency known period passive n); [|discriminate]. destruct (connected_components _ _) as [kk labels].
      destruct (label_classes known period _ n passive) as [d|] eqn:LD; [|discriminate]. injection E as <-. cbn [branch_sub] in L. revert d l LD L K. clear - D. induction passive as [|c r IH]; intros d l LD L K.
      - injection LD as <-. discriminate.
      - cbn [label_classes] in LD. destruct (dget (tbranches n) c) as [[|b bs]|] eqn:DC; eauto.
        destruct (label_branches _ _ _ _); [|discriminate]. destruct (label_classes _ _ _ _ r) as [d'|] eqn:LD'; [|discriminate]. injection LD as <-. cbn [dget] in L.
        destruct (String.eqb c cls) eqn:CC; [apply String.eqb_eq in CC; congruence|]. eapply (IH d' l); eauto. }
    assert (LE : exists bk, nth_error (b0' :: brs') k = Some bk).
    { destruct (S cls (b0' :: brs') 0 b0' IC D eq_refl) as [l' [L' [LN _]]]. rewrite L in L'. injection L' as <-.
      destruct (nth_error (b0' :: brs') k) eqn:NE; [eauto|]. exfalso. apply nth_error_None in NE. assert (k < List.length l) by (apply nth_error_Some; congruence). lia. }
    destruct LE as [bk LE]. destruct (S cls (b0' :: brs') k bk IC D LE) as [l' [L' [_ [U N]]]]. rewrite L in L'. injection L' as <-.
    exists bk. split; [eapply nth_error_In; eauto|]. destruct (usable_dec period bk) as [Y|Y].
    + destruct (U Y) as [U1 _]. rewrite K in U1. injection U1 as -> U1. auto.
    + specialize (N Y). rewrite K in N. injection N as -> N. split; auto. destruct period; [discriminate|]. split; [auto|]. intros X. now destruct X.
  - intros [b [I [<- [B P]]]]. apply In_nth_error in I. destruct I as [k K]. destruct (S cls brs k b IC D K) as [l [L [_ [U N]]]]. rewrite L. apply in_map_iff.
    exists (aname (basset b), Some i). split; [reflexivity|]. apply filter_In. split; [|cbn; apply Nat.eqb_refl]. apply (nth_error_In l k).
    destruct (usable_dec period b) as [Y|Y].
    + destruct (U Y) as [U1 _]. rewrite U1, B. reflexivity.
    + rewrite (N Y). destruct period; [exfalso; apply Y, P; discriminate|]. now rewrite B.
Qed.
