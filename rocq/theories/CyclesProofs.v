From Coq Require Import List String Bool ZArith QArith Arith Lia Permutation.
From Verif Require Import Assoc TablesModel PeriodsModel TopologyModel TopologyProofs CyclesModel CyclesSpec.
Import ListNotations.
Open Scope string_scope.
Open Scope nat_scope.
Open Scope list_scope.

Lemma entry_app a b i j : entry (a ++ b) i j = (entry a i j + entry b i j)%Z.
Proof.
  induction a as [|e a IH]; simpl; auto. destruct (_ && _); rewrite IH; lia.
Qed.

Lemma numbered_nth {A} (l : list A) i : nth_error (numbered l) i = option_map (pair i) (nth_error l i).
Proof.
  unfold numbered.
  assert (G : forall s, nth_error (combine (seq s (List.length l)) l) i = option_map (pair (s + i)) (nth_error l i)).
  { revert i. induction l as [|x l IH]; intros i s; [destruct i; reflexivity|].
    destruct i as [|i]; simpl; [now rewrite Nat.add_0_r|]. rewrite IH. now rewrite Nat.add_succ_r. }
  apply (G 0).
Qed.
Lemma numbered_In {A} (l : list A) i x : In (i, x) (numbered l) <-> nth_error l i = Some x.
Proof.
  split.
  - intros H. apply In_nth_error in H. destruct H as [j H]. rewrite numbered_nth in H.
    destruct (nth_error l j) as [y|] eqn:E; [|discriminate]. simpl in H. injection H as -> ->. exact E.
  - intros H. apply nth_error_In with i. now rewrite numbered_nth, H.
Qed.
Lemma numbered_fst {A} (l : list A) : map fst (numbered l) = seq 0 (List.length l).
Proof.
  unfold numbered. generalize 0. induction l as [|x l IH]; intros s; simpl; auto. now rewrite IH.
Qed.
Lemma numbered_NoDup {A} (l : list A) : NoDup (numbered l).
Proof. apply (NoDup_map_inv fst). rewrite numbered_fst. apply seq_NoDup. Qed.

(* entries of the one-per-column lists *)
Lemma entry_column {A} (f : A -> nat) (v : Z) (es : list (nat * A)) i j :
  NoDup (map fst es) ->
  entry (map (fun le => (f (snd le), fst le, v)) es) i j =
  match find (fun le => Nat.eqb (fst le) j) es with
  | Some le => if Nat.eqb (f (snd le)) i then v else 0%Z
  | None => 0%Z
  end.
Proof.
  induction es as [|[l x] es IH]; intros ND; [reflexivity|].
  inversion ND as [|? ? NI ND']; subst. specialize (IH ND'). simpl in *.
  destruct (Nat.eqb_spec l j) as [->|N].
  - rewrite andb_true_r, IH.
    assert (F : find (fun le => Nat.eqb (fst le) j) es = None).
    { destruct (find _ es) as [[l' y]|] eqn:E; auto. apply find_some in E. destruct E as [E1 E2].
      apply Nat.eqb_eq in E2. simpl in E2. subst l'. exfalso. apply NI. now apply (in_map fst) in E1. }
    rewrite F. cbn [snd]. destruct (Nat.eqb (f x) i); lia.
  - rewrite andb_false_r. exact IH.
Qed.

Lemma find_numbered {A} (l : list A) j :
  find (fun le => Nat.eqb (fst le) j) (numbered l) = option_map (pair j) (nth_error l j).
Proof.
  unfold numbered.
  assert (G : forall s j, find (fun le => Nat.eqb (fst le) (s + j)) (combine (seq s (List.length l)) l) =
                        option_map (pair (s + j)) (nth_error l j)).
  { induction l as [|x l IH]; intros s k; [destruct k; reflexivity|]. simpl.
    destruct k as [|k]; simpl.
    - now rewrite Nat.add_0_r, Nat.eqb_refl.
    - destruct (Nat.eqb_spec s (s + S k)) as [E|_]; [lia|]. rewrite Nat.add_succ_r. apply (IH (S s) k). }
  apply (G 0).
Qed.


Lemma all_some_nth l es :
  all_some l = Some es -> List.length es = List.length l /\
  forall k a b, nth_error es k = Some (a, b) <-> nth_error l k = Some (Some a, Some b).
Proof.
  revert es. induction l as [|[[a|] [b|]] l IH]; intros es H; simpl in H; try discriminate.
  - injection H as <-. split; auto. intros [|k] a b; simpl; split; discriminate.
  - destruct (all_some l) as [es'|]; [|discriminate]. injection H as <-.
    destruct (IH es' eq_refl) as [L N]. split; [simpl; lia|].
    intros [|k] a' b'; simpl; [split; intros E; injection E as -> ->; reflexivity|apply N].
Qed.


Lemma incidence_spec busorder tabs :
  NoDup busorder -> tabs <> [] ->
  (forall b, In b (active_branches tabs) -> In (bus0 b) busorder /\ In (bus1 b) busorder) ->
  exists m, incidence_matrix busorder tabs = inl (List.length busorder, List.length (active_branches tabs), m) /\
    forall i x l b, nth_error busorder i = Some x -> nth_error (active_branches tabs) l = Some b ->
      entry m i l = (delta (String.eqb (bus0 b) x) - delta (String.eqb (bus1 b) x))%Z.
Proof.
  intros ND NE B. unfold incidence_matrix. destruct tabs as [|t0 ts]; [congruence|]. fold (active_branches (t0 :: ts)).
  set (sel := active_branches (t0 :: ts)) in *.
  destruct (all_some_ok (map (fun b => (index_of busorder (bus0 b), index_of busorder (bus1 b))) sel)) as [inds [H _]].
  { intros e He. apply in_map_iff in He. destruct He as [b [<- Ib]]. destruct (B b Ib) as [I0 I1].
    apply index_of_In in I0. apply index_of_In in I1. destruct I0 as [i ->], I1 as [j ->]. eauto. }
  rewrite H. eexists. split; [reflexivity|]. intros i x l b Hi Hl.
  destruct (all_some_nth _ _ H) as [LI NI].
  assert (NDn : NoDup (map fst (numbered inds))) by (rewrite numbered_fst; apply seq_NoDup).
  rewrite entry_app.
  rewrite (entry_column (fun e : nat * nat => fst e) 1 (numbered inds) i l NDn).
  rewrite (entry_column (fun e : nat * nat => snd e) (-1) (numbered inds) i l NDn).
  rewrite find_numbered.
  destruct (nth_error inds l) as [[r0 r1]|] eqn:El.
  - simpl. apply NI in El. rewrite nth_error_map, Hl in El. simpl in El. injection El as E0 E1.
    assert (X0 : Nat.eqb r0 i = String.eqb (bus0 b) x).
    { apply index_of_nth in E0. destruct (Nat.eqb_spec r0 i) as [->|N].
      - rewrite Hi in E0. injection E0 as ->. now rewrite String.eqb_refl.
      - symmetry. apply String.eqb_neq. intros <-. apply N.
        apply (nth_index_of _ _ _ ND) in E0. apply (nth_index_of _ _ _ ND) in Hi. congruence. }
    assert (X1 : Nat.eqb r1 i = String.eqb (bus1 b) x).
    { apply index_of_nth in E1. destruct (Nat.eqb_spec r1 i) as [->|N].
      - rewrite Hi in E1. injection E1 as ->. now rewrite String.eqb_refl.
      - symmetry. apply String.eqb_neq. intros <-. apply N.
        apply (nth_index_of _ _ _ ND) in E1. apply (nth_index_of _ _ _ ND) in Hi. congruence. }
    rewrite X0, X1. unfold delta. destruct (String.eqb (bus0 b) x), (String.eqb (bus1 b) x); lia.
  - exfalso. apply nth_error_None in El. rewrite LI, map_length in El.
    assert (l < List.length sel) by (apply nth_error_Some; congruence). lia.
Qed.

Lemma incidence_unknown busorder tabs b :
  In b (active_branches tabs) -> ~ (In (bus0 b) busorder /\ In (bus1 b) busorder) ->
  incidence_matrix busorder tabs = inr ValueErr.
Proof.
  intros I N. unfold incidence_matrix. destruct tabs as [|t0 ts]; auto.
  rewrite all_some_none; auto.
  exists (index_of busorder (bus0 b), index_of busorder (bus1 b)). split.
  - apply in_map_iff. exists b. split; auto.
  - simpl. destruct (index_of busorder (bus0 b)) as [i|] eqn:Ei; auto.
    destruct (index_of busorder (bus1 b)) as [j|] eqn:Ej; auto.
    exfalso. apply N. apply index_of_nth in Ei. apply index_of_nth in Ej. split; eapply nth_error_In; eauto.
Qed.


Lemma zsum_ext f g n : (forall i, (i < n)%nat -> f i = g i) -> zsum f n = zsum g n.
Proof. induction n as [|n IH]; intros H; simpl; auto. rewrite IH, (H n); auto. Qed.
Lemma zsum_sub f g n : zsum (fun i => f i - g i)%Z n = (zsum f n - zsum g n)%Z.
Proof. induction n as [|n IH]; simpl; lia. Qed.
Lemma zsum_single n k : (k < n)%nat -> zsum (fun i => delta (Nat.eqb i k)) n = 1%Z.
Proof.
  intros L. assert (Z0 : forall m, (m <= k)%nat -> zsum (fun i => delta (Nat.eqb i k)) m = 0%Z).
  { induction m as [|m IH]; intros Lm; simpl; auto. rewrite IH by lia.
    destruct (Nat.eqb_spec m k); simpl; lia. }
  induction n as [|n IH]; [lia|]. simpl. destruct (Nat.eq_dec n k) as [->|N].
  - rewrite Z0, Nat.eqb_refl by lia. reflexivity.
  - rewrite IH by lia. destruct (Nat.eqb_spec n k); simpl; lia.
Qed.

Lemma zsum_names busorder x :
  NoDup busorder -> In x busorder ->
  zsum (fun i => match nth_error busorder i with Some y => delta (String.eqb x y) | None => 0%Z end)
       (List.length busorder) = 1%Z.
Proof.
  intros ND I. apply In_nth_error in I. destruct I as [k Hk].
  assert (Lk : (k < List.length busorder)%nat) by (apply nth_error_Some; congruence).
  rewrite <- (zsum_single _ k Lk). apply zsum_ext. intros i Li.
  destruct (nth_error busorder i) as [y|] eqn:E; [|apply nth_error_None in E; lia].
  f_equal. destruct (Nat.eqb_spec i k) as [->|N].
  - rewrite Hk in E. injection E as ->. apply String.eqb_refl.
  - apply String.eqb_neq. intros ->. apply N.
    apply (nth_index_of _ _ _ ND) in Hk. apply (nth_index_of _ _ _ ND) in E. congruence.
Qed.

Lemma incidence_column_sum busorder tabs m l :
  NoDup busorder -> tabs <> [] ->
  (forall b, In b (active_branches tabs) -> In (bus0 b) busorder /\ In (bus1 b) busorder) ->
  incidence_matrix busorder tabs = inl (List.length busorder, List.length (active_branches tabs), m) ->
  (l < List.length (active_branches tabs))%nat ->
  zsum (fun i => entry m i l) (List.length busorder) = 0%Z.
Proof.
  intros ND NE B H Ll. destruct (incidence_spec busorder tabs ND NE B) as [m' [H' E]].
  rewrite H in H'. injection H' as <-.
  destruct (nth_error (active_branches tabs) l) as [b|] eqn:El; [|apply nth_error_None in El; lia].
  destruct (B b (nth_error_In _ _ El)) as [I0 I1].
  rewrite (zsum_ext _ (fun i => (match nth_error busorder i with Some y => delta (String.eqb (bus0 b) y) | None => 0 end
                               - match nth_error busorder i with Some y => delta (String.eqb (bus1 b) y) | None => 0 end)%Z)).
  - rewrite zsum_sub, !zsum_names; auto.
  - intros i Li. destruct (nth_error busorder i) as [x|] eqn:Ex; [|apply nth_error_None in Ex; lia].
    now apply E.
Qed.


Lemma qsum_ext f g n : (forall i, (i < n)%nat -> (f i == g i)%Q) -> (qsum f n == qsum g n)%Q.
Proof.
  induction n as [|n IH]; intros H; simpl; [reflexivity|]. rewrite IH, (H n); [reflexivity|auto|auto].
Qed.

Lemma incidence_outflow busorder tabs m i x f :
  NoDup busorder -> tabs <> [] ->
  (forall b, In b (active_branches tabs) -> In (bus0 b) busorder /\ In (bus1 b) busorder) ->
  incidence_matrix busorder tabs = inl (List.length busorder, List.length (active_branches tabs), m) ->
  nth_error busorder i = Some x ->
  (qsum (fun l => inject_Z (entry m i l) * f l) (List.length (active_branches tabs))
     == outflow (active_branches tabs) f x)%Q.
Proof.
  intros ND NE B H Hi. destruct (incidence_spec busorder tabs ND NE B) as [m' [H' E]].
  rewrite H in H'. injection H' as <-. unfold outflow. apply qsum_ext. intros l Ll.
  destruct (nth_error (active_branches tabs) l) as [b|] eqn:El; [|apply nth_error_None in El; lia].
  rewrite (E i x l b Hi El). unfold delta.
  destruct (String.eqb (bus0 b) x), (String.eqb (bus1 b) x); simpl; ring.
Qed.

(* ---------- cycles ---------- *)
Lemma keys_In brs u v l :
  In l (keys brs u v) <->
  exists b, nth_error brs l = Some b /\ gfin b = true /\ ((g0 b = u /\ g1 b = v) \/ (g0 b = v /\ g1 b = u)).
Proof.
  unfold keys. rewrite in_map_iff. split.
  - intros [[l' b] [<- H]]. apply filter_In in H. destruct H as [I F]. apply numbered_In in I.
    exists b. split; auto. unfold between in F. simpl in F. apply andb_true_iff in F. destruct F as [F G].
    split; auto. apply orb_true_iff in G. rewrite !andb_true_iff, !Nat.eqb_eq in G. tauto.
  - intros [b [N [F G]]]. exists (l, b). split; auto. apply filter_In. split; [now apply numbered_In|].
    unfold between. simpl. rewrite F. simpl. apply orb_true_iff. rewrite !andb_true_iff, !Nat.eqb_eq. tauto.
Qed.

Lemma filter_lt_NoDup {A} (p : nat * A -> bool) l : NoDup (map fst (filter p (numbered l))).
Proof. apply NoDup_map_filter. rewrite numbered_fst. apply seq_NoDup. Qed.
Lemma keys_NoDup brs u v : NoDup (keys brs u v).
Proof. apply filter_lt_NoDup. Qed.


Lemma walk_outflow brs ps col x :
  walk_column brs ps = Some col ->
  col_outflow brs col x =
  fold_right (fun uv s => (delta (Nat.eqb (fst uv) x) - delta (Nat.eqb (snd uv) x) + s)%Z) 0%Z ps.
Proof.
  revert col. induction ps as [|[u v] ps IH]; intros col H; simpl in H.
  - injection H as <-. reflexivity.
  - destruct (keys brs u v) as [|l ls] eqn:K; [discriminate|].
    destruct (walk_column brs ps) as [c|]; [|discriminate]. injection H as <-. simpl. rewrite (IH c eq_refl).
    assert (I : In l (keys brs u v)) by (rewrite K; simpl; auto). apply keys_In in I.
    destruct I as [b [N [_ G]]]. unfold g0_at, inc. rewrite N. simpl. f_equal.
    destruct (Nat.eqb_spec (g0 b) u) as [E|E].
    + assert (g1 b = v) by (destruct G as [[_ G]|[G1 G2]]; congruence). rewrite E, H. lia.
    + destruct G as [[G _]|[G1 G2]]; [congruence|]. rewrite G1, G2. lia.
Qed.

Lemma cyclic_telescope cycle x :
  fold_right (fun uv s => (delta (Nat.eqb (fst uv) x) - delta (Nat.eqb (snd uv) x) + s)%Z) 0%Z (cyclic_pairs cycle) = 0%Z.
Proof.
  destruct cycle as [|y r]; [reflexivity|]. unfold cyclic_pairs.
  assert (G : forall z r', fold_right (fun uv s => (delta (Nat.eqb (fst uv) x) - delta (Nat.eqb (snd uv) x) + s)%Z) 0%Z
                         (combine (z :: r') (r' ++ [y])) = (delta (Nat.eqb z x) - delta (Nat.eqb y x))%Z).
  { intros z r'. revert z. induction r' as [|w r' IH]; intros z; [simpl; lia|].
    change ((w :: r') ++ [y]) with (w :: (r' ++ [y])).
    change (combine (z :: w :: r') (w :: (r' ++ [y]))) with ((z, w) :: combine (w :: r') (r' ++ [y])).
    cbn [fold_right fst snd]. rewrite IH. lia. }
  rewrite G. lia.
Qed.

Lemma sequence_In {A} (l : list (option A)) r x : sequence l = Some r -> In x r -> In (Some x) l.
Proof.
  revert r. induction l as [|[y|] l IH]; intros r H I; simpl in H; try discriminate.
  - injection H as <-. destruct I.
  - destruct (sequence l) as [r'|]; [|discriminate]. injection H as <-. destruct I as [->|I]; simpl; eauto.
Qed.
Lemma sequence_length {A} (l : list (option A)) r : sequence l = Some r -> List.length r = List.length l.
Proof.
  revert r. induction l as [|[y|] l IH]; intros r H; simpl in H; try discriminate.
  - now injection H as <-.
  - destruct (sequence l) as [r'|]; [|discriminate]. injection H as <-. simpl. f_equal. now apply IH.
Qed.

Lemma multi_In brs col :
  In col (multi_columns brs) <->
  exists l b first others o bo, nth_error brs l = Some b /\ gfin b = true /\
    keys brs (g0 b) (g1 b) = first :: others /\ first = l /\ In o others /\ nth_error brs o = Some bo /\
    col = [(l, 1%Z); (o, if Nat.eqb (g0 bo) (g0 b) then (-1)%Z else 1%Z)].
Proof.
  unfold multi_columns. rewrite in_flat_map. split.
  - intros [[l b] [I H]]. apply numbered_In in I.
    destruct (keys brs (g0 b) (g1 b)) as [|first others] eqn:K; [destruct H|].
    destruct (gfin b && Nat.eqb first l) eqn:F; [|destruct H]. apply andb_true_iff in F. destruct F as [F1 F2].
    apply Nat.eqb_eq in F2. apply in_map_iff in H. destruct H as [o [<- Io]].
    assert (Ik : In o (keys brs (g0 b) (g1 b))) by (rewrite K; simpl; auto).
    apply keys_In in Ik. destruct Ik as [bo [No _]].
    exists l, b, first, others, o, bo. unfold g0_at. rewrite No. simpl. repeat split; auto.
  - intros [l [b [first [others [o [bo [N [F [K [E [Io [No ->]]]]]]]]]]]]. exists (l, b).
    split; [now apply numbered_In|]. rewrite K, F, E, Nat.eqb_refl. simpl. apply in_map_iff. exists o.
    split; auto. unfold g0_at. now rewrite No.
Qed.

Lemma multi_outflow brs col x : In col (multi_columns brs) -> col_outflow brs col x = 0%Z.
Proof.
  intros H. apply multi_In in H.
  destruct H as [l [b [first [others [o [bo [N [F [K [E [Io [No ->]]]]]]]]]]]].
  assert (Ik : In o (keys brs (g0 b) (g1 b))) by (rewrite K; simpl; auto).
  apply keys_In in Ik. destruct Ik as [bo' [No' [_ G]]]. rewrite No in No'. injection No' as <-.
  unfold col_outflow, inc. cbn [fold_right fst snd]. rewrite N, No.
  destruct (Nat.eqb_spec (g0 bo) (g0 b)) as [E0|E0].
  - assert (g1 bo = g1 b) by (destruct G as [[_ G]|[G1 G2]]; congruence). rewrite E0, H. lia.
  - destruct G as [[G _]|[G1 G2]]; [congruence|]. rewrite G1, G2. lia.
Qed.

Lemma find_cycles_circulation brs cycles cols col x :
  find_cycles brs cycles = Some cols -> In col cols -> col_outflow brs col x = 0%Z.
Proof.
  unfold find_cycles. intros H I. destruct (sequence _) as [cs|] eqn:S; [|discriminate].
  simpl in H. injection H as <-. apply in_app_iff in I. destruct I as [I|I].
  - apply (sequence_In _ _ _ S) in I. apply in_map_iff in I. destruct I as [c [W _]].
    rewrite (walk_outflow brs _ _ x W). apply cyclic_telescope.
  - now apply multi_outflow.
Qed.

(* the same as a statement about the dense matrix C *)
Lemma col_outflow_dense brs col x :
  (forall l s, In (l, s) col -> (l < List.length brs)%nat) ->
  zsum (fun l => (inc brs l x * col_entry col l)%Z) (List.length brs) = col_outflow brs col x.
Proof.
  assert (Z0 : forall n, zsum (fun l => (inc brs l x * 0)%Z) n = 0%Z) by (induction n; simpl; lia).
  induction col as [|[l s] col IH]; intros B; simpl; auto.
  specialize (IH (fun l' s' H => B l' s' (or_intror H))). rewrite <- IH.
  specialize (B l s (or_introl eq_refl)).
  rewrite (zsum_ext _ (fun l' => (inc brs l' x * col_entry col l' - (- (s * inc brs l x * delta (Nat.eqb l' l))))%Z)).
  - rewrite zsum_sub.
    assert (X : zsum (fun l' => (- (s * inc brs l x * delta (Nat.eqb l' l)))%Z) (List.length brs)
                = (- (s * inc brs l x))%Z).
    { rewrite (zsum_ext _ (fun l' => (0 - (s * inc brs l x) * delta (Nat.eqb l' l))%Z)) by (intros; lia).
      rewrite zsum_sub.
      assert (M : forall c f n, zsum (fun i => (c * f i)%Z) n = (c * zsum f n)%Z)
        by (intros c f; induction n; simpl; lia).
      rewrite M, zsum_single by exact B.
      assert (zsum (fun _ => 0%Z) (List.length brs) = 0%Z) by (clear; induction (List.length brs); simpl; lia).
      lia. }
    lia.
  - intros i Li. rewrite (Nat.eqb_sym l i). destruct (Nat.eqb_spec i l) as [->|N]; simpl; lia.
Qed.

Lemma walk_bound brs ps col l s : walk_column brs ps = Some col -> In (l, s) col -> (l < List.length brs)%nat.
Proof.
  revert col. induction ps as [|[u v] ps IH]; intros col H I; simpl in H.
  - injection H as <-. destruct I.
  - destruct (keys brs u v) as [|l0 ls] eqn:K; [discriminate|].
    destruct (walk_column brs ps) as [c|]; [|discriminate]. injection H as <-. destruct I as [E|I]; [|eauto].
    injection E as <- _. assert (I0 : In l0 (keys brs u v)) by (rewrite K; simpl; auto).
    apply keys_In in I0. destruct I0 as [b [N _]]. apply nth_error_Some. congruence.
Qed.

Lemma find_cycles_bound brs cycles cols col l s :
  find_cycles brs cycles = Some cols -> In col cols -> In (l, s) col -> (l < List.length brs)%nat.
Proof.
  unfold find_cycles. intros H I Il. destruct (sequence _) as [cs|] eqn:S; [|discriminate].
  simpl in H. injection H as <-. apply in_app_iff in I. destruct I as [I|I].
  - apply (sequence_In _ _ _ S) in I. apply in_map_iff in I. destruct I as [c [W _]]. eapply walk_bound; eauto.
  - apply multi_In in I. destruct I as [l0 [b [first [others [o [bo [N [F [K [E [Io [No ->]]]]]]]]]]]].
    apply nth_error_Some. destruct Il as [Il|[Il|[]]]; injection Il as <- _; congruence.
Qed.

Lemma find_cycles_dense brs cycles cols col x :
  find_cycles brs cycles = Some cols -> In col cols ->
  zsum (fun l => (inc brs l x * col_entry col l)%Z) (List.length brs) = 0%Z.
Proof.
  intros H I. rewrite col_outflow_dense.
  - eapply find_cycles_circulation; eauto.
  - intros l s. eapply find_cycles_bound; eauto.
Qed.

(* entries are -1, 0 or 1 *)
Definition cnt (P : nat -> bool) (ps : list (nat * nat)) (brs : list gbranch) (l : nat) : Z :=
  fold_right (fun uv s => (match keys brs (fst uv) (snd uv) with
                           | l' :: _ => if Nat.eqb l' l && P (fst uv) then 1 else 0
                           | [] => 0 end + s)%Z) 0%Z ps.

Lemma cnt_le1 P brs l ps a :
  NoDup (map fst ps) -> (forall u, P u = true -> u = a) -> (0 <= cnt P ps brs l <= 1)%Z.
Proof.
  intros ND HP. assert (Z0 : forall qs, ~ In a (map fst qs) -> cnt P qs brs l = 0%Z).
  { induction qs as [|[u v] qs IH]; intros NI; simpl in *; auto.
    destruct (keys brs u v) as [|l' ls]; [rewrite IH; tauto|].
    destruct (Nat.eqb l' l && P u) eqn:E; [|rewrite IH; tauto].
    apply andb_true_iff in E. destruct E as [_ E]. apply HP in E. subst. tauto. }
  induction ps as [|[u v] ps IH]; simpl in *; [lia|].
  inversion ND as [|? ? NI ND']; subst. specialize (IH ND').
  destruct (keys brs u v) as [|l' ls]; [lia|].
  destruct (Nat.eqb l' l && P u) eqn:E; [|lia].
  apply andb_true_iff in E. destruct E as [_ E]. apply HP in E. subst u.
  rewrite Z0 by exact NI. lia.
Qed.

Lemma walk_entry brs ps col l b :
  walk_column brs ps = Some col -> nth_error brs l = Some b ->
  col_entry col l = (cnt (fun u => Nat.eqb (g0 b) u) ps brs l
                     - cnt (fun u => negb (Nat.eqb (g0 b) u) && Nat.eqb (g1 b) u) ps brs l)%Z.
Proof.
  revert col. induction ps as [|[u v] ps IH]; intros col H N; simpl in H.
  - injection H as <-. reflexivity.
  - destruct (keys brs u v) as [|l0 ls] eqn:K; [discriminate|].
    destruct (walk_column brs ps) as [c|]; [|discriminate]. injection H as <-. simpl.
    rewrite (IH c eq_refl N), K. destruct (Nat.eqb_spec l0 l) as [->|NE]; simpl; [|lia].
    unfold g0_at. rewrite N. simpl.
    assert (I0 : In l (keys brs u v)) by (rewrite K; simpl; auto). apply keys_In in I0.
    destruct I0 as [b' [N' [_ G]]]. rewrite N in N'. injection N' as <-.
    destruct (Nat.eqb_spec (g0 b) u) as [E|E]; cbn [negb andb]; [lia|].
    destruct (Nat.eqb_spec (g1 b) u) as [E1|E1]; [lia|]. destruct G as [[G _]|[_ G]]; congruence.
Qed.

Lemma cyclic_fst cycle : map fst (cyclic_pairs cycle) = cycle.
Proof.
  destruct cycle as [|x r]; auto. unfold cyclic_pairs.
  assert (G : forall a b : list nat, List.length a = List.length b -> map fst (combine a b) = a).
  { induction a as [|y a IH]; intros [|z b] L; simpl in *; try discriminate; auto. f_equal. apply IH. lia. }
  apply G. rewrite app_length. simpl. lia.
Qed.

Lemma find_cycles_entries brs cycles cols col l :
  (forall c, In c cycles -> NoDup c) -> find_cycles brs cycles = Some cols -> In col cols ->
  (-1 <= col_entry col l <= 1)%Z.
Proof.
  intros S H I. destruct (nth_error brs l) as [b|] eqn:N.
  - unfold find_cycles in H. destruct (sequence _) as [cs|] eqn:Sq; [|discriminate].
    simpl in H. injection H as <-. apply in_app_iff in I. destruct I as [I|I].
    + apply (sequence_In _ _ _ Sq) in I. apply in_map_iff in I. destruct I as [c [W Ic]].
      rewrite (walk_entry brs _ col l b W N).
      assert (ND : NoDup (map fst (cyclic_pairs c))) by (rewrite cyclic_fst; auto).
      pose proof (cnt_le1 (fun u => Nat.eqb (g0 b) u) brs l _ (g0 b) ND
                    ltac:(intros u E; apply Nat.eqb_eq in E; auto)).
      pose proof (cnt_le1 (fun u => negb (Nat.eqb (g0 b) u) && Nat.eqb (g1 b) u) brs l _ (g1 b) ND
                    ltac:(intros u E; apply andb_true_iff in E; destruct E as [_ E]; apply Nat.eqb_eq in E; auto)).
      lia.
    + apply multi_In in I. destruct I as [l0 [b0 [first [others [o [bo [N0 [F [K [E [Io [No ->]]]]]]]]]]]].
      assert (ND : NoDup (first :: others)) by (rewrite <- K; apply keys_NoDup).
      inversion ND as [|? ? NI _]; subst first. subst x l1.
      cbn [col_entry fold_right fst snd]. destruct (Nat.eqb_spec l0 l) as [->|_].
      * destruct (Nat.eqb_spec o l) as [->|_]; [contradiction|]. lia.
      * destruct (Nat.eqb o l); destruct (Nat.eqb (g0 bo) (g0 b0)); lia.
  - assert (Z0 : col_entry col l = 0%Z); [|lia].
    assert (B : forall l' s, In (l', s) col -> l' <> l).
    { intros l' s Il E. subst l'. pose proof (find_cycles_bound brs cycles cols col l s H I Il).
      apply nth_error_None in N. lia. }
    clear - B. induction col as [|[l' s] col IH]; simpl; auto.
    destruct (Nat.eqb_spec l' l) as [->|_]; [exfalso; eapply B; simpl; eauto|].
    apply IH. intros l0 s0 I0. eapply B. right. eauto.
Qed.

(* ---------- the number of columns ---------- *)
Lemma NoDup_flat_map {A B} (f : A -> list B) (l : list A) :
  NoDup l -> (forall x, In x l -> NoDup (f x)) ->
  (forall x y z, In x l -> In y l -> In z (f x) -> In z (f y) -> x = y) -> NoDup (flat_map f l).
Proof.
  induction l as [|x l IH]; intros ND F D; simpl; [constructor|].
  inversion ND as [|? ? NI ND']; subst.
  assert (IH' : NoDup (flat_map f l)).
  { apply IH; auto; [intros; apply F; now right|]. intros a b z Ia Ib. apply D; now right. }
  assert (X : forall z, In z (f x) -> ~ In z (flat_map f l)).
  { intros z Iz If. apply in_flat_map in If. destruct If as [y [Iy Izy]].
    assert (x = y) by (eapply D; simpl; eauto). subst. contradiction. }
  specialize (F x (or_introl eq_refl)). clear - F IH' X. induction (f x) as [|z r IHr]; simpl; auto.
  inversion F as [|? ? NI F']; subst. constructor.
  - rewrite in_app_iff. intros [H|H]; [contradiction|]. apply (X z); simpl; auto.
  - apply IHr; auto. intros w Iw. apply X. now right.
Qed.

Lemma between_sym u v b : between u v b = between v u b.
Proof. unfold between. now rewrite orb_comm. Qed.
Lemma keys_sym brs u v : keys brs u v = keys brs v u.
Proof. unfold keys. f_equal. apply filter_ext. intros [l b]. apply between_sym. Qed.

Definition is_first (brs : list gbranch) (lb : nat * gbranch) : bool :=
  gfin (snd lb) && match keys brs (g0 (snd lb)) (g1 (snd lb)) with f :: _ => Nat.eqb f (fst lb) | [] => false end.

Lemma same_keys brs b1 b2 o :
  In o (keys brs (g0 b1) (g1 b1)) -> In o (keys brs (g0 b2) (g1 b2)) ->
  keys brs (g0 b1) (g1 b1) = keys brs (g0 b2) (g1 b2).
Proof.
  intros H1 H2. apply keys_In in H1. apply keys_In in H2.
  destruct H1 as [b [N [_ G1]]], H2 as [b' [N' [_ G2]]]. rewrite N in N'. injection N' as <-.
  destruct G1 as [[A B]|[A B]], G2 as [[C D]|[C D]]; rewrite <- A, <- B, <- C, <- D; auto using keys_sym.
Qed.

Lemma multi_count brs : List.length (multi_columns brs) = num_multi brs.
Proof.
  set (fs := filter (is_first brs) (numbered brs)).
  assert (E1 : List.length (filter (fun b => gfin b) brs) =
               List.length (map fst (filter (fun lb : nat * gbranch => gfin (snd lb)) (numbered brs)))).
  { rewrite map_length. unfold numbered. generalize 0. induction brs as [|b r IH]; intros s; simpl; auto.
    destruct (gfin b); simpl; [f_equal|]; apply IH. }
  assert (P : Permutation
                (map fst (filter (fun lb : nat * gbranch => gfin (snd lb)) (numbered brs)))
                (flat_map (fun lb => keys brs (g0 (snd lb)) (g1 (snd lb))) fs)).
  { apply NoDup_Permutation.
    - apply filter_lt_NoDup.
    - apply NoDup_flat_map.
      + apply NoDup_filter, numbered_NoDup.
      + intros. apply keys_NoDup.
      + intros [l1 b1] [l2 b2] o I1 I2 O1 O2. apply filter_In in I1. apply filter_In in I2.
        destruct I1 as [I1 F1], I2 as [I2 F2]. simpl in *. pose proof (same_keys brs b1 b2 o O1 O2) as K.
        unfold is_first in F1, F2. simpl in F1, F2. rewrite K in F1.
        apply andb_true_iff in F1. apply andb_true_iff in F2. destruct F1 as [_ F1], F2 as [_ F2].
        destruct (keys brs (g0 b2) (g1 b2)) as [|f r]; [discriminate|].
        apply Nat.eqb_eq in F1. apply Nat.eqb_eq in F2. assert (l1 = l2) by congruence. subst l2.
        apply numbered_In in I1. apply numbered_In in I2. congruence.
    - intros o. rewrite in_map_iff, in_flat_map. split.
      + intros [[o' b] [<- H]]. apply filter_In in H. destruct H as [I F]. simpl in *.
        apply numbered_In in I.
        assert (O : In o' (keys brs (g0 b) (g1 b))) by (apply keys_In; exists b; split; auto).
        destruct (keys brs (g0 b) (g1 b)) as [|f r] eqn:K; [destruct O|].
        assert (Of : In f (keys brs (g0 b) (g1 b))) by (rewrite K; simpl; auto).
        pose proof Of as Of'. apply keys_In in Of. destruct Of as [bf [Nf [Ff G]]].
        assert (Kf : keys brs (g0 bf) (g1 bf) = keys brs (g0 b) (g1 b)).
        { apply (same_keys brs bf b f); auto. apply keys_In. exists bf. auto. }
        exists (f, bf). split.
        * apply filter_In. split; [now apply numbered_In|]. unfold is_first. simpl.
          rewrite Ff, Kf, K. now rewrite Nat.eqb_refl.
        * simpl. now rewrite Kf, K.
      + intros [[l b] [I O]]. simpl in O. apply keys_In in O. destruct O as [bo [No [Fo _]]].
        exists (o, bo). split; auto. apply filter_In. split; auto. now apply numbered_In. }
  apply Permutation_length in P.
  assert (E2 : num_multi brs = List.length (filter (fun b => gfin b) brs) - List.length fs) by reflexivity.
  rewrite E2, E1, P.
  assert (G : List.length (multi_columns brs) + List.length fs =
              List.length (flat_map (fun lb => keys brs (g0 (snd lb)) (g1 (snd lb))) fs)); [|lia].
  clear E1 P E2. unfold multi_columns, fs. clear fs.
  induction (numbered brs) as [|[l b] r IH]; [reflexivity|].
  assert (EF : is_first brs (l, b) = gfin b && match keys brs (g0 b) (g1 b) with f :: _ => Nat.eqb f l | [] => false end)
    by reflexivity.
  cbn [flat_map filter]. rewrite EF.
  destruct (keys brs (g0 b) (g1 b)) as [|f others] eqn:K.
  - rewrite andb_false_r. exact IH.
  - destruct (gfin b && Nat.eqb f l) eqn:F; [|exact IH].
    cbn [flat_map snd]. rewrite K, !app_length, map_length. cbn [List.length]. lia.
Qed.

Lemma find_cycles_count brs cycles cols :
  find_cycles brs cycles = Some cols -> List.length cols = List.length cycles + num_multi brs.
Proof.
  unfold find_cycles. intros H. destruct (sequence _) as [cs|] eqn:S; [|discriminate].
  simpl in H. injection H as <-. rewrite app_length, multi_count.
  apply sequence_length in S. rewrite map_length in S. lia.
Qed.

(* a closed walk over branches that exist gets a column *)
Lemma walk_total brs ps :
  (forall u v, In (u, v) ps -> exists b, In b brs /\ gfin b = true /\ ((g0 b = u /\ g1 b = v) \/ (g0 b = v /\ g1 b = u))) ->
  exists col, walk_column brs ps = Some col.
Proof.
  induction ps as [|[u v] ps IH]; intros H; simpl; [eauto|].
  destruct IH as [c ->]; [intros; apply H; now right|].
  destruct (H u v (or_introl eq_refl)) as [b [I [F G]]]. apply In_nth_error in I. destruct I as [l N].
  assert (O : In l (keys brs u v)) by (apply keys_In; eauto).
  destruct (keys brs u v) as [|l0 ls]; [destruct O|]. eauto.
Qed.

Lemma find_cycles_total brs cycles :
  (forall c u v, In c cycles -> In (u, v) (cyclic_pairs c) ->
     exists b, In b brs /\ gfin b = true /\ ((g0 b = u /\ g1 b = v) \/ (g0 b = v /\ g1 b = u))) ->
  exists cols, find_cycles brs cycles = Some cols.
Proof.
  intros H. unfold find_cycles.
  assert (S : exists cs, sequence (map (fun c => walk_column brs (cyclic_pairs c)) cycles) = Some cs).
  { induction cycles as [|c cycles IH]; simpl; [eauto|].
    destruct (walk_total brs (cyclic_pairs c)) as [col ->]; [intros u v I; apply (H c); simpl; auto|].
    destruct IH as [cs ->]; [intros c' u v I; apply H; now right|]. simpl. eauto. }
  destruct S as [cs ->]. simpl. eauto.
Qed.
