From Coq Require Import List String Bool ZArith Lia Arith.
From Verif Require Import Assoc TablesModel TablesProofs TransferModel TransferProofs EqualsModel EqualsSpec.
Import ListNotations.
Open Scope string_scope.
Open Scope list_scope.

Fixpoint size (v : pyv) : nat :=
  match v with
  | PDict d => S (list_sum (map (fun e => size (snd e)) d))
  | PList l | PTuple l => S (list_sum (map size l))
  | _ => 1
  end.

Lemma size_In_dict d k v : In (k, v) d -> size v < size (PDict d).
Proof.
  simpl. induction d as [|e r IH]; simpl; [tauto|]. intros [->|H]; simpl; [lia|].
  specialize (IH H). lia.
Qed.
Lemma size_In_list (l : list pyv) v : In v l -> size v < S (list_sum (map size l)).
Proof.
  induction l as [|e r IH]; simpl; [tauto|]. intros [->|H]; [lia|]. specialize (IH H). lia.
Qed.

Lemma pyv_ind' (P : pyv -> Prop) :
  (forall a, (forall b, size b < size a -> P b) -> P a) -> forall a, P a.
Proof.
  intros H a. assert (X : forall n b, size b < n -> P b).
  { induction n as [|n IH]; intros b L; [lia|]. apply H. intros c Lc. apply IH. lia. }
  apply (X (S (size a))). lia.
Qed.

(* ---- the loops inside equals ---- *)
Fixpoint dict_loop (d' : dict pyv) (l : list (string * pyv)) : option bool :=
  match l with
  | [] => Some true
  | (k, v) :: r =>
      match dget d' k with
      | None => Some false
      | Some w => match equals v w with Some true => dict_loop d' r | o => o end
      end
  end.
Fixpoint list_loop (l l' : list pyv) : option bool :=
  match l, l' with
  | x :: r, y :: r' => match equals x y with Some true => list_loop r r' | o => o end
  | _, _ => Some true
  end.

Lemma equals_dict d d' :
  equals (PDict d) (PDict d') =
  match dict_loop d' d with Some true => Some (forallb (fun k => dmem d k) (dkeys d')) | o => o end.
Proof.
  assert (X : forall l, (fix go (l : list (string * pyv)) : option bool :=
                   match l with
                   | [] => Some true
                   | (k, v) :: r =>
                       match dget d' k with
                       | None => Some false
                       | Some w => match equals v w with Some true => go r | o => o end
                       end
                   end) l = dict_loop d' l).
  { induction l as [|[k v] r IH]; simpl; [reflexivity|]. destruct (dget d' k) as [w|]; [|reflexivity].
    destruct (equals v w) as [[|]|]; [exact IH|reflexivity|reflexivity]. }
  cbn [equals]. cbn. now rewrite X.
Qed.

Definition seq_of (v : pyv) : option (list pyv) :=
  match v with PList l | PTuple l => Some l | _ => None end.

Lemma equals_seq a b l l' :
  seq_of a = Some l -> seq_of b = Some l' ->
  equals a b = if negb (Nat.eqb (List.length l) (List.length l')) then Some false else list_loop l l'.
Proof.
  assert (X : forall l l', (fix go (l l' : list pyv) : option bool :=
                  match l, l' with
                  | x :: r, y :: r' => match equals x y with Some true => go r r' | o => o end
                  | _, _ => Some true
                  end) l l' = list_loop l l').
  { reflexivity. }
  intros Ha Hb. destruct a; try discriminate; destruct b; try discriminate;
    injection Ha as ->; injection Hb as ->; cbn; destruct (Nat.eqb _ _); simpl; auto; apply X.
Qed.

Lemma dict_loop_true d' l :
  dict_loop d' l = Some true <->
  (forall k v, In (k, v) l -> exists w, dget d' k = Some w /\ equals v w = Some true).
Proof.
  induction l as [|[k v] r IH]; simpl; [split; [intros _ k v []|auto]|].
  destruct (dget d' k) as [w|] eqn:D.
  - destruct (equals v w) as [[|]|] eqn:E.
    + rewrite IH. split.
      * intros H k0 v0 [X|X]; [injection X as <- <-; eauto|eauto].
      * intros H k0 v0 X. eauto.
    + split; [discriminate|]. intros H. destruct (H k v (or_introl eq_refl)) as [w0 [A B]]. congruence.
    + split; [discriminate|]. intros H. destruct (H k v (or_introl eq_refl)) as [w0 [A B]]. congruence.
  - split; [discriminate|]. intros H. destruct (H k v (or_introl eq_refl)) as [w0 [A B]]. congruence.
Qed.

Lemma list_loop_true l l' :
  List.length l = List.length l' ->
  (list_loop l l' = Some true <->
   forall i v w, nth_error l i = Some v -> nth_error l' i = Some w -> equals v w = Some true).
Proof.
  revert l'. induction l as [|x r IH]; intros [|y r'] L; simpl in *; try discriminate.
  - split; auto. intros _ [|i]; discriminate.
  - specialize (IH r' ltac:(lia)). destruct (equals x y) as [[|]|] eqn:E.
    + rewrite IH. split.
      * intros H [|i] v w A B; simpl in *; [congruence|eauto].
      * intros H i v w A B. apply (H (S i)); auto.
    + split; [discriminate|]. intros H. specialize (H 0 x y eq_refl eq_refl). congruence.
    + split; [discriminate|]. intros H. specialize (H 0 x y eq_refl eq_refl). congruence.
Qed.

Lemma vals_eqb_eq a b : vals_eqb a b = true <-> a = b.
Proof.
  revert b. induction a as [|x a IH]; intros [|y b]; simpl; try (split; congruence).
  rewrite andb_true_iff, val_eqb_eq, IH. split; [intros [-> ->]; auto|]. intros E. injection E; auto.
Qed.
Lemma tcols_eqb_eq a b : tcols_eqb a b = true <-> a = b.
Proof.
  revert b. induction a as [|[k x] a IH]; intros [|[k' y] b]; simpl; try (split; congruence).
  rewrite !andb_true_iff, String.eqb_eq, vals_eqb_eq, IH.
  split; [intros [[-> ->] ->]; auto|]. intros E. injection E; auto.
Qed.

(* ---- equal heads ---- *)
Lemma Some_inj {A} (x y : A) : Some x = Some y -> x = y.
Proof. congruence. Qed.

Lemma equals_head a b : equals a b = Some true -> close (head a) (head b).
Proof.
  destruct a as [x|x|x|x| | |x|x y|x|x|x|x]; destruct b as [x'|x'|x'|x'| | |x'|x' y'|x'|x'|x'|x'];
    try (cbn; discriminate); try (cbn; intros _; apply c_same); try (cbn; intros _; apply c_ign).
  all: try (cbn; intros E; apply Some_inj in E; apply Bool.eqb_prop in E; subst; apply c_same).
  all: try (cbn; intros E; apply Some_inj in E; apply Z.eqb_eq in E; subst; constructor).
  all: try (cbn; intros E; apply Some_inj in E; apply String.eqb_eq in E; subst; apply c_same).
  all: try (cbn; intros E; apply Some_inj in E; apply vals_eqb_eq in E; subst; apply c_same).
  - cbn. intros E. apply Some_inj in E.
    apply orb_true_iff in E. destruct E as [E|E]; apply andb_true_iff in E; destruct E as [E1 E2].
    + now constructor.
    + apply list_eqb_eq in E1. apply tcols_eqb_eq in E2. subst. constructor.
  - destruct x, x'; cbn; try discriminate. intros _. constructor.
  - destruct x, x'; cbn; try discriminate. intros _. constructor.
  - destruct x as [|x0 x], x' as [|[k0 v0] x']; cbn; try discriminate; [intros _; constructor|].
    destruct (Nat.eqb _ _); discriminate.
  - rewrite (equals_seq _ _ x x') by reflexivity. destruct (Nat.eqb _ _) eqn:L; [|discriminate].
    apply Nat.eqb_eq in L. intros _. cbn. rewrite L. constructor.
  - rewrite (equals_seq _ _ x x') by reflexivity. destruct (Nat.eqb _ _) eqn:L; [|discriminate].
    apply Nat.eqb_eq in L. intros _. cbn. rewrite L. constructor.
  - destruct x as [|x0 x], x' as [|[k0 v0] x']; cbn; try discriminate; [intros _; constructor|].
    destruct (Nat.eqb _ _); discriminate.
  - rewrite (equals_seq _ _ x x') by reflexivity. destruct (Nat.eqb _ _) eqn:L; [|discriminate].
    apply Nat.eqb_eq in L. intros _. cbn. rewrite L. constructor.
  - rewrite (equals_seq _ _ x x') by reflexivity. destruct (Nat.eqb _ _) eqn:L; [|discriminate].
    apply Nat.eqb_eq in L. intros _. cbn. rewrite L. constructor.
Qed.

(* children of equal values correspond *)
Lemma equals_child a b s :
  equals a b = Some true -> wf a ->
  (forall v, child a s = Some v -> exists w, child b s = Some w /\ equals v w = Some true) /\
  (forall w, child b s = Some w -> (exists t, a = PIgn t) \/ exists v, child a s = Some v).
Proof.
  intros E W. destruct a.
  all: try (split; [destruct s; discriminate|]).
  all: try (intros w Hw; destruct b; try (destruct s; discriminate); cbn in E; discriminate).
  - (* dict *)
    destruct b; try (cbn in E; discriminate).
    + rewrite equals_dict in E. destruct (dict_loop d0 d) as [[|]|] eqn:L; try discriminate.
      injection E as E. rewrite dict_loop_true in L. destruct s as [k|i]; [|split; simpl; discriminate].
      simpl. split.
      * intros v Hv. apply dget_In in Hv. destruct (L k v Hv) as [w [A B]]. eauto.
      * intros w Hw. right. rewrite forallb_forall in E. apply dget_Some_keys in Hw.
        apply dmem_true. now apply E.
    + destruct d, l; cbn in E; try discriminate. split; [destruct s; discriminate|].
      intros w Hw. destruct s as [k|i]; simpl in Hw; [discriminate|destruct i; discriminate].
    + destruct d, l; cbn in E; try discriminate. split; [destruct s; discriminate|].
      intros w Hw. destruct s as [k|i]; simpl in Hw; [discriminate|destruct i; discriminate].
  - (* list *)
    destruct b; try (cbn in E; discriminate).
    + destruct l as [|x l], d as [|[k0 v0] d]; cbn in E; try discriminate;
        [|destruct (Nat.eqb _ _); discriminate].
      split; [destruct s as [k|[|i]]; discriminate|]. intros w Hw. destruct s; discriminate.
    + rewrite (equals_seq _ _ l l0) in E by reflexivity. destruct (Nat.eqb _ _) eqn:L; [|discriminate].
      apply Nat.eqb_eq in L. simpl in E. rewrite list_loop_true in E by exact L.
      destruct s as [k|i]; [split; simpl; discriminate|]. simpl. split.
      * intros v Hv. destruct (nth_error l0 i) as [w|] eqn:N; eauto. exfalso.
        apply nth_error_None in N. assert (i < List.length l) by (apply nth_error_Some; congruence). lia.
      * intros w Hw. right. destruct (nth_error l i) as [v|] eqn:N; eauto. exfalso.
        apply nth_error_None in N. assert (i < List.length l0) by (apply nth_error_Some; congruence). lia.
    + rewrite (equals_seq _ _ l l0) in E by reflexivity. destruct (Nat.eqb _ _) eqn:L; [|discriminate].
      apply Nat.eqb_eq in L. simpl in E. rewrite list_loop_true in E by exact L.
      destruct s as [k|i]; [split; simpl; discriminate|]. simpl. split.
      * intros v Hv. destruct (nth_error l0 i) as [w|] eqn:N; eauto. exfalso.
        apply nth_error_None in N. assert (i < List.length l) by (apply nth_error_Some; congruence). lia.
      * intros w Hw. right. destruct (nth_error l i) as [v|] eqn:N; eauto. exfalso.
        apply nth_error_None in N. assert (i < List.length l0) by (apply nth_error_Some; congruence). lia.
  - (* tuple *)
    destruct b; try (cbn in E; discriminate).
    + destruct l as [|x l], d as [|[k0 v0] d]; cbn in E; try discriminate;
        [|destruct (Nat.eqb _ _); discriminate].
      split; [destruct s as [k|[|i]]; discriminate|]. intros w Hw. destruct s; discriminate.
    + rewrite (equals_seq _ _ l l0) in E by reflexivity. destruct (Nat.eqb _ _) eqn:L; [|discriminate].
      apply Nat.eqb_eq in L. simpl in E. rewrite list_loop_true in E by exact L.
      destruct s as [k|i]; [split; simpl; discriminate|]. simpl. split.
      * intros v Hv. destruct (nth_error l0 i) as [w|] eqn:N; eauto. exfalso.
        apply nth_error_None in N. assert (i < List.length l) by (apply nth_error_Some; congruence). lia.
      * intros w Hw. right. destruct (nth_error l i) as [v|] eqn:N; eauto. exfalso.
        apply nth_error_None in N. assert (i < List.length l0) by (apply nth_error_Some; congruence). lia.
    + rewrite (equals_seq _ _ l l0) in E by reflexivity. destruct (Nat.eqb _ _) eqn:L; [|discriminate].
      apply Nat.eqb_eq in L. simpl in E. rewrite list_loop_true in E by exact L.
      destruct s as [k|i]; [split; simpl; discriminate|]. simpl. split.
      * intros v Hv. destruct (nth_error l0 i) as [w|] eqn:N; eauto. exfalso.
        apply nth_error_None in N. assert (i < List.length l) by (apply nth_error_Some; congruence). lia.
      * intros w Hw. right. destruct (nth_error l i) as [v|] eqn:N; eauto. exfalso.
        apply nth_error_None in N. assert (i < List.length l0) by (apply nth_error_Some; congruence). lia.
  - intros w Hw. left. eauto.
Qed.

Lemma wf_child a s v : wf a -> child a s = Some v -> wf v.
Proof.
  intros W H. destruct a; destruct s; try discriminate; simpl in H.
  - inversion W as [? ? F| | |? X]; subst; [|destruct X]. apply dget_In in H. eauto.
  - inversion W as [|? F| |? X]; subst; [|destruct X]. apply nth_error_In in H. eauto.
  - inversion W as [| |? F|? X]; subst; [|destruct X]. apply nth_error_In in H. eauto.
Qed.

(* what equals = True guarantees *)
Lemma equals_sound a b p :
  wf a -> equals a b = Some true ->
  (forall h, obs a p = Some h -> exists h', obs b p = Some h' /\ close h h') /\
  (forall h', obs b p = Some h' ->
     (exists h, obs a p = Some h) \/ exists q r t, p = q ++ r /\ at_path a q = Some (PIgn t)).
Proof.
  revert a b. induction p as [|s p IH]; intros a b W E; unfold obs; simpl.
  - split.
    + intros h Hh. injection Hh as <-. eexists. split; [reflexivity|]. now apply equals_head.
    + intros h' _. left. eauto.
  - destruct (equals_child a b s E W) as [C1 C2]. split.
    + intros h Hh. destruct (child a s) as [v|] eqn:Cv; [|discriminate].
      destruct (C1 v eq_refl) as [w [Hw Ew]]. rewrite Hw.
      destruct (IH v w (wf_child a s v W Cv) Ew) as [A _]. now apply A.
    + intros h' Hh. destruct (child b s) as [w|] eqn:Cw; [|discriminate].
      destruct (C2 w eq_refl) as [[t ->]|[v Cv]].
      * right. exists [], (s :: p), t. auto.
      * rewrite Cv. destruct (C1 v Cv) as [w' [Hw Ew]]. injection Hw as <-.
        destruct (IH v w (wf_child a s v W Cv) Ew) as [_ B].
        destruct (B h' Hh) as [X|[q [r [t [Hp Hq]]]]]; auto.
        right. exists (s :: q), r, t. simpl. rewrite Cv, Hp. auto.
Qed.

(* no false negatives: values with the same contents at every path are equal *)
Lemma obs_child a b s v w :
  (forall p, obs a p = obs b p) -> child a s = Some v -> child b s = Some w ->
  forall p, obs v p = obs w p.
Proof.
  intros H A B p. specialize (H (s :: p)). unfold obs in *. simpl in H. now rewrite A, B in H.
Qed.

Lemma equals_complete a : forall b,
  wf a -> wf b -> (forall p, obs a p = obs b p) -> equals a b = Some true.
Proof.
  induction a as [a IH] using pyv_ind'. intros b Wa Wb H.
  pose proof (H []) as H0. unfold obs in H0. simpl in H0. injection H0 as H0.
  assert (Hsome : forall s, (exists v, child a s = Some v) <-> (exists w, child b s = Some w)).
  { intros s. specialize (H [s]). unfold obs in H. simpl in H.
    destruct (child a s), (child b s); simpl in H; try discriminate;
      split; intros [x X]; eauto; discriminate. }
  destruct a; destruct b; try discriminate; simpl in H0.
  - injection H0 as ->. cbn. now rewrite Bool.eqb_reflx.
  - injection H0 as ->. cbn. now rewrite Z.eqb_refl.
  - injection H0 as ->. cbn. now rewrite Z.eqb_refl.
  - injection H0 as ->. cbn. now rewrite String.eqb_refl.
  - reflexivity.
  - reflexivity.
  - injection H0 as ->. cbn. f_equal. now apply vals_eqb_eq.
  - injection H0 as -> ->. cbn. f_equal. apply orb_true_iff. right. apply andb_true_iff. split.
    + now apply list_eqb_eq.
    + now apply tcols_eqb_eq.
  - (* dict *)
    rewrite equals_dict.
    assert (L : dict_loop d0 d = Some true).
    { apply dict_loop_true. intros k v Iv.
      assert (Hv : dget d k = Some v).
      { inversion Wa as [? ND F| | |? X]; subst; [|destruct X]. now apply In_dget. }
      destruct (proj1 (Hsome (K k)) (ex_intro _ v Hv)) as [w Hw]. simpl in Hw.
      exists w. split; auto. apply IH.
      - eapply size_In_dict; eauto.
      - apply (wf_child (PDict d) (K k)); auto.
      - apply (wf_child (PDict d0) (K k)); auto.
      - apply (obs_child (PDict d) (PDict d0) (K k)); auto. }
    rewrite L. f_equal. apply forallb_forall. intros k Ik. apply dget_keys_Some in Ik.
    apply dmem_true. apply (Hsome (K k)). exact Ik.
  - injection H0 as H0. rewrite (equals_seq _ _ l l0) by reflexivity. rewrite H0, Nat.eqb_refl. simpl.
    apply list_loop_true; auto. intros i v w A B. apply IH.
    + simpl. apply size_In_list. eapply nth_error_In; eauto.
    + apply (wf_child (PList l) (I i)); auto.
    + apply (wf_child (PList l0) (I i)); auto.
    + apply (obs_child (PList l) (PList l0) (I i)); auto.
  - injection H0 as H0. rewrite (equals_seq _ _ l l0) by reflexivity. rewrite H0, Nat.eqb_refl. simpl.
    apply list_loop_true; auto. intros i v w A B. apply IH.
    + simpl. apply size_In_list. eapply nth_error_In; eauto.
    + apply (wf_child (PTuple l) (I i)); auto.
    + apply (wf_child (PTuple l0) (I i)); auto.
    + apply (obs_child (PTuple l) (PTuple l0) (I i)); auto.
  - reflexivity.
Qed.

Lemma equals_refl a : wf a -> equals a a = Some true.
Proof. intros W. now apply equals_complete. Qed.

(* ---- the network ---- *)
Lemma net_equals_true a b :
  net_equals a b = Some true <->
  forall k v, In (k, v) a -> exists w, dget b k = Some w /\ equals v w = Some true.
Proof.
  induction a as [|[k v] r IH]; simpl; [split; [intros _ k v []|auto]|].
  destruct (dget b k) as [w|] eqn:D.
  - destruct (equals v w) as [x|] eqn:E.
    + destruct (net_equals r b) as [y|] eqn:N.
      * split.
        -- intros X. injection X as X. apply andb_true_iff in X. destruct X as [-> ->].
           intros k0 v0 [Y|Y]; [injection Y as <- <-; eauto|]. apply (proj1 IH eq_refl); auto.
        -- intros X. destruct (X k v (or_introl eq_refl)) as [w0 [A B]].
           assert (y = true).
           { assert (Some y = Some true) by (apply IH; intros; apply X; auto). congruence. }
           rewrite D in A. injection A as <-. rewrite E in B. injection B as ->. now subst.
      * split; [discriminate|]. intros X. exfalso.
        assert (None = Some true) by (apply IH; intros; apply X; auto). discriminate.
    + split; [discriminate|]. intros X. destruct (X k v (or_introl eq_refl)) as [w0 [A B]]. congruence.
  - split; [discriminate|]. intros X. destruct (X k v (or_introl eq_refl)) as [w0 [A B]]. congruence.
Qed.

Lemma net_equals_refl a :
  NoDup (dkeys a) -> (forall k v, In (k, v) a -> wf v) -> net_equals a a = Some true.
Proof.
  intros ND W. apply net_equals_true. intros k v Iv. exists v. split; [now apply In_dget|].
  apply equals_refl. eauto.
Qed.

Lemma net_equals_sound a b k v p h :
  net_equals a b = Some true -> (forall k v, In (k, v) a -> wf v) ->
  In (k, v) a -> obs v p = Some h ->
  exists w h', dget b k = Some w /\ obs w p = Some h' /\ close h h'.
Proof.
  intros E W Iv Ho. rewrite net_equals_true in E. destruct (E k v Iv) as [w [Hw Ew]].
  destruct (equals_sound v w p (W k v Iv) Ew) as [A _]. destruct (A h Ho) as [h' [Hh C]]. eauto.
Qed.

Lemma equals_kinds a b :
  scalar a <> scalar b -> ~ (scalar a = Some SBool /\ scalar b = Some SInt) -> equals a b = Some false.
Proof.
  intros N B. destruct a, b; try (exfalso; apply N; reflexivity); try (exfalso; apply B; split; reflexivity);
    reflexivity.
Qed.
