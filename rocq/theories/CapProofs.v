From Coq Require Import List String Ascii Bool QArith ZArith Arith Lqa Lia.
From Verif Require Import LinModel LinProofs CapModel CapSpec.
From Verif Require BalanceProofs LimitProofs.
Import ListNotations.
Open Scope string_scope.
Open Scope list_scope.
Open Scope Q_scope.
Import BalanceProofs.

Notation eval_total := LimitProofs.eval_total.

Lemma eval_app' x a b : eval x (a ++ b) == eval x a + eval x b.
Proof. rewrite !eval_total. apply total_app. Qed.
Lemma eval_flat {A} x (g : A -> lin) l : eval x (flat_map g l) == total (fun a => eval x (g a)) l.
Proof. rewrite eval_total, total_flat. apply total_ext. intros a _. symmetry. apply eval_total. Qed.
Lemma holds_sense x c : holds x c <-> sense_holds (sns c) (eval x (lhs c)) (rhs c).
Proof. unfold holds, LimitSpec.sense_holds. destruct (sns c); reflexivity. Qed.
Lemma sense_ext s a b q : a == b -> (sense_holds s a q <-> sense_holds s b q).
Proof. intros E. destruct s; cbn [LimitSpec.sense_holds]; rewrite E; reflexivity. Qed.
Lemma mem_iff s l : mem s l = true <-> In s l.
Proof. unfold mem. rewrite existsb_exists. split; [intros [y [I E]]; apply String.eqb_eq in E; congruence|intros I; exists s; split; [auto|apply String.eqb_refl]]. Qed.
Lemma memz_iff s l : memz s l = true <-> In s l.
Proof. unfold memz. rewrite existsb_exists. split; [intros [y [I E]]; apply Z.eqb_eq in E; congruence|intros I; exists s; split; [auto|apply Z.eqb_refl]]. Qed.
Lemma nonempty_iff {A} (l : list A) : nonempty l = true <-> exists a, In a l.
Proof. destruct l as [|a l]; cbn [nonempty]; split; intros H; try discriminate; auto; [destruct H as [a []]|exists a; simpl; auto]. Qed.
Lemma nonempty_false {A} (l : list A) : nonempty l = false <-> l = [].
Proof. destruct l; cbn [nonempty]; split; congruence. Qed.

(* sums class by class *)
Lemma by_class x (G : string -> bool) (P : asset -> bool) (coef : asset -> Q) L :
  total (fun ca => eval x (if G (fst ca) then map (fun a => (coef a, nom_label (fst ca) (snd ca) a)) (filter P (filter (fun a => String.eqb (k_class a) (fst ca)) L)) else [])) nominal
  == total (fun a => if G (k_class a) && P a then coef a * capacity x a else 0) L.
Proof.
  transitivity (total (fun ca => total (fun a => if G (fst ca) && String.eqb (k_class a) (fst ca) && P a then coef a * val x (nom_label (fst ca) (snd ca) a) else 0) L) nominal).
  { apply total_ext. intros ca _. destruct (G (fst ca)); cbn [andb].
    - rewrite eval_total, total_map, !total_filter. apply total_ext. intros a _. cbn [fst snd]. destruct (String.eqb (k_class a) (fst ca)), (P a); reflexivity.
    - symmetry. apply total_zero. reflexivity. }
  rewrite total_swap. apply total_ext. intros a _.
  unfold nominal, BalanceSpec.total. cbn [fold_right fst snd]. unfold capacity, attr_of, nom_label, vname.
  destruct (String.eqb_spec (k_class a) "Generator") as [E|_]; [rewrite E; cbn [String.eqb Ascii.eqb Bool.eqb andb val append]; rewrite ?andb_false_r, ?andb_true_r; cbn [andb]; destruct (G _); cbn [andb]; destruct (P a); ring|].
  destruct (String.eqb_spec (k_class a) "Line") as [E|_]; [rewrite E; cbn [String.eqb Ascii.eqb Bool.eqb andb val append]; rewrite ?andb_false_r, ?andb_true_r; cbn [andb]; destruct (G _); cbn [andb]; destruct (P a); ring|].
  destruct (String.eqb_spec (k_class a) "Transformer") as [E|_]; [rewrite E; cbn [String.eqb Ascii.eqb Bool.eqb andb val append]; rewrite ?andb_false_r, ?andb_true_r; cbn [andb]; destruct (G _); cbn [andb]; destruct (P a); ring|].
  destruct (String.eqb_spec (k_class a) "Link") as [E|_]; [rewrite E; cbn [String.eqb Ascii.eqb Bool.eqb andb val append]; rewrite ?andb_false_r, ?andb_true_r; cbn [andb]; destruct (G _); cbn [andb]; destruct (P a); ring|].
  destruct (String.eqb_spec (k_class a) "Store") as [E|_]; [rewrite E; cbn [String.eqb Ascii.eqb Bool.eqb andb val append]; rewrite ?andb_false_r, ?andb_true_r; cbn [andb]; destruct (G _); cbn [andb]; destruct (P a); ring|].
  destruct (String.eqb_spec (k_class a) "StorageUnit") as [E|_]; [rewrite E; cbn [String.eqb Ascii.eqb Bool.eqb andb val append]; rewrite ?andb_false_r, ?andb_true_r; cbn [andb]; destruct (G _); cbn [andb]; destruct (P a); ring|].
  rewrite !andb_false_r. cbn [andb]. destruct (G _ && P a); ring.
Qed.

(* grouping and merging *)
Lemma keys_groupby {A} (f : A -> string) term l : keys (groupby f term l) = nodup string_dec (map f l).
Proof. unfold keys, groupby. rewrite map_map. cbn [fst]. apply map_id. Qed.
Lemma at_groupby {A} (f : A -> string) term l k : at_key (groupby f term l) k = map term (filter (fun a => String.eqb (f a) k) l).
Proof.
  unfold at_key, groupby.
  assert (H : forall ks, find (fun e => String.eqb (fst e) k) (map (fun k => (k, map term (filter (fun a => String.eqb (f a) k) l))) ks) =
    if mem k ks then Some (k, map term (filter (fun a => String.eqb (f a) k) l)) else None).
  { intros ks. unfold mem. induction ks as [|k' ks IH]; [reflexivity|]. cbn [map find fst existsb]. rewrite (String.eqb_sym k k'). destruct (String.eqb_spec k' k) as [->|D]; [reflexivity|exact IH]. }
  rewrite H. destruct (mem k (nodup string_dec (map f l))) eqn:M; [reflexivity|]. symmetry.
  assert (NI : ~ In k (map f l)) by (intros I; apply (nodup_In string_dec) in I; apply mem_iff in I; congruence).
  clear - NI. induction l as [|a l IH]; [reflexivity|]. cbn [filter map] in *. destruct (String.eqb_spec (f a) k) as [E|_]; [exfalso; apply NI; simpl; auto|]. apply IH. intros I. apply NI. simpl. auto.
Qed.
Lemma total_keys (g : grouped) F : NoDup (keys g) -> total (fun k => F (at_key g k)) (keys g) == total (fun e => F (snd e)) g.
Proof.
  unfold keys. induction g as [|[k l] g IH]; intros ND; [reflexivity|]. cbn [map fst] in *. inversion ND as [|? ? NI ND']; subst.
  cbn [BalanceSpec.total fold_right]. unfold at_key at 1. cbn [find fst]. rewrite String.eqb_refl. cbn [snd].
  change (fold_right (fun a s => F (at_key ((k, l) :: g) a) + s) 0 (map fst g)) with (total (fun a => F (at_key ((k, l) :: g) a)) (map fst g)).
  change (fold_right (fun a s => F (snd a) + s) 0 g) with (total (fun a : string * lin => F (snd a)) g). rewrite <- IH by auto.
  apply Qplus_comp; [reflexivity|]. apply total_ext. intros k' I. unfold at_key. cbn [find fst]. destruct (String.eqb_spec k k') as [->|_]; [contradiction|reflexivity].
Qed.
Lemma total_cover (ks js : list string) F : NoDup ks -> NoDup js -> (forall k, In k js -> In k ks) -> (forall k, In k ks -> ~ In k js -> F k == 0) -> total F ks == total F js.
Proof.
  revert js. induction ks as [|k ks IH]; intros js N1 N2 I Z.
  - destruct js as [|j js]; [reflexivity|]. exfalso. apply (I j). simpl. auto.
  - inversion N1; subst. destruct (in_dec string_dec k js) as [J|J].
    + destruct (in_split _ _ J) as [l1 [l2 ->]]. apply NoDup_remove in N2. destruct N2 as [N2 NI]. rewrite total_app. cbn [BalanceSpec.total fold_right].
      change (fold_right (fun a s => F a + s) 0 ?l) with (total F l). rewrite (IH (l1 ++ l2)); auto.
      * rewrite total_app. ring.
      * intros a Ia. destruct (I a) as [->|?]; auto; [apply in_app_iff in Ia; apply in_app_iff; simpl; tauto|contradiction].
      * intros a Ia Na. apply Z; [simpl; auto|]. intros Q. apply Na. apply in_app_iff in Q. cbn [In] in Q. apply in_app_iff. destruct Q as [Q|[Q|Q]]; auto. subst. contradiction.
    + cbn [BalanceSpec.total fold_right]. change (fold_right (fun a s => F a + s) 0 ?l) with (total F l). rewrite (Z k) by (simpl; auto). rewrite (IH js); auto; [ring| |].
      * intros a Ia. destruct (I a Ia) as [->|?]; auto. contradiction.
      * intros a Ia Na. apply Z; simpl; auto.
Qed.

Definition wf (l : list grouped) := forall g, In g l -> NoDup (keys g).
Lemma at_missing g k : ~ In k (keys g) -> at_key g k = [].
Proof.
  intros NI. unfold at_key. destruct (find _ g) as [e|] eqn:F; [|reflexivity]. apply find_some in F. destruct F as [I E]. apply String.eqb_eq in E. exfalso. apply NI. apply in_map_iff. eauto.
Qed.
Lemma keys_outer l : keys (merge_outer l) = nodup string_dec (flat_map keys l).
Proof. unfold keys, merge_outer. rewrite map_map. cbn [fst]. apply map_id. Qed.
Lemma at_outer l k : at_key (merge_outer l) k = flat_map (fun g => at_key g k) l.
Proof.
  destruct (in_dec string_dec k (flat_map keys l)) as [I|N].
  - unfold at_key at 1, merge_outer. apply (nodup_In string_dec) in I. induction (nodup string_dec (flat_map keys l)) as [|k' ks IH]; [destruct I|].
    cbn [map find fst]. destruct (String.eqb_spec k' k) as [->|D]; [reflexivity|]. destruct I as [E|I]; [contradiction|auto].
  - rewrite at_missing by (rewrite keys_outer, nodup_In; auto). symmetry. clear - N. induction l as [|g l IH]; [reflexivity|]. cbn [flat_map] in *.
    rewrite at_missing by (intros I; apply N; apply in_app_iff; auto). apply IH. intros I. apply N. apply in_app_iff. auto.
Qed.
Lemma sum_outer x l : wf l -> total (fun e => eval x (snd e)) (merge_outer l) == total (fun g => total (fun e => eval x (snd e)) g) l.
Proof.
  intros W. unfold merge_outer. rewrite total_map. cbn [snd].
  transitivity (total (fun k => total (fun g => eval x (at_key g k)) l) (nodup string_dec (flat_map keys l))).
  { apply total_ext. intros k _. apply eval_flat. }
  rewrite total_swap. apply total_ext. intros g I. rewrite <- (total_keys g (eval x)) by auto. apply total_cover; auto using NoDup_nodup.
  - intros k K. apply nodup_In. apply in_flat_map. eauto.
  - intros k _ N. rewrite at_missing; auto. reflexivity.
Qed.
Lemma total_seq {A} (F : A -> Q) (d : A) l : total (fun i => F (nth i l d)) (seq 0 (List.length l)) == total F l.
Proof.
  assert (H : forall k, total (fun i => F (nth (i - k) l d)) (seq k (List.length l)) == total F l).
  { induction l as [|a l IH]; intros k; [reflexivity|]. cbn [List.length seq BalanceSpec.total fold_right]. rewrite Nat.sub_diag. cbn [nth].
    change (fold_right ?f 0 (seq (S k) (List.length l))) with (total (fun i => F (nth (i - k) (a :: l) d)) (seq (S k) (List.length l))).
    change (fold_right (fun a s => F a + s) 0 l) with (total F l). rewrite <- (IH (S k)). apply Qplus_comp; [reflexivity|]. apply total_ext. intros i I. apply in_seq in I.
    replace (i - k)%nat with (S (i - S k)) by lia. reflexivity. }
  rewrite <- (H 0%nat). apply total_ext. intros i _. now rewrite Nat.sub_0_r.
Qed.
Lemma sum_override x l : same_size l = true -> total (fun e => eval x (snd e)) (merge_override l) == total (fun g => total (fun e => eval x (snd e)) g) l.
Proof.
  destruct l as [|g l]; [reflexivity|]. intros S. cbn [same_size] in S. unfold merge_override. rewrite total_map. cbn [snd].
  transitivity (total (fun i => total (fun g' => eval x (snd (nth i g' ("", [])))) (g :: l)) (seq 0 (List.length g))).
  { apply total_ext. intros i _. apply eval_flat. }
  rewrite total_swap. apply total_ext. intros g' I. rewrite forallb_forall in S.
  assert (L : List.length g' = List.length g) by (destruct I as [->|I]; [reflexivity|apply Nat.eqb_eq; auto]). rewrite <- L.
  apply (total_seq (fun e => eval x (snd e)) ("", [])).
Qed.
Lemma sum_merge x o l : wf l -> total (fun e => eval x (snd e)) (merge o l) == total (fun g => total (fun e => eval x (snd e)) g) l.
Proof. intros W. unfold merge. destruct (o && same_size l) eqn:E; [|apply sum_outer; auto]. apply andb_true_iff in E. apply sum_override. tauto. Qed.

(* merging is by label when linopy aligns, or when there is nothing to align *)
Definition aligned (o : bool) (l : list grouped) := o = false \/ forall g g', In g l -> In g' l -> keys g = keys g'.
Lemma at_nth (g : grouped) i d : NoDup (keys g) -> (i < List.length g)%nat -> snd (nth i g d) = at_key g (nth i (keys g) "").
Proof.
  unfold keys. revert i. induction g as [|[k l] g IH]; intros i ND L; [simpl in L; lia|]. cbn [map fst] in *. inversion ND as [|? ? NI ND']; subst. destruct i as [|i].
  - cbn [nth]. unfold at_key. cbn [find fst]. now rewrite String.eqb_refl.
  - cbn [nth]. cbn [List.length] in L. rewrite IH by (auto; lia). unfold at_key. cbn [find fst]. destruct (String.eqb_spec k (nth i (map fst g) "")) as [E|_]; [|reflexivity].
    exfalso. apply NI. rewrite E. apply nth_In. rewrite map_length. lia.
Qed.
Lemma at_merge o l k : wf l -> aligned o l -> at_key (merge o l) k = flat_map (fun g => at_key g k) l.
Proof.
  intros W A. unfold merge. destruct (o && same_size l) eqn:E; [|apply at_outer]. apply andb_true_iff in E. destruct E as [-> S]. destruct A as [A|A]; [discriminate|].
  destruct l as [|g l]; [reflexivity|]. unfold merge_override.
  destruct (in_dec string_dec k (keys g)) as [I|N].
  - assert (H : forall js, (forall i, In i js -> (i < List.length g)%nat) ->
      find (fun e => String.eqb (fst e) k) (map (fun i => (nth i (keys g) "", flat_map (fun g' : grouped => snd (nth i g' ("", []))) (g :: l))) js) =
      if existsb (fun i => String.eqb (nth i (keys g) "") k) js then Some (k, flat_map (fun g' => at_key g' k) (g :: l)) else None).
    { induction js as [|i js IH]; intros L; [reflexivity|]. cbn [map find fst existsb]. destruct (String.eqb_spec (nth i (keys g) "") k) as [<-|_]; cbn [orb]; [|apply IH; intros; apply L; simpl; auto].
      f_equal. f_equal. assert (Li : (i < List.length g)%nat) by (apply L; simpl; auto). clear - W A Li.
      assert (G : forall g', In g' (g :: l) -> snd (nth i g' ("", [])) = at_key g' (nth i (keys g) "")).
      { intros g' I. rewrite (A g g') by (auto; simpl; auto). apply at_nth; [apply W; auto|]. assert (E : List.length (keys g) = List.length (keys g')) by (rewrite (A g g'); auto; simpl; auto).
        unfold keys in E. rewrite !map_length in E. lia. }
      clear W A. induction (g :: l) as [|h r IHr]; [reflexivity|]. cbn [flat_map]. rewrite G by (simpl; auto). f_equal. apply IHr. intros; apply G; simpl; auto. }
    unfold at_key at 1. rewrite H by (intros i Ii; apply in_seq in Ii; lia).
    assert (EX : existsb (fun i => String.eqb (nth i (keys g) "") k) (seq 0 (List.length g)) = true).
    { apply existsb_exists. apply (In_nth _ _ "") in I. destruct I as [i [Li Ei]]. exists i. unfold keys in Li. rewrite map_length in Li. split; [apply in_seq; lia|]. now apply String.eqb_eq. }
    now rewrite EX.
  - rewrite at_missing.
    + symmetry. assert (G : forall g', In g' (g :: l) -> at_key g' k = []) by (intros g' I; apply at_missing; rewrite <- (A g g'); simpl; auto).
      clear - G. induction (g :: l) as [|h r IHr]; [reflexivity|]. cbn [flat_map]. rewrite G by (simpl; auto). apply IHr. intros; apply G; simpl; auto.
    + intros I. apply N. unfold keys at 1 in I. rewrite map_map in I. cbn [fst] in I. apply in_map_iff in I. destruct I as [i [<- Ii]]. apply nth_In. unfold keys. rewrite map_length. apply in_seq in Ii. lia.
Qed.
Lemma keys_override g l : keys (merge_override (g :: l)) = keys g.
Proof.
  unfold merge_override. unfold keys at 1. rewrite map_map. cbn [fst].
  replace (List.length g) with (List.length (keys g)) by (unfold keys; apply map_length). generalize (keys g). clear. intros ks.
  assert (H : forall j, map (fun i => nth (i - j) ks "") (seq j (List.length ks)) = ks).
  { induction ks as [|a ks IH]; intros j; [reflexivity|]. cbn [List.length seq map]. rewrite Nat.sub_diag. cbn [nth]. f_equal. rewrite <- (IH (S j)) at 2. apply map_ext_in. intros i I. apply in_seq in I.
    replace (i - j)%nat with (S (i - S j)) by lia. reflexivity. }
  rewrite <- (H 0%nat) at 2. apply map_ext. intros i. now rewrite Nat.sub_0_r.
Qed.
Lemma nodup_merge o l : wf l -> NoDup (keys (merge o l)).
Proof.
  intros W. unfold merge. destruct (o && same_size l); [|rewrite keys_outer; apply NoDup_nodup]. destruct l as [|g l]; [constructor|]. rewrite keys_override. apply W. simpl. auto.
Qed.
Lemma in_keys_merge o l k : aligned o l -> (In k (keys (merge o l)) <-> exists g, In g l /\ In k (keys g)).
Proof.
  intros A. unfold merge. destruct (o && same_size l) eqn:E.
  - apply andb_true_iff in E. destruct E as [-> S]. destruct A as [A|A]; [discriminate|]. destruct l as [|g l]; [simpl; split; [tauto|intros [g [[] _]]]|].
    rewrite keys_override. split; [intros I; exists g; simpl; auto|]. intros [g' [I K]]. rewrite (A g g'); simpl; auto.
  - rewrite keys_outer, nodup_In, in_flat_map. reflexivity.
Qed.

(* technology limits *)
Lemma in_tech n k p c a : In a (tech_assets n k p c) /\ has_carrier n c = true <-> In a (assets n) /\ k_class a = c /\ of_tech n k p a = true.
Proof.
  unfold tech_assets, ext_i, cls, of_tech. rewrite !filter_In, !andb_true_iff, String.eqb_eq. split.
  - intros [[[[[I C] E] K] A] H]. subst c. auto 10.
  - intros [I [C [[[E K] H] A]]]. subst c. auto 10.
Qed.
Lemma tech_wf n k p : wf (tech_exprs n k p).
Proof.
  intros g I. unfold tech_exprs in I. apply in_flat_map in I. destruct I as [ca [_ I]]. destruct (_ && _); [|destruct I]. destruct I as [<-|[]]. rewrite keys_groupby. apply NoDup_nodup.
Qed.
Lemma in_tech_exprs n k p g : In g (tech_exprs n k p) <-> exists ca, In ca nominal /\ has_carrier n (fst ca) = true /\ nonempty (tech_assets n k p (fst ca)) = true /\
  g = groupby k_bus (fun a => (1, nom_label (fst ca) (snd ca) a)) (tech_assets n k p (fst ca)).
Proof.
  unfold tech_exprs. rewrite in_flat_map. split.
  - intros [ca [N I]]. exists ca. destruct (has_carrier n (fst ca)); [|destruct I]. destruct (nonempty _); [|destruct I]. destruct I as [<-|[]]. auto.
  - intros [ca [N [H [E ->]]]]. exists ca. rewrite H, E. simpl. auto.
Qed.
Lemma class_nominal a : has_capacity a <-> In (k_class a) (map fst nominal).
Proof.
  unfold has_capacity, attr_of, nominal. cbn [map fst In].
  destruct (String.eqb_spec (k_class a) "Generator") as [E|?]; [rewrite E; split; [tauto|discriminate]|].
  destruct (String.eqb_spec (k_class a) "Line") as [E|?]; [rewrite E; split; [tauto|discriminate]|].
  destruct (String.eqb_spec (k_class a) "Transformer") as [E|?]; [rewrite E; split; [tauto|discriminate]|].
  destruct (String.eqb_spec (k_class a) "Link") as [E|?]; [rewrite E; split; [tauto|discriminate]|].
  destruct (String.eqb_spec (k_class a) "Store") as [E|?]; [rewrite E; split; [tauto|discriminate]|].
  destruct (String.eqb_spec (k_class a) "StorageUnit") as [E|?]; [rewrite E; split; [tauto|discriminate]|].
  split; [congruence|]. intuition congruence.
Qed.
Lemma nominal_inj ca cb : In ca nominal -> In cb nominal -> fst ca = fst cb -> ca = cb.
Proof. unfold nominal. cbn [In]. intuition (subst; cbn [fst] in *; congruence). Qed.
Lemma tech_nonempty n k p : nonempty (tech_exprs n k p) = true <-> exists a, In a (assets n) /\ has_capacity a /\ of_tech n k p a = true.
Proof.
  rewrite nonempty_iff. split.
  - intros [g I]. apply in_tech_exprs in I. destruct I as [ca [N [H [E _]]]]. apply nonempty_iff in E. destruct E as [a Ia]. destruct (proj1 (in_tech n k p (fst ca) a) (conj Ia H)) as [A [C T]].
    exists a. rewrite class_nominal, C. auto using in_map.
  - intros [a [A [C T]]]. apply class_nominal in C. apply in_map_iff in C. destruct C as [ca [E N]]. destruct (proj2 (in_tech n k p (fst ca) a) (conj A (conj (eq_sym E) T))) as [Ia H].
    eexists. apply in_tech_exprs. exists ca. repeat split; auto. apply nonempty_iff. eauto.
Qed.
Lemma by_label_aligned o n k p : by_label o (of_tech n k p) n -> aligned o (tech_exprs n k p).
Proof.
  intros [->|[c C]]; [left; reflexivity|right]. intros g g' I I'. apply in_tech_exprs in I. apply in_tech_exprs in I'. destruct I as [ca [N [H [E ->]]]], I' as [cb [N' [H' [E' ->]]]].
  apply nonempty_iff in E. apply nonempty_iff in E'. destruct E as [a Ia], E' as [b Ib].
  apply (fun I => proj1 (in_tech n k p (fst ca) a) (conj I H)) in Ia. apply (fun I => proj1 (in_tech n k p (fst cb) b) (conj I H')) in Ib.
  destruct Ia as [A [C1 T]], Ib as [B [C2 T']]. rewrite (nominal_inj ca cb); auto. rewrite <- C1, <- C2, (C a), (C b); auto.
Qed.
Lemma tech_key n k p b : (exists g, In g (tech_exprs n k p) /\ In b (keys g)) <-> exists a, In a (assets n) /\ has_capacity a /\ of_tech n k p a = true /\ k_bus a = b.
Proof.
  split.
  - intros [g [I K]]. apply in_tech_exprs in I. destruct I as [ca [N [H [_ ->]]]]. rewrite keys_groupby, nodup_In in K. apply in_map_iff in K. destruct K as [a [B Ia]].
    destruct (proj1 (in_tech n k p (fst ca) a) (conj Ia H)) as [A [C T]]. exists a. rewrite class_nominal, C. auto using in_map.
  - intros [a [A [C [T B]]]]. apply class_nominal in C. apply in_map_iff in C. destruct C as [ca [E N]]. destruct (proj2 (in_tech n k p (fst ca) a) (conj A (conj (eq_sym E) T))) as [Ia H].
    eexists. split; [apply in_tech_exprs; exists ca; repeat split; auto; apply nonempty_iff; eauto|]. rewrite keys_groupby, nodup_In. apply in_map_iff. eauto.
Qed.
Lemma flat_opt {A B} (f : A -> bool) (g : A -> B) (h : B -> lin) l : flat_map h (flat_map (fun a => if f a then [g a] else []) l) = flat_map (fun a => if f a then h (g a) else []) l.
Proof. induction l as [|a l IH]; [reflexivity|]. cbn [flat_map]. destruct (f a); cbn [app flat_map]; now rewrite IH. Qed.

Lemma tech_eval x n k p (P : asset -> bool) :
  total (fun ca => eval x (if has_carrier n (fst ca) then map (fun a => (1, nom_label (fst ca) (snd ca) a)) (filter P (tech_assets n k p (fst ca))) else [])) nominal
  == sum_where (fun a => of_tech n k p a && P a) (capacity x) n.
Proof.
  unfold sum_where.
  transitivity (total (fun a => if has_carrier n (k_class a) && (k_ext a && String.eqb (k_carrier a) k && match p with Some p => k_in a p | None => true end && P a) then 1 * capacity x a else 0) (assets n)).
  - rewrite <- (by_class x (has_carrier n) (fun a => k_ext a && String.eqb (k_carrier a) k && match p with Some p => k_in a p | None => true end && P a) (fun _ => 1)).
    apply total_ext. intros ca _. destruct (has_carrier n (fst ca)); [|reflexivity]. unfold tech_assets, ext_i, cls. rewrite !eval_total, !total_map, !total_filter. apply total_ext. intros a _.
    destruct (String.eqb (k_class a) (fst ca)), (k_ext a), (String.eqb (k_carrier a) k), (match p with Some p => k_in a p | None => true end), (P a); reflexivity.
  - apply total_ext. intros a _. unfold of_tech.
    destruct (has_carrier n (k_class a)), (k_ext a), (String.eqb (k_carrier a) k), (match p with Some p => k_in a p | None => true end), (P a); cbn [andb]; ring.
Qed.

Lemma filter_true {A} (l : list A) : filter (fun _ => true) l = l.
Proof. induction l as [|a l IH]; [reflexivity|]. cbn [filter]. now rewrite IH. Qed.

Lemma tech_sum x o n k p : eval x (flat_map snd (merge o (tech_exprs n k p))) == sum_where (of_tech n k p) (capacity x) n.
Proof.
  rewrite eval_flat, sum_merge by apply tech_wf. unfold tech_exprs. rewrite total_flat.
  transitivity (sum_where (fun a => of_tech n k p a && true) (capacity x) n).
  - rewrite <- (tech_eval x n k p (fun _ => true)). apply total_ext. intros ca _. rewrite filter_true. destruct (has_carrier n (fst ca)); cbn [andb]; [|reflexivity].
    destruct (nonempty (tech_assets n k p (fst ca))) eqn:E.
    + unfold BalanceSpec.total at 1. cbn [fold_right]. set (g := groupby _ _ _).
      assert (ND : NoDup (keys g)) by (unfold g; rewrite keys_groupby; apply NoDup_nodup).
      rewrite <- (total_keys g (eval x)) by auto. unfold g at 2. rewrite keys_groupby.
      transitivity (total (fun b => total (fun a => if String.eqb (k_bus a) b then 1 * val x (nom_label (fst ca) (snd ca) a) else 0) (tech_assets n k p (fst ca))) (nodup string_dec (map k_bus (tech_assets n k p (fst ca))))).
      { rewrite Qplus_0_r. apply total_ext. intros b _. unfold g. rewrite at_groupby, eval_total, total_map, total_filter. reflexivity. }
      rewrite total_swap, eval_total, total_map. apply total_ext. intros a Ia. cbn [fst snd].
      transitivity (total (fun b => BalanceSpec.at_bus (k_bus a) b (1 * val x (nom_label (fst ca) (snd ca) a))) (nodup string_dec (map k_bus (tech_assets n k p (fst ca))))).
      { apply total_ext. intros b _. unfold BalanceSpec.at_bus. reflexivity. }
      apply total_at_In; [apply NoDup_nodup|]. apply nodup_In. now apply in_map.
    + apply nonempty_false in E. rewrite E. reflexivity.
  - apply total_ext. intros a _. now rewrite andb_true_r.
Qed.
Lemma tech_bus_sum x o n k p b : by_label o (of_tech n k p) n ->
  eval x (at_key (merge o (tech_exprs n k p)) b) == sum_where (fun a => of_tech n k p a && at_bus b a) (capacity x) n.
Proof.
  intros A. rewrite at_merge by auto using tech_wf, by_label_aligned. unfold tech_exprs. rewrite flat_opt, eval_flat. rewrite <- (tech_eval x n k p (at_bus b)). apply total_ext. intros ca _.
  destruct (has_carrier n (fst ca)); cbn [andb]; [|reflexivity]. rewrite at_groupby.
  destruct (nonempty (tech_assets n k p (fst ca))) eqn:E; [reflexivity|]. apply nonempty_false in E. rewrite E. reflexivity.
Qed.

Lemma tech_total o n l c x : tech_limit o n l = Written c -> l_bus l = None -> (holds x c <-> sense_holds (l_sense l) (sum_where (of_tech n (l_carrier l) (l_period l)) (capacity x) n) (l_const l)).
Proof.
  unfold tech_limit. intros E B. destruct (l_period l) as [p|]; [|discriminate]. destruct (negb _); [discriminate|]. destruct (nonempty _); [|discriminate]. rewrite B in E. injection E as <-.
  rewrite holds_sense. cbn [sns lhs rhs]. apply sense_ext. apply tech_sum.
Qed.
Lemma tech_at_bus o n l c x b : tech_limit o n l = Written c -> l_bus l = Some b -> by_label o (of_tech n (l_carrier l) (l_period l)) n ->
  (holds x c <-> sense_holds (l_sense l) (sum_where (fun a => of_tech n (l_carrier l) (l_period l) a && at_bus b a) (capacity x) n) (l_const l)).
Proof.
  unfold tech_limit. intros E B A. destruct (l_period l) as [p|]; [|discriminate]. destruct (negb _); [discriminate|]. destruct (nonempty _); [|discriminate]. cbn zeta in E. rewrite B in E. destruct (mem b _); [|discriminate]. injection E as <-.
  rewrite holds_sense. cbn [sns lhs rhs]. apply sense_ext. apply tech_bus_sum. auto.
Qed.
(* which limits are enforced *)
Lemma tech_written o n l : by_label o (of_tech n (l_carrier l) (l_period l)) n ->
  ((exists c, tech_limit o n l = Written c) <->
   exists p a, l_period l = Some p /\ In p (inv_periods n) /\ In a (assets n) /\ has_capacity a /\ of_tech n (l_carrier l) (Some p) a = true /\ (forall b, l_bus l = Some b -> k_bus a = b)).
Proof.
  intros A. unfold tech_limit. destruct (l_period l) as [p|]; [|split; [intros [c H]; discriminate|intros [p [a [H _]]]; discriminate]].
  destruct (memz p (inv_periods n)) eqn:M; cbn [negb].
  - apply memz_iff in M. destruct (nonempty (tech_exprs n (l_carrier l) (Some p))) eqn:E.
    + cbn zeta. destruct (l_bus l) as [b|].
      * destruct (mem b _) eqn:K.
        -- apply mem_iff in K. apply in_keys_merge in K; [|auto using by_label_aligned]. apply tech_key in K. destruct K as [a [Ia [C [T B]]]]. split; [intros _|eauto]. exists p, a. repeat split; auto. intros b' Q. congruence.
        -- split; [intros [c H]; discriminate|]. intros [p' [a [Q [_ [Ia [C [T B]]]]]]]. injection Q as <-. exfalso. enough (mem b (keys (merge o (tech_exprs n (l_carrier l) (Some p)))) = true) by congruence.
           apply mem_iff, in_keys_merge; [auto using by_label_aligned|]. apply tech_key. exists a. auto.
      * split; [intros _|eauto]. apply tech_nonempty in E. destruct E as [a [Ia [C T]]]. exists p, a. repeat split; auto. discriminate.
    + split; [intros [c H]; discriminate|]. intros [p' [a [Q [_ [Ia [C [T _]]]]]]]. injection Q as <-. exfalso. enough (nonempty (tech_exprs n (l_carrier l) (Some p)) = true) by congruence. apply tech_nonempty. eauto.
  - split; [intros [c H]; discriminate|]. intros [p' [a [Q [I _]]]]. injection Q as <-. apply memz_iff in I. congruence.
Qed.
Lemma tech_single o n l c : inv_periods n = [] -> tech_limit o n l <> Written c.
Proof. intros E. unfold tech_limit. rewrite E. destruct (l_period l); discriminate. Qed.

(* limits per bus *)
Lemma one_port_iff a : one_port (k_class a) = on_bus a.
Proof. unfold one_port, on_bus, mem. cbn [existsb]. now rewrite orb_false_r, orb_assoc. Qed.
Lemma bus_eval x n k p b : eval x (bus_terms n k p b) == sum_where (fun a => of_tech n k p a && on_bus a && at_bus b a) (capacity x) n.
Proof.
  unfold bus_terms. rewrite eval_flat.
  transitivity (total (fun a => if one_port (k_class a) && has_carrier n (k_class a) && (k_ext a && String.eqb (k_carrier a) k && match p with Some p => k_in a p | None => true end && at_bus b a) then 1 * capacity x a else 0) (assets n)).
  - rewrite <- (by_class x (fun c => one_port c && has_carrier n c) (fun a => k_ext a && String.eqb (k_carrier a) k && match p with Some p => k_in a p | None => true end && at_bus b a) (fun _ => 1)).
    apply total_ext. intros ca _. destruct (one_port (fst ca) && has_carrier n (fst ca)); [|reflexivity]. unfold tech_assets, ext_i, cls, at_bus. rewrite !eval_total, !total_map, !total_filter. apply total_ext. intros a _.
    destruct (String.eqb (k_class a) (fst ca)), (k_ext a), (String.eqb (k_carrier a) k), (match p with Some p => k_in a p | None => true end), (String.eqb (k_bus a) b); reflexivity.
  - apply total_ext. intros a _. unfold of_tech. rewrite one_port_iff.
    destruct (on_bus a), (has_carrier n (k_class a)), (k_ext a), (String.eqb (k_carrier a) k), (match p with Some p => k_in a p | None => true end), (at_bus b a); cbn [andb]; ring.
Qed.
Lemma bus_live n k p b s q : has_term {| lhs := bus_terms n k p b; sns := s; rhs := q |} = true <-> exists a, In a (assets n) /\ of_tech n k p a = true /\ on_bus a = true /\ k_bus a = b.
Proof.
  unfold has_term. cbn [lhs]. rewrite existsb_exists. split.
  - intros [cv [I _]]. unfold bus_terms in I. apply in_flat_map in I. destruct I as [ca [_ I]]. destruct (one_port (fst ca)) eqn:O; [|destruct I]. destruct (has_carrier n (fst ca)) eqn:H; [|destruct I]. cbn [andb] in I.
    apply in_map_iff in I. destruct I as [a [_ I]]. apply filter_In in I. destruct I as [I B]. apply String.eqb_eq in B. destruct (proj1 (in_tech n k p (fst ca) a) (conj I H)) as [A [C T]]. exists a.
    rewrite <- one_port_iff, C. auto.
  - intros [a [A [T [O B]]]].
    assert (C : In (k_class a) (map fst nominal)).
    { unfold on_bus in O. unfold nominal. cbn [map fst In]. rewrite !orb_true_iff, !String.eqb_eq in O. intuition. }
    apply in_map_iff in C. destruct C as [ca [E N]]. destruct (proj2 (in_tech n k p (fst ca) a) (conj A (conj (eq_sym E) T))) as [Ia H].
    exists (1, nom_label (fst ca) (snd ca) a). split; [|reflexivity]. unfold bus_terms. apply in_flat_map. exists ca. split; auto. rewrite H, E, one_port_iff, O. cbn [andb].
    apply in_map_iff. exists a. split; auto. apply filter_In. split; [now rewrite <- E|]. now apply String.eqb_eq.
Qed.
Lemma bus_any_iff n k p : bus_any n k p = true <-> exists a, In a (assets n) /\ of_tech n k p a = true /\ on_bus a = true.
Proof.
  unfold bus_any. rewrite existsb_exists. split.
  - intros [ca [N I]]. rewrite !andb_true_iff in I. destruct I as [[O H] E]. apply nonempty_iff in E. destruct E as [a Ia]. destruct (proj1 (in_tech n k p (fst ca) a) (conj Ia H)) as [A [C T]].
    exists a. rewrite <- one_port_iff, C. auto.
  - intros [a [A [T O]]].
    assert (C : In (k_class a) (map fst nominal)).
    { unfold on_bus in O. unfold nominal. cbn [map fst In]. rewrite !orb_true_iff, !String.eqb_eq in O. intuition. }
    apply in_map_iff in C. destruct C as [ca [E N]]. destruct (proj2 (in_tech n k p (fst ca) a) (conj A (conj (eq_sym E) T))) as [Ia H].
    exists ca. split; auto. rewrite H, E, one_port_iff, O. cbn [andb]. apply nonempty_iff. exists a. now rewrite <- E.
Qed.
Lemma sat_problem x cs : sat x (problem cs) <-> forall c, In c cs -> has_term c = true -> holds x c.
Proof. unfold sat, problem. split; intros H c; [intros I T; apply H, filter_In; auto|rewrite filter_In; intros [I T]; auto]. Qed.
Lemma column_iff n carriers ms int_of buses col cs s k p x : bus_column n carriers ms int_of buses col = Some cs -> parse n carriers ms int_of (col_name col) = Spec s k p ->
  (sat x (problem cs) <-> forall b q a, In b buses -> col_val col b = Some q -> In a (assets n) -> of_tech n k p a = true -> on_bus a = true -> k_bus a = b ->
    sense_holds s (sum_where (fun a => of_tech n k p a && on_bus a && at_bus b a) (capacity x) n) q).
Proof.
  unfold bus_column. intros E P. rewrite P in E. injection E as <-. rewrite sat_problem. split.
  - intros H b q a B V A T O K. assert (ANY : bus_any n k p = true) by (apply bus_any_iff; eauto). rewrite ANY in H.
    specialize (H {| lhs := bus_terms n k p b; sns := s; rhs := q |}). rewrite holds_sense in H. cbn [sns lhs rhs] in H. rewrite <- (sense_ext s _ _ q (bus_eval x n k p b)). apply H.
    + apply in_flat_map. exists b. split; auto. rewrite V. simpl. auto.
    + apply bus_live. eauto.
  - intros H c I T. destruct (bus_any n k p); [|destruct I]. apply in_flat_map in I. destruct I as [b [B I]]. destruct (col_val col b) as [q|] eqn:V; [|destruct I]. destruct I as [<-|[]].
    apply bus_live in T. destruct T as [a [A [T [O K]]]]. rewrite holds_sense. cbn [sns lhs rhs]. rewrite (sense_ext s _ _ q (bus_eval x n k p b)). eauto.
Qed.

(* names of columns *)
Lemma rsplit_some s a b : rsplit s = Some (a, b) <-> s = (a ++ "_" ++ b)%string /\ free_of "_" b.
Proof.
  revert a b. induction s as [|c s IH]; intros a b; cbn [rsplit].
  - split; [discriminate|]. intros [E _]. destruct a; discriminate.
  - destruct (rsplit s) as [[a' b']|] eqn:R.
    + destruct (proj1 (IH a' b') eq_refl) as [E F]. split.
      * intros Q. injection Q as <- <-. split; auto. cbn [append]. now rewrite E.
      * intros [Q F']. destruct a as [|c0 a]; cbn [append] in Q; injection Q as -> Q.
        -- exfalso. rewrite <- Q in F'. clear - F' E. rewrite E in F'. clear E. induction a' as [|d a' IHa]; cbn [append free_of] in F'; [destruct F' as [F' _]; congruence|]. apply IHa. tauto.
        -- destruct (IH a b) as [_ X]. specialize (X (conj Q F')). injection X as -> ->. reflexivity.
    + destruct (Ascii.eqb_spec c "_") as [->|D].
      * split.
        -- intros Q. injection Q as <- <-. split; [reflexivity|]. clear IH. revert R. induction s as [|d s IHs]; intros R; [exact I|]. cbn [rsplit] in R. destruct (rsplit s) as [[? ?]|]; [discriminate|]. destruct (Ascii.eqb_spec d "_"); [discriminate|]. cbn [free_of]. auto.
        -- intros [Q F]. destruct a as [|c0 a]; cbn [append] in Q; [injection Q as ->; reflexivity|]. injection Q as _ Q. destruct (IH a b) as [_ X]. specialize (X (conj Q F)). discriminate.
      * split; [discriminate|]. intros [Q F]. destruct a as [|c0 a]; cbn [append] in Q; injection Q as -> Q; [congruence|]. destruct (IH a b) as [_ X]. specialize (X (conj Q F)). discriminate.
Qed.
Lemma prefix_app p s : String.prefix p s = true <-> exists r, s = (p ++ r)%string.
Proof.
  revert s. induction p as [|c p IH]; intros s.
  - destruct s; (split; [intros _; eexists; reflexivity|reflexivity]).
  - destruct s as [|d s].
    + split; [discriminate|]. intros [r Q]. discriminate.
    + cbn [String.prefix append]. destruct (ascii_dec c d) as [->|D].
      * rewrite IH. split; intros [r Q]; exists r; [now rewrite Q|injection Q as Q; exact Q].
      * split; [discriminate|]. intros [r Q]. injection Q as -> _. congruence.
Qed.
Lemma substring_all s : String.substring 0 (String.length s) s = s.
Proof. induction s as [|c s IH]; [reflexivity|]. cbn [String.length String.substring]. now rewrite IH. Qed.
Lemma drop8_app p r : String.length p = 8%nat -> drop8 (p ++ r) = r.
Proof.
  intros L. unfold drop8.
  do 8 (destruct p as [|? p]; [discriminate|]). destruct p; [|discriminate]. cbn [append String.length String.substring Nat.sub]. rewrite Nat.sub_0_r. apply substring_all.
Qed.
Lemma parse_rest_iff n carriers ms int_of s rest s' k p : parse_rest n carriers ms int_of s rest = Spec s' k p <->
  s' = s /\ In k carriers /\ ((rest = k /\ p = None) \/ (exists w z, rest = (k ++ "_" ++ w)%string /\ free_of "_" w /\ p = Some z /\ int_of w = Some z /\ In z (sns_periods n) /\ ms = true /\ ~ In rest carriers)).
Proof.
  unfold parse_rest. destruct (mem rest carriers) eqn:M.
  - apply mem_iff in M. split; [intros Q; injection Q as <- <- <-; auto|]. intros (-> & K & [[-> ->]|(w & z & _ & _ & _ & _ & _ & _ & N)]); [reflexivity|contradiction].
  - assert (NM : ~ In rest carriers) by (intros I; apply mem_iff in I; congruence).
    destruct ms.
    + destruct (rsplit rest) as [[a b]|] eqn:R.
      * pose proof (proj1 (rsplit_some _ _ _) R) as [E F]. destruct (int_of b) as [z|] eqn:Z.
        -- destruct (mem a carriers && memz z (sns_periods n)) eqn:X.
           ++ apply andb_true_iff in X. destruct X as [X Y]. apply mem_iff in X. apply memz_iff in Y. split.
              ** intros Q. injection Q as <- <- <-. split; auto. split; auto. right. exists b, z. auto 10.
              ** intros (-> & K & [[-> ->]|(w & z' & E' & F' & -> & Z' & _)]); [contradiction|]. destruct (rsplit_some rest k w) as [_ R']. rewrite (R' (conj E' F')) in R. injection R as -> ->. congruence.
           ++ split; [discriminate|]. intros (-> & K & [[-> ->]|(w & z' & E' & F' & -> & Z' & P & _)]); [contradiction|]. destruct (rsplit_some rest k w) as [_ R']. rewrite (R' (conj E' F')) in R. injection R as -> ->.
              exfalso. apply mem_iff in K. apply memz_iff in P. rewrite Z in Z'. injection Z' as ->. rewrite K, P in X. discriminate.
        -- split; [discriminate|]. intros (-> & K & [[-> ->]|(w & z' & E' & F' & -> & Z' & P & _)]); [contradiction|]. destruct (rsplit_some rest k w) as [_ R']. rewrite (R' (conj E' F')) in R. injection R as -> ->. congruence.
      * split; [discriminate|]. intros (-> & K & [[-> ->]|(w & z' & E' & F' & _)]); [contradiction|]. destruct (rsplit_some rest k w) as [_ R']. rewrite (R' (conj E' F')) in R. discriminate.
    + split; [discriminate|]. intros (-> & K & [[-> ->]|(w & z' & _ & _ & _ & _ & _ & Q & _)]); [contradiction|discriminate].
Qed.
Lemma parse_iff n carriers ms int_of col s k p : parse n carriers ms int_of col = Spec s k p <-> denotes carriers (sns_periods n) ms int_of col s k p.
Proof.
  unfold parse, starts, denotes. destruct (String.prefix "nom_min_" col) eqn:P1; [|destruct (String.prefix "nom_max_" col) eqn:P2].
  - apply prefix_app in P1. destruct P1 as [r ->]. rewrite drop8_app by reflexivity. rewrite parse_rest_iff. split.
    + intros [-> [K H]]. exists "nom_min_", r. auto.
    + intros [pre [rest [Q [E [K H]]]]]. destruct s; cbn [prefix_of] in Q; try discriminate; injection Q as <-; cbn [append] in E; [discriminate|]. injection E as <-. auto.
  - apply prefix_app in P2. destruct P2 as [r ->]. rewrite drop8_app by reflexivity. rewrite parse_rest_iff. split.
    + intros [-> [K H]]. exists "nom_max_", r. auto.
    + intros [pre [rest [Q [E [K H]]]]]. destruct s; cbn [prefix_of] in Q; try discriminate; injection Q as <-; cbn [append] in E; [|discriminate]. injection E as <-. auto.
  - split; [discriminate|]. intros [pre [rest [Q [E _]]]]. exfalso. destruct s; cbn [prefix_of] in Q; try discriminate; injection Q as <-.
    + enough (String.prefix "nom_max_" col = true) by congruence. apply prefix_app. eauto.
    + enough (String.prefix "nom_min_" col = true) by congruence. apply prefix_app. eauto.
Qed.
(* nothing else is enforced *)
Lemma column_other n carriers ms int_of buses col cs : bus_column n carriers ms int_of buses col = Some cs -> cs <> [] ->
  exists s k p, denotes carriers (sns_periods n) ms int_of (col_name col) s k p.
Proof.
  unfold bus_column. intros E N. destruct (parse n carriers ms int_of (col_name col)) as [s k p| |] eqn:P; [|injection E as <-; congruence|discriminate]. exists s, k, p. now apply parse_iff in P.
Qed.
Lemma column_defined n carriers ms int_of buses col : (exists s k p, denotes carriers (sns_periods n) ms int_of (col_name col) s k p) \/ ms = false -> exists cs, bus_column n carriers ms int_of buses col = Some cs.
Proof.
  unfold bus_column. intros [(s & k & p & D)| ->].
  - apply parse_iff in D. rewrite D. eauto.
  - unfold parse, parse_rest. destruct (starts "nom_min_" (col_name col)), (starts "nom_max_" (col_name col)); try (destruct (mem (drop8 (col_name col)) carriers)); eauto.
Qed.

(* growth *)
Section Growth.
Variables (n : net) (cs : list carrier) (x : sol).
Hypothesis names : NoDup (map c_name cs).
Lemma in_carrier_i k : In k (carrier_i cs) <-> exists c q, In c cs /\ c_name c = k /\ c_growth c = Some q.
Proof.
  unfold carrier_i, limited_carriers. rewrite in_map_iff. split.
  - intros [c [E I]]. apply filter_In in I. destruct I as [I G]. destruct (c_growth c) as [q|] eqn:Q; [|discriminate]. exists c, q. auto.
  - intros (c & q & I & E & G). exists c. rewrite filter_In, G. auto.
Qed.
Lemma find_carrier c q : In c cs -> c_growth c = Some q -> find (fun d => String.eqb (c_name d) (c_name c)) (limited_carriers cs) = Some c.
Proof.
  intros I G. unfold limited_carriers. induction cs as [|d ds IH]; [destruct I|]. cbn [map] in names. inversion names as [|? ? NI ND]; subst. cbn [filter]. destruct I as [->|I].
  - rewrite G. cbn [find]. now rewrite String.eqb_refl.
  - destruct (c_growth d); [|auto]. cbn [find]. destruct (String.eqb_spec (c_name d) (c_name c)) as [E|_]; [|auto]. exfalso. apply NI. rewrite E. now apply in_map.
Qed.
Lemma relative_rate c q : In c cs -> c_growth c = Some q -> relative cs (c_name c) = rate c.
Proof. intros I G. unfold relative. rewrite (find_carrier c q I G). reflexivity. Qed.
Lemma growth_of_is c q : In c cs -> c_growth c = Some q -> growth_of cs (c_name c) = q.
Proof. intros I G. unfold growth_of. rewrite (find_carrier c q I G), G. reflexivity. Qed.

Lemma restricted_iff a : In a (assets n) -> (restricted n cs a = true <-> In a (limited_i n cs (k_class a)) /\ has_carrier n (k_class a) = true).
Proof.
  intros I. unfold restricted, limited_i, ext_i, cls. rewrite !filter_In, !andb_true_iff, mem_iff, in_carrier_i, existsb_exists, String.eqb_refl. split.
  - intros [[E H] [c [C Q]]]. apply andb_true_iff in Q. destruct Q as [Q G]. apply String.eqb_eq in Q. destruct (c_growth c) as [q|] eqn:Gq; [|discriminate]. repeat split; auto. exists c, q. auto.
  - intros [[[_ E] (c & q & C & Q & G)] H]. repeat split; auto. exists c. rewrite Q, G, String.eqb_refl. auto.
Qed.
Lemma keys_new ca i : keys (new_expr n cs ca i) = nodup string_dec (map k_carrier (limited_i n cs (fst ca))).
Proof. apply keys_groupby. Qed.
Lemma keys_class ca i : keys (class_expr n cs ca i) = nodup string_dec (map k_carrier (limited_i n cs (fst ca))).
Proof. unfold class_expr. destruct (any_relative n cs (fst ca)); [|apply keys_new]. rewrite <- (keys_new ca i). unfold keys. rewrite map_map. reflexivity. Qed.
Lemma growth_wf i : wf (growth_exprs n cs i).
Proof.
  intros g I. unfold growth_exprs in I. apply in_flat_map in I. destruct I as [ca [_ I]]. destruct (_ && _); [|destruct I]. destruct I as [<-|[]]. rewrite keys_class. apply NoDup_nodup.
Qed.
Lemma in_growth_exprs i g : In g (growth_exprs n cs i) <-> exists ca, In ca nominal /\ has_carrier n (fst ca) = true /\ nonempty (limited_i n cs (fst ca)) = true /\ g = class_expr n cs ca i.
Proof.
  unfold growth_exprs. rewrite in_flat_map. split.
  - intros [ca [N I]]. exists ca. destruct (has_carrier n (fst ca)); [|destruct I]. destruct (nonempty _); [|destruct I]. destruct I as [<-|[]]. auto.
  - intros [ca [N [H [E ->]]]]. exists ca. rewrite H, E. simpl. auto.
Qed.
Lemma limited_class a c : In a (limited_i n cs c) -> In a (assets n) /\ k_class a = c.
Proof. unfold limited_i, ext_i, cls. rewrite !filter_In, String.eqb_eq. tauto. Qed.
Lemma growth_aligned o i : by_label o (restricted n cs) n -> aligned o (growth_exprs n cs i).
Proof.
  intros [->|[c C]]; [left; reflexivity|right]. intros g g' I I'. apply in_growth_exprs in I. apply in_growth_exprs in I'. destruct I as [ca [N [H [E ->]]]], I' as [cb [N' [H' [E' ->]]]].
  apply nonempty_iff in E. apply nonempty_iff in E'. destruct E as [a Ia], E' as [b Ib]. destruct (limited_class _ _ Ia) as [A CA], (limited_class _ _ Ib) as [B CB].
  rewrite (nominal_inj ca cb); auto. rewrite <- CA, <- CB. rewrite (C a), (C b); auto; apply restricted_iff; auto; [rewrite CB|rewrite CA]; auto.
Qed.

Lemma at_mapped (g : grouped) h k : at_key (map (fun e => (fst e, snd e ++ h (fst e))) g) k = if mem k (keys g) then at_key g k ++ h k else [].
Proof.
  unfold at_key, mem, keys. induction g as [|[k' l] g IH]; [reflexivity|]. cbn [map find fst snd existsb]. rewrite (String.eqb_sym k k'). destruct (String.eqb_spec k' k) as [->|D]; [reflexivity|exact IH].
Qed.
Lemma eval_scaled q l : eval x (scaled q l) == q * eval x l.
Proof. rewrite !eval_total. unfold scaled. rewrite total_map, <- total_scale. apply total_ext. intros [c v] _. cbn [fst snd]. ring. Qed.
Definition fresh (ca : string * string) (k : string) (i : nat) : Q := eval x (at_key (new_expr n cs ca i) k).
Lemma class_eval ca k i : eval x (at_key (class_expr n cs ca i) k) == fresh ca k i - relative cs k * before (fresh ca k) i.
Proof.
  assert (Z : ~ In k (map k_carrier (limited_i n cs (fst ca))) -> forall j, at_key (new_expr n cs ca j) k = []).
  { intros NI j. apply at_missing. rewrite keys_new, nodup_In. exact NI. }
  assert (ZB : ~ In k (map k_carrier (limited_i n cs (fst ca))) -> fresh ca k i - relative cs k * before (fresh ca k) i == 0).
  { intros NI. unfold fresh. rewrite Z by auto. destruct i as [|j]; cbn [before eval]; [ring|]. rewrite Z by auto. cbn [eval]. ring. }
  unfold class_expr. destruct (any_relative n cs (fst ca)) eqn:A.
  - rewrite (at_mapped (new_expr n cs ca i) (fun f => match i with O => [] | S j => scaled (- relative cs f) (at_key (new_expr n cs ca j) f) end)). rewrite keys_new. destruct (mem k _) eqn:M.
    + rewrite eval_app'. destruct i as [|j]; cbn [before eval]; unfold fresh; [ring|]. rewrite eval_scaled. ring.
    + cbn [eval]. symmetry. apply ZB. intros I. apply (nodup_In string_dec) in I. apply mem_iff in I. congruence.
  - destruct (in_dec string_dec k (map k_carrier (limited_i n cs (fst ca)))) as [I|NI]; [|rewrite ZB by auto; rewrite Z by auto; reflexivity].
    apply in_map_iff in I. destruct I as [a [<- Ia]]. unfold any_relative in A.
    assert (R : relative cs (k_carrier a) == 0).
    { assert (Q : Qle_bool (relative cs (k_carrier a)) 0 = true).
      { destruct (Qle_bool _ 0) eqn:Q; [reflexivity|]. exfalso. enough (existsb (fun a => negb (Qle_bool (relative cs (k_carrier a)) 0)) (limited_i n cs (fst ca)) = true) by congruence.
        apply existsb_exists. exists a. rewrite Q. auto. }
      apply Qle_bool_iff in Q. unfold relative in *. destruct (find _ _) as [c|]; [|reflexivity]. unfold qmax0 in *. destruct (Qle_bool (c_relative c) 0) eqn:Q2; [reflexivity|].
      exfalso. apply Qle_bool_iff in Q. congruence. }
    rewrite R. unfold fresh. ring.
Qed.
Definition fresh_total (k : string) (i : nat) : Q :=
  total (fun a => if has_carrier n (k_class a) && (k_ext a && String.eqb (k_carrier a) k && first_active n i a) then 1 * capacity x a else 0) (assets n).
Lemma fresh_sum k i : In k (carrier_i cs) -> total (fun ca => if has_carrier n (fst ca) then fresh ca k i else 0) nominal == fresh_total k i.
Proof.
  intros K. unfold fresh_total. rewrite <- (by_class x (has_carrier n) (fun a => k_ext a && String.eqb (k_carrier a) k && first_active n i a) (fun _ => 1)).
  apply total_ext. intros ca _. destruct (has_carrier n (fst ca)); [|reflexivity]. unfold fresh, new_expr. rewrite at_groupby. unfold limited_i, ext_i, cls.
  rewrite !eval_total, !total_map, !total_filter. apply total_ext. intros a _. cbn [fst snd]. unfold new_label.
  destruct (String.eqb (k_class a) (fst ca)), (k_ext a); cbn [andb]; try reflexivity. apply mem_iff in K.
  destruct (String.eqb_spec (k_carrier a) k) as [->|_]; [rewrite K|cbn [andb]; destruct (mem (k_carrier a) (carrier_i cs)); reflexivity].
  destruct (first_active n i a); cbn [andb val]; try reflexivity.
Qed.
Lemma growth_eval o i k : by_label o (restricted n cs) n -> In k (carrier_i cs) ->
  eval x (at_key (merge o (growth_exprs n cs i)) k) == fresh_total k i - relative cs k * before (fresh_total k) i.
Proof.
  intros A K. rewrite at_merge by auto using growth_wf, growth_aligned. unfold growth_exprs. rewrite flat_opt, eval_flat.
  transitivity (total (fun ca => (if has_carrier n (fst ca) then fresh ca k i else 0) - relative cs k * (if has_carrier n (fst ca) then before (fresh ca k) i else 0)) nominal).
  - apply total_ext. intros ca _. destruct (has_carrier n (fst ca)); cbn [andb]; [|cbn [eval]; ring]. destruct (nonempty (limited_i n cs (fst ca))) eqn:E; [apply class_eval|].
    apply nonempty_false in E. unfold fresh, new_expr. rewrite E. cbn. destruct i; cbn; ring.
  - rewrite total_minus, total_scale, fresh_sum by auto. destruct i as [|j]; cbn [before].
    + rewrite (total_zero (fun ca : string * string => if has_carrier n (fst ca) then 0 else 0)); [ring|]. intros ca _. destruct (has_carrier n (fst ca)); reflexivity.
    + now rewrite fresh_sum.
Qed.

Lemma count_split {A} (f : A -> bool) l i p : nth_error l i = Some p -> List.length (filter f (firstn (S i) l)) = (List.length (filter f (firstn i l)) + if f p then 1 else 0)%nat.
Proof.
  revert i. induction l as [|b l IH]; intros i E; [destruct i; discriminate|]. destruct i as [|i].
  - cbn in E. injection E as ->. cbn [firstn filter List.length]. destruct (f p); reflexivity.
  - cbn [nth_error] in E. specialize (IH i E). rewrite firstn_cons. cbn [filter]. change (firstn (S i) (b :: l)) with (b :: firstn i l). cbn [filter]. destruct (f b); cbn [List.length]; rewrite IH; lia.
Qed.
Lemma count_zero {A} (f : A -> bool) l : List.length (filter f l) = 0%nat <-> forallb (fun q => negb (f q)) l = true.
Proof. induction l as [|b l IH]; [cbn; tauto|]. cbn [filter forallb]. destruct (f b); cbn [List.length negb andb]; [split; discriminate|exact IH]. Qed.
Lemma cumsum_prev a i : (S i < List.length (sns_periods n))%nat -> (cumsum n a i <= cumsum n a (S i))%nat.
Proof.
  intros L. unfold cumsum. destruct (nth_error (sns_periods n) (S i)) as [p|] eqn:E; [rewrite (count_split _ _ _ _ E); lia|]. apply nth_error_None in E. lia.
Qed.
Lemma built_is_first a i : (i < List.length (sns_periods n))%nat -> outlasts n a -> first_active n i a = built_in n i a.
Proof.
  intros L O. unfold first_active.
  assert (B : forall j, (j < List.length (sns_periods n))%nat -> built_in n j a = true <-> cumsum n a j = 1%nat /\ (forall p, nth_error (sns_periods n) j = Some p -> k_in a p = true)).
  { intros j Lj. unfold built_in, cumsum. destruct (nth_error (sns_periods n) j) as [p|] eqn:E; [|apply nth_error_None in E; lia]. rewrite (count_split _ _ _ _ E). rewrite andb_true_iff, <- (count_zero (fun p => k_in a p)). split.
    - intros [K Z]. rewrite K, Z. split; auto. intros q Q. congruence.
    - intros [Z K]. rewrite (K p eq_refl) in *. split; auto. lia. }
  assert (H : forall j, (j < List.length (sns_periods n))%nat -> (cumsum n a j = 1%nat -> exists p, nth_error (sns_periods n) j = Some p /\ k_in a p = true)).
  { induction j as [|j IH]; intros Lj C.
    - unfold cumsum in C. destruct (sns_periods n) as [|p ps]; [cbn in C; discriminate|]. exists p. split; [reflexivity|]. cbn in C. destruct (k_in a p); [reflexivity|discriminate].
    - destruct (nth_error (sns_periods n) (S j)) as [p|] eqn:E; [|apply nth_error_None in E; lia]. exists p. split; auto. destruct (k_in a p) eqn:K; [reflexivity|]. exfalso.
      assert (C' : cumsum n a j = 1%nat) by (unfold cumsum in *; rewrite (count_split _ _ _ _ E), K in C; lia).
      destruct (IH ltac:(lia) C') as [p' [E' K']]. assert (BI : built_in n j a = true) by (apply B; [lia|]; split; auto; intros q Q; congruence).
      rewrite (O j p BI E) in K. discriminate. }
  destruct (Nat.eqb_spec (cumsum n a i) 1) as [C|C].
  - symmetry. apply B; auto. split; auto. intros p E. destruct (H i L C) as [p' [E' K]]. congruence.
  - destruct (built_in n i a) eqn:BI; [|reflexivity]. apply B in BI; auto. tauto.
Qed.
Lemma fresh_built k i : In k (carrier_i cs) -> (forall a, In a (assets n) -> restricted n cs a = true -> outlasts n a) -> (i < List.length (sns_periods n))%nat -> fresh_total k i == built n x k i.
Proof.
  intros K O L. unfold fresh_total, built, sum_where. apply total_ext. intros a I.
  destruct (k_ext a && String.eqb (k_carrier a) k && has_carrier n (k_class a)) eqn:E.
  - rewrite !andb_true_iff in E. destruct E as [[E C] H]. rewrite E, C, H. cbn [andb]. rewrite built_is_first; auto; [destruct (built_in n i a); ring|]. apply O; auto.
    unfold restricted. rewrite E, H. cbn [andb]. apply in_carrier_i in K. destruct K as (c & q & Ic & Nc & G). apply existsb_exists. exists c. apply String.eqb_eq in C. rewrite G, Nc, C, String.eqb_refl. auto.
  - cbn [andb]. destruct (has_carrier n (k_class a)), (k_ext a), (String.eqb (k_carrier a) k); cbn [andb] in *; try discriminate; reflexivity.
Qed.
Lemma at_in (g : grouped) e : NoDup (keys g) -> In e g -> at_key g (fst e) = snd e.
Proof.
  unfold keys, at_key. induction g as [|d g IH]; intros ND I; [destruct I|]. cbn [map find] in *. inversion ND as [|? ? NI ND']; subst. destruct I as [->|I]; [now rewrite String.eqb_refl|].
  destruct (String.eqb_spec (fst d) (fst e)) as [E|_]; auto. exfalso. apply NI. rewrite E. now apply in_map.
Qed.
Lemma growth_iff o : invest n = true -> by_label o (restricted n cs) n -> (forall c q, In c cs -> c_growth c = Some q -> 0 <= q) ->
  (forall a, In a (assets n) -> restricted n cs a = true -> outlasts n a) ->
  (sat x (problem (growth_cons o n cs)) <-> grows_within n cs x).
Proof.
  intros IV A P O. rewrite sat_problem. unfold growth_cons. rewrite IV.
  assert (EV : forall i c q, (i < List.length (sns_periods n))%nat -> In c cs -> c_growth c = Some q ->
    eval x (at_key (merge o (growth_exprs n cs i)) (c_name c)) == built n x (c_name c) i - rate c * before (built n x (c_name c)) i).
  { intros i c q L I G. assert (K : In (c_name c) (carrier_i cs)) by (apply in_carrier_i; eauto). rewrite growth_eval by auto. rewrite (relative_rate c q I G), fresh_built by auto.
    destruct i as [|j]; cbn [before]; [reflexivity|]. rewrite fresh_built by (auto; lia). reflexivity. }
  split.
  - intros H i c q L I G. specialize (EV i c q L I G). set (m := merge o (growth_exprs n cs i)) in *. set (co := {| lhs := at_key m (c_name c); sns := Le; rhs := growth_of cs (c_name c) |}).
    destruct (has_term co) eqn:T.
    + assert (Ic : In co (flat_map (fun i => map (fun e => {| lhs := snd e; sns := Le; rhs := growth_of cs (fst e) |}) (merge o (growth_exprs n cs i))) (seq 0 (List.length (sns_periods n))))).
      { apply in_flat_map. exists i. split; [apply in_seq; lia|]. fold m. unfold has_term in T. cbn [lhs co] in T.
        unfold co, at_key in *. destruct (find (fun e => String.eqb (fst e) (c_name c)) m) as [e|] eqn:F; [|discriminate]. apply find_some in F. destruct F as [Ie E]. apply String.eqb_eq in E.
        apply in_map_iff. exists e. rewrite E. auto. }
      specialize (H co Ic T). unfold holds in H. cbn [co sns lhs rhs] in H. rewrite EV, (growth_of_is c q I G) in H. lra.
    + assert (Z : eval x (lhs co) == 0).
      { clear - T. unfold has_term in T. induction (lhs co) as [|[k v] l IH]; [reflexivity|]. cbn [existsb snd] in T. apply orb_false_iff in T. destruct T as [T1 T2]. cbn [eval]. rewrite IH by auto. destruct v; [discriminate|]. cbn [val]. ring. }
      cbn [co lhs] in Z. rewrite EV in Z. pose proof (P c q I G). lra.
  - intros H co I T. apply in_flat_map in I. destruct I as [i [Li I]]. apply in_seq in Li. apply in_map_iff in I. destruct I as [e [<- Ie]].
    assert (K : In (fst e) (carrier_i cs)).
    { assert (KM : In (fst e) (keys (merge o (growth_exprs n cs i)))) by (now apply in_map). apply in_keys_merge in KM; [|auto using growth_aligned]. destruct KM as [g [Ig KG]].
      apply in_growth_exprs in Ig. destruct Ig as [ca [_ [_ [_ ->]]]]. rewrite keys_class, nodup_In in KG. apply in_map_iff in KG. destruct KG as [a [<- Ia]]. unfold limited_i in Ia. apply filter_In in Ia. apply mem_iff. tauto. }
    apply in_carrier_i in K. destruct K as (c & q & Ic & Nc & G). unfold holds. cbn [sns lhs rhs]. rewrite <- (at_in (merge o (growth_exprs n cs i)) e) by auto using nodup_merge, growth_wf.
    rewrite <- Nc, (EV i c q), (growth_of_is c q) by (auto; lia). specialize (H i c q ltac:(lia) Ic G). lra.
Qed.
End Growth.

(* transmission *)
Lemma app_assoc_s a b c : ((a ++ b) ++ c = a ++ (b ++ c))%string.
Proof. induction a as [|d a IH]; [reflexivity|]. cbn [append]. now rewrite IH. Qed.
Lemma app_nil_s a : (a ++ "" = a)%string.
Proof. induction a as [|d a IH]; [reflexivity|]. cbn [append]. now rewrite IH. Qed.
Lemma all_app P a b : all_of P (a ++ b) <-> all_of P a /\ all_of P b.
Proof. induction a as [|d a IH]; cbn [append all_of]; tauto. Qed.
Lemma all_impl (P R : ascii -> Prop) s : (forall c, P c -> R c) -> all_of P s -> all_of R s.
Proof. intros H. induction s as [|d s IH]; cbn [all_of]; firstorder. Qed.
Lemma is_space_iff c : is_space c = true <-> space c.
Proof.
  unfold is_space, space. cbn zeta. generalize (nat_of_ascii c). intros k. rewrite !orb_true_iff, !andb_true_iff, Nat.eqb_eq, !Nat.leb_le. cbn [In]. lia.
Qed.
Lemma is_bracket_iff c : is_bracket c = true <-> bracket c.
Proof. unfold is_bracket, bracket. rewrite !orb_true_iff, !Ascii.eqb_eq. cbn [In]. intuition. Qed.
Lemma space_plain c : space c -> ~ bracket c /\ c <> ","%char.
Proof.
  unfold space, bracket. intros S. split.
  - cbn [In]. intros B. intuition subst; cbn in S; intuition discriminate.
  - intros ->. cbn in S. intuition discriminate.
Qed.
Lemma bracket_plain c : bracket c -> ~ space c /\ c <> ","%char.
Proof. intros B. split; [intros S; apply space_plain in S; tauto|]. intros ->. cbn in B. intuition discriminate. Qed.

Lemma lstrip_spaces s m : all_of space s -> lstrip (s ++ m) = lstrip m.
Proof. induction s as [|c s IH]; [reflexivity|]. intros [C S]. cbn [append lstrip]. apply is_space_iff in C. rewrite C. auto. Qed.
Lemma lstrip_id m : (forall c r, m = String c r -> ~ space c) -> lstrip m = m.
Proof.
  destruct m as [|c m]; [reflexivity|]. intros H. cbn [lstrip]. destruct (is_space c) eqn:E; [|reflexivity]. apply is_space_iff in E. destruct (H c m eq_refl E).
Qed.
Lemma all_space_iff s : all_space s = true <-> all_of space s.
Proof. induction s as [|c s IH]; cbn [all_space all_of]; [tauto|]. rewrite andb_true_iff, is_space_iff, IH. tauto. Qed.
Lemma last_char m : m = "" \/ exists r c, m = (r ++ String c "")%string.
Proof. induction m as [|d m IH]; [auto|]. right. destruct IH as [->|[r [c ->]]]; [exists "", d; reflexivity|exists (String d r), c; reflexivity]. Qed.
Lemma rstrip_spaces m s : all_of space s -> (forall c r, m = (r ++ String c "")%string -> ~ space c) -> rstrip (m ++ s) = m.
Proof.
  intros S. induction m as [|d m IH]; intros H.
  - cbn [append]. destruct s as [|c s]; [reflexivity|]. cbn [rstrip]. now rewrite (proj2 (all_space_iff _) S).
  - cbn [append rstrip].
    assert (N : all_space (String d (m ++ s)) = false).
    { destruct (all_space (String d (m ++ s))) eqn:E; [|reflexivity]. apply all_space_iff in E. exfalso. destruct (last_char (String d m)) as [Q|[r [c Q]]]; [discriminate|].
      change (String d (m ++ s)) with (String d m ++ s)%string in E. rewrite Q in E. apply all_app in E. destruct E as [E _]. apply all_app in E. destruct E as [_ [E _]]. apply (H c r Q E). }
    rewrite N. f_equal. apply IH. intros c r ->. apply (H c (String d r)). reflexivity.
Qed.
Lemma strip_core s1 m s2 : all_of space s1 -> all_of space s2 -> (forall c r, m = String c r -> ~ space c) -> (forall c r, m = (r ++ String c "")%string -> ~ space c) -> strip (s1 ++ m ++ s2) = m.
Proof.
  intros S1 S2 F L. unfold strip. rewrite lstrip_spaces by auto. destruct m as [|c m].
  - cbn [append]. rewrite <- (app_nil_s s2), lstrip_spaces by auto. reflexivity.
  - rewrite lstrip_id by (intros c' r Q; cbn [append] in Q; injection Q as <- _; apply (F c m eq_refl)). apply rstrip_spaces; auto.
Qed.
Lemma substr_app a b : substr (a ++ b) = (substr a ++ substr b)%string.
Proof. induction a as [|c a IH]; [reflexivity|]. cbn [append substr]. destruct (is_bracket c); cbn [append]; now rewrite IH. Qed.
Lemma substr_brackets b : all_of bracket b -> substr b = "".
Proof. induction b as [|c b IH]; [reflexivity|]. intros [C B]. cbn [substr]. apply is_bracket_iff in C. rewrite C. auto. Qed.
Lemma substr_plain w : all_of (fun c => ~ bracket c /\ c <> ","%char) w -> substr w = w.
Proof. induction w as [|c w IH]; [reflexivity|]. intros [[C _] W]. cbn [substr]. destruct (is_bracket c) eqn:E; [apply is_bracket_iff in E; contradiction|]. f_equal. auto. Qed.

Lemma first_app a b c r : (a ++ b)%string = String c r -> (exists r', a = String c r') \/ (a = "" /\ b = String c r).
Proof. destruct a as [|d a]; cbn [append]; intros Q; [auto|]. injection Q as -> _. eauto. Qed.
Lemma last_app a b c r : (a ++ b)%string = (r ++ String c "")%string -> (exists r', b = (r' ++ String c "")%string) \/ (b = "" /\ a = (r ++ String c "")%string).
Proof.
  intros Q. destruct (last_char b) as [->|[r' [d ->]]]; [right; rewrite app_nil_s in Q; auto|left; exists r']. rewrite <- app_assoc_s in Q.
  assert (H : forall u v d c, (u ++ String d "" = v ++ String c "")%string -> d = c).
  { clear. induction u as [|e u IH]; intros v d c Q; destruct v as [|f v]; cbn [append] in Q.
    - now injection Q.
    - injection Q as _ Q. destruct v; discriminate.
    - injection Q as _ Q. destruct u; discriminate.
    - injection Q as _ Q. eapply IH; eauto. }
  now rewrite (H _ _ _ _ Q).
Qed.
Lemma bracket_nospace b : all_of bracket b -> (forall c r, b = String c r -> ~ space c) /\ (forall c r, b = (r ++ String c "")%string -> ~ space c).
Proof.
  intros B. split; intros c r ->.
  - destruct B as [C _]. apply bracket_plain in C. tauto.
  - apply all_app in B. destruct B as [_ [C _]]. apply bracket_plain in C. tauto.
Qed.
Lemma word_read w u : writes_word w u -> substr (strip u) = w /\ all_of (fun c => c <> ","%char) u.
Proof.
  intros (s1 & b1 & b2 & s2 & -> & [W [F L]] & S1 & B1 & B2 & S2). split.
  - replace (b1 ++ w ++ b2 ++ s2)%string with ((b1 ++ w ++ b2) ++ s2)%string by (now rewrite !app_assoc_s).
    destruct (bracket_nospace b1 B1) as [F1 L1], (bracket_nospace b2 B2) as [F2 L2].
    rewrite strip_core; auto.
    + rewrite !substr_app, (substr_brackets b1), (substr_brackets b2), substr_plain by auto. cbn [append]. apply app_nil_s.
    + intros c r Q. apply first_app in Q. destruct Q as [[r' Q]|[_ Q]]; [eapply F1; eauto|]. apply first_app in Q. destruct Q as [[r' Q]|[_ Q]]; [eapply F; eauto|eapply F2; eauto].
    + intros c r Q. apply last_app in Q. destruct Q as [[r' Q]|[_ Q]]; [|eapply L1; eauto]. apply last_app in Q. destruct Q as [[r'' Q]|[_ Q]]; [eapply L2; eauto|eapply L; eauto].
  - rewrite !all_app. repeat split.
    + eapply all_impl; [|exact S1]. intros c C. apply space_plain in C. tauto.
    + eapply all_impl; [|exact B1]. intros c C. apply bracket_plain in C. tauto.
    + eapply all_impl; [|exact W]. cbn beta. tauto.
    + eapply all_impl; [|exact B2]. intros c C. apply bracket_plain in C. tauto.
    + eapply all_impl; [|exact S2]. intros c C. apply space_plain in C. tauto.
Qed.
Lemma split_word u s cur : all_of (fun c => c <> ","%char) u -> split_at (u ++ "," ++ s) cur = (cur ++ u)%string :: split_at s "".
Proof.
  revert cur. induction u as [|c u IH]; intros cur U.
  - cbn [append split_at]. cbn. now rewrite app_nil_s.
  - destruct U as [C U]. cbn [append split_at]. destruct (Ascii.eqb_spec c ","); [contradiction|]. rewrite IH by auto. now rewrite app_assoc_s.
Qed.
Lemma split_last u cur : all_of (fun c => c <> ","%char) u -> split_at u cur = [(cur ++ u)%string].
Proof.
  revert cur. induction u as [|c u IH]; intros cur U.
  - cbn [split_at]. now rewrite app_nil_s.
  - destruct U as [C U]. cbn [split_at]. destruct (Ascii.eqb_spec c ","); [contradiction|]. rewrite IH by auto. now rewrite app_assoc_s.
Qed.
Lemma list_read ws s : writes ws s -> carrier_list s = ws.
Proof.
  unfold carrier_list. induction 1 as [w u W|w u ws s W _ IH]; apply word_read in W; destruct W as [W U].
  - rewrite split_last by auto. cbn [map append]. now rewrite W.
  - rewrite split_word by auto. cbn [map append]. now rewrite W, IH.
Qed.

Definition is_branch (c : string) : bool := String.eqb c "Line" || String.eqb c "Link".
Lemma by_branch x (P : asset -> bool) (coef : asset -> Q) L :
  total (fun ca => eval x (map (fun a => (coef a, nom_label (fst ca) (snd ca) a)) (filter P (filter (fun a => String.eqb (k_class a) (fst ca)) L)))) branches
  == total (fun a => if is_branch (k_class a) && P a then coef a * capacity x a else 0) L.
Proof.
  rewrite <- (by_class x is_branch P coef L). unfold branches, nominal, BalanceSpec.total. cbn [fold_right fst snd is_branch]. unfold is_branch. cbn [String.eqb Ascii.eqb Bool.eqb orb eval]. ring.
Qed.
Lemma named_ext n g c : t_named n g c = filter (fun a => k_ext a && mem (k_carrier a) (carrier_list (t_carriers g))) (filter (fun a => String.eqb (k_class a) c) (assets n)).
Proof.
  unfold t_named, ext_i, cls. induction (filter _ (assets n)) as [|a l IH]; [reflexivity|]. cbn [filter]. destruct (k_ext a); cbn [filter andb]; [destruct (mem _ _); [f_equal|]; exact IH|exact IH].
Qed.
Lemma transmission_sum n g present coef x : (forall c, present c = false -> t_named n g c = []) ->
  eval x (flat_map (fun ca => if present (fst ca) then t_terms n g coef ca else []) branches) == sum_where (listed (carrier_list (t_carriers g)) n (t_period g)) (fun a => coef a * capacity x a) n.
Proof.
  intros H. rewrite eval_flat. unfold sum_where.
  transitivity (total (fun a => if is_branch (k_class a) && (k_ext a && mem (k_carrier a) (carrier_list (t_carriers g)) && t_active n (t_period g) a) then coef a * capacity x a else 0) (assets n)).
  - rewrite <- by_branch. apply total_ext. intros ca _.
    transitivity (eval x (t_terms n g coef ca)).
    { destruct (present (fst ca)) eqn:E; [reflexivity|]. unfold t_terms. rewrite (H _ E). reflexivity. }
    unfold t_terms. rewrite named_ext, !eval_total, !total_map, !total_filter. apply total_ext. intros a _.
    destruct (String.eqb (k_class a) (fst ca)), (k_ext a && mem (k_carrier a) (carrier_list (t_carriers g))), (t_active n (t_period g) a); reflexivity.
  - apply total_ext. intros a _. unfold listed, is_branch, t_active, in_some, mem.
    destruct (k_ext a), (String.eqb (k_class a) "Line" || String.eqb (k_class a) "Link"), (existsb (String.eqb (k_carrier a)) (carrier_list (t_carriers g))); reflexivity.
Qed.
Lemma transmission_iff n g present coef c x : (forall c, present c = false -> t_named n g c = []) -> transmission n g present coef = Written c ->
  (holds x c <-> sense_holds (t_sense g) (sum_where (listed (carrier_list (t_carriers g)) n (t_period g)) (fun a => coef a * capacity x a) n) (t_const g)).
Proof.
  intros H E. unfold transmission in E. destruct (existsb _ branches); [|discriminate]. destruct (bad_period n (t_period g)); [discriminate|]. injection E as <-.
  rewrite holds_sense. cbn [sns lhs rhs]. apply sense_ext. apply transmission_sum. auto.
Qed.
Lemma volume_iff n g names c x : writes names (t_carriers g) -> volume_limit n g = Written c ->
  (holds x c <-> sense_holds (t_sense g) (sum_where (listed names n (t_period g)) (fun a => k_length a * capacity x a) n) (t_const g)).
Proof. intros W E. rewrite <- (list_read _ _ W). eapply transmission_iff; [|exact E]. intros k N. now apply nonempty_false in N. Qed.
Lemma sum_where_ext P f f' n : (forall a, f a == f' a) -> sum_where P f n == sum_where P f' n.
Proof. intros H. unfold sum_where. apply total_ext. intros a _. destruct (P a); [apply H|reflexivity]. Qed.
Lemma cost_weight_is n p a : k_capital a * cost_weight n p a == cost_of n p a.
Proof. unfold cost_weight, cost_of. destruct p; [reflexivity|]. destruct (multi n); reflexivity. Qed.
Lemma cost_iff n g names c x : writes names (t_carriers g) -> cost_limit n g = Written c ->
  (holds x c <-> sense_holds (t_sense g) (sum_where (listed names n (t_period g)) (fun a => cost_of n (t_period g) a * capacity x a) n) (t_const g)).
Proof.
  intros W E. unfold cost_limit in E. destruct (_ && _); [discriminate|]. rewrite <- (list_read _ _ W). rewrite (transmission_iff n g (fun c => nonempty (ext_i n c)) (fun a => k_capital a * cost_weight n (t_period g) a) c x); [| |exact E].
  - apply sense_ext. apply sum_where_ext. intros a. now rewrite cost_weight_is.
  - intros k N. apply nonempty_false in N. unfold t_named. now rewrite N.
Qed.
Lemma in_named n g a c : In a (t_named n g c) <-> In a (assets n) /\ k_class a = c /\ k_ext a = true /\ In (k_carrier a) (carrier_list (t_carriers g)).
Proof. unfold t_named, ext_i, cls. rewrite !filter_In, String.eqb_eq, mem_iff. tauto. Qed.
Lemma good_iff n p : bad_period n p = false <-> good_period n p.
Proof.
  unfold bad_period, good_period. destruct p as [z|]; [|split; [intros _ z; discriminate|reflexivity]]. rewrite negb_false_iff, memz_iff. split; [intros H z' Q; congruence|auto].
Qed.
Lemma volume_written n g names : writes names (t_carriers g) ->
  ((exists c, volume_limit n g = Written c) <-> good_period n (t_period g) /\ exists a, In a (assets n) /\ In (k_class a) ["Line"; "Link"] /\ k_ext a = true /\ In (k_carrier a) names) /\
  (volume_limit n g = Raised <-> ~ good_period n (t_period g) /\ exists a, In a (assets n) /\ In (k_class a) ["Line"; "Link"] /\ k_ext a = true /\ In (k_carrier a) names).
Proof.
  intros W. rewrite <- (list_read _ _ W). unfold volume_limit, transmission.
  assert (H : existsb (fun ca => nonempty (t_named n g (fst ca))) branches = true <-> exists a, In a (assets n) /\ In (k_class a) ["Line"; "Link"] /\ k_ext a = true /\ In (k_carrier a) (carrier_list (t_carriers g))).
  { rewrite existsb_exists. split.
    - intros [ca [B N]]. apply nonempty_iff in N. destruct N as [a N]. apply in_named in N. destruct N as [A [C [E K]]]. exists a. repeat split; auto. rewrite C. unfold branches in B. cbn [In] in *. intuition (subst; auto).
    - intros [a [A [C [E K]]]]. cbn [In] in C. destruct C as [C|[C|[]]]; [exists ("Line", "s_nom")|exists ("Link", "p_nom")]; (split; [simpl; auto|]; apply nonempty_iff; exists a; apply in_named; cbn [fst]; auto). }
  rewrite <- good_iff, <- H. clear H. destruct (existsb _ branches), (bad_period n (t_period g)); split; split; try (intros [c Q]; discriminate); try (intros [Q Q']; congruence); eauto; try discriminate.
  split; [discriminate|reflexivity].
Qed.
Lemma cost_written n g : 
  ((exists c, cost_limit n g = Written c) <-> good_period n (t_period g) /\ (t_period g = None -> multi n = true -> invest n = true) /\ exists a, In a (assets n) /\ In (k_class a) ["Line"; "Link"] /\ k_ext a = true) /\
  (cost_limit n g = Skipped <-> forall a, In a (assets n) -> In (k_class a) ["Line"; "Link"] -> k_ext a = false).
Proof.
  unfold cost_limit, transmission.
  assert (H : existsb (fun ca => nonempty (ext_i n (fst ca))) branches = true <-> exists a, In a (assets n) /\ In (k_class a) ["Line"; "Link"] /\ k_ext a = true).
  { rewrite existsb_exists. unfold ext_i, cls. split.
    - intros [ca [B N]]. apply nonempty_iff in N. destruct N as [a N]. rewrite !filter_In, String.eqb_eq in N. destruct N as [[A C] E]. exists a. repeat split; auto. rewrite C. unfold branches in B. cbn [In] in *. intuition (subst; auto).
    - intros [a [A [C E]]]. cbn [In] in C. destruct C as [C|[C|[]]]; [exists ("Line", "s_nom")|exists ("Link", "p_nom")]; (split; [simpl; auto|]; apply nonempty_iff; exists a; rewrite !filter_In, String.eqb_eq; cbn [fst]; auto). }
  assert (H' : existsb (fun ca => nonempty (ext_i n (fst ca))) branches = false <-> forall a, In a (assets n) -> In (k_class a) ["Line"; "Link"] -> k_ext a = false).
  { split.
    - intros E a A C. destruct (k_ext a) eqn:K; [|reflexivity]. rewrite (proj2 H) in E; [discriminate|eauto].
    - intros E. destruct (existsb _ branches); [|reflexivity]. destruct (proj1 H eq_refl) as [a [A [C K]]]. rewrite E in K; auto. }
  rewrite <- H', <- H, <- good_iff. clear H H'. destruct (existsb _ branches); cbn [andb].
  - destruct (t_period g) as [z|].
    + rewrite !andb_false_r. destruct (bad_period n (Some z)); split; split; try (intros [c Q]; discriminate); try (intros [Q Q']; congruence); eauto; try discriminate. intros _. repeat split. discriminate.
    + cbn [bad_period]. destruct (invest n), (multi n); cbn [negb andb]; split; split; try (intros [c Q]; discriminate); eauto; try discriminate; try (intros _; repeat split; auto; discriminate).
      intros [_ [Q _]]. discriminate (Q eq_refl eq_refl).
  - split; [split; [intros [c Q]; discriminate|intros [_ [_ Q]]; discriminate]|split; auto].
Qed.
Lemma none_listed names n p f : (forall a, In a (assets n) -> In (k_class a) ["Line"; "Link"] -> k_ext a = true -> ~ In (k_carrier a) names) -> sum_where (listed names n p) f n == 0.
Proof.
  intros H. unfold sum_where. apply total_zero. intros a A. destruct (listed names n p a) eqn:L; [|reflexivity]. exfalso. unfold listed in L. rewrite !andb_true_iff in L. destruct L as [[[E C] K] _].
  apply (H a); auto; [|now apply mem_iff in K]. rewrite orb_true_iff, !String.eqb_eq in C. cbn [In]. intuition.
Qed.
Lemma volume_skipped n g names x : writes names (t_carriers g) -> volume_limit n g = Skipped -> sum_where (listed names n (t_period g)) (fun a => k_length a * capacity x a) n == 0.
Proof.
  intros W E. apply none_listed. intros a A C X K. destruct (volume_written n g names W) as [[_ H1] [_ H2]]. destruct (bad_period n (t_period g)) eqn:B.
  - rewrite H2 in E; [discriminate|]. split; [|eauto]. rewrite <- good_iff. congruence.
  - destruct H1 as [c H1]; [|congruence]. split; [now apply good_iff|eauto].
Qed.
Lemma cost_skipped n g names x : cost_limit n g = Skipped -> sum_where (listed names n (t_period g)) (fun a => cost_of n (t_period g) a * capacity x a) n == 0.
Proof. intros E. apply none_listed. intros a A C X K. rewrite (proj1 (proj2 (cost_written n g)) E a A C) in X. discriminate. Qed.

(* energy sums *)
Lemma supply_eval w x ts u : eval x (supply_terms w ts u) == energy w x ts u.
Proof. rewrite eval_total. unfold supply_terms, energy. rewrite total_map. apply total_ext. intros t _. cbn [fst snd]. destruct (u_active u t); cbn [val]; ring. Qed.
Lemma supply_live w ts u s q : has_term {| lhs := supply_terms w ts u; sns := s; rhs := q |} = true <-> exists t, In t ts /\ u_active u t = true.
Proof.
  unfold has_term, supply_terms. cbn [lhs]. rewrite existsb_exists. split.
  - intros [cv [I T]]. apply in_map_iff in I. destruct I as [t [<- I]]. cbn [snd] in T. exists t. split; auto. destruct (u_active u t); [reflexivity|discriminate].
  - intros [t [I A]]. eexists. split; [apply in_map_iff; exists t; eauto|]. cbn [snd]. now rewrite A.
Qed.
Lemma supply_iff w x ts us : sat x (problem (total_supply w ts us)) <-> forall u, In u us -> (exists t, In t ts /\ u_active u t = true) -> within_sums w x ts u.
Proof.
  rewrite sat_problem. unfold total_supply, within_sums. split.
  - intros H u I A. split; intros q Q.
    + specialize (H {| lhs := supply_terms w ts u; sns := Ge; rhs := q |}). unfold holds in H. cbn [sns lhs rhs] in H. rewrite supply_eval in H. apply H; [|now apply supply_live].
      apply in_or_app. left. apply in_flat_map. exists u. rewrite Q. simpl. auto.
    + specialize (H {| lhs := supply_terms w ts u; sns := Le; rhs := q |}). unfold holds in H. cbn [sns lhs rhs] in H. rewrite supply_eval in H. apply H; [|now apply supply_live].
      apply in_or_app. right. apply in_flat_map. exists u. rewrite Q. simpl. auto.
  - intros H c I T. apply in_app_iff in I. destruct I as [I|I]; apply in_flat_map in I; destruct I as [u [Iu I]].
    + destruct (u_min u) as [q|] eqn:Q; [|destruct I]. destruct I as [<-|[]]. apply supply_live in T. unfold holds. cbn [sns lhs rhs]. rewrite supply_eval. destruct (H u Iu T) as [L _]. auto.
    + destruct (u_max u) as [q|] eqn:Q; [|destruct I]. destruct I as [<-|[]]. apply supply_live in T. unfold holds. cbn [sns lhs rhs]. rewrite supply_eval. destruct (H u Iu T) as [_ L]. auto.
Qed.
(* optimised window by window, the sums hold for every window *)
Lemma windows w x u q wins us : In u us -> u_max u = Some q -> (forall ts, In ts wins -> (exists t, In t ts /\ u_active u t = true) /\ sat x (problem (total_supply w ts us))) ->
  energy w x (List.concat wins) u <= inject_Z (Z.of_nat (List.length wins)) * q.
Proof.
  intros I Q. induction wins as [|ts wins IH]; intros H.
  - cbn [List.concat List.length]. unfold energy, BalanceSpec.total. cbn [fold_right]. change (inject_Z (Z.of_nat 0)) with 0. lra.
  - cbn [List.concat List.length]. unfold energy in *. rewrite total_app. destruct (H ts) as [A S]; [simpl; auto|]. rewrite supply_iff in S. destruct (S u I A) as [_ L]. specialize (L q Q). unfold energy in L.
    assert (IH' := IH (fun ts' I' => H ts' (or_intror I'))). rewrite Nat2Z.inj_succ, <- Z.add_1_r, inject_Z_plus. change (inject_Z 1) with 1. lra.
Qed.

(* defects *)
Definition mk (c nm b k : string) (yrs : list Z) : asset :=
  {| k_class := c; k_name := nm; k_bus := b; k_carrier := k; k_in := fun p => memz p yrs; k_ext := true; k_length := 0; k_capital := 0 |}.
Definition decades : list Z := [2020; 2030; 2040]%Z.
Definition mk_net (l : list asset) : net :=
  {| assets := l; has_carrier := fun c => negb (String.eqb c "Transformer"); inv_periods := decades; sns_periods := decades; weight_of := fun _ => 1; multi := true; invest := true |}.
Lemma default_period : exists n l x, l_period l = None /\ In 2020%Z (sns_periods n) /\ (forall o, tech_limit o n l = Skipped) /\ l_sense l = Le /\
  l_const l < sum_where (of_tech n (l_carrier l) None) (capacity x) n.
Proof.
  exists (mk_net [mk "Generator" "w" "A" "wind" decades]), {| l_carrier := "wind"; l_sense := Le; l_period := None; l_bus := None; l_const := 5 |}, (fun _ => 7).
  repeat split; simpl; auto.
Qed.
Lemma absent_bus : exists n l, l_bus l = Some "B" /\ l_sense l = Le /\ l_const l = 5 /\ (forall o, tech_limit o n l = Raised) /\
  forall x, sum_where (fun a => of_tech n (l_carrier l) (l_period l) a && at_bus "B" a) (capacity x) n == 0.
Proof.
  exists (mk_net [mk "Generator" "w" "A" "wind" decades]), {| l_carrier := "wind"; l_sense := Le; l_period := Some 2020%Z; l_bus := Some "B"; l_const := 5 |}.
  repeat split. intros []; reflexivity.
Qed.
Lemma positional : exists n l c x, l_bus l = Some "A" /\ tech_limit true n l = Written c /\ l_sense l = Le /\
  sum_where (fun a => of_tech n (l_carrier l) (l_period l) a && at_bus "A" a) (capacity x) n <= l_const l /\ ~ holds x c.
Proof.
  exists (mk_net [mk "Generator" "g" "A" "hydro" decades; mk "StorageUnit" "s" "B" "hydro" decades]), {| l_carrier := "hydro"; l_sense := Le; l_period := Some 2020%Z; l_bus := Some "A"; l_const := 5 |}.
  eexists. exists (fun _ => 4). split; [reflexivity|]. split; [reflexivity|]. split; [reflexivity|]. split; [vm_compute; discriminate|]. rewrite <- holdsb_iff. discriminate.
Qed.
Lemma bad_column : exists n carriers int_of buses col, In "wind" carriers /\ col_name col = "nom_max_wnd" /\ bus_column n carriers true int_of buses col = None /\
  bus_column n carriers false int_of buses col = Some [].
Proof.
  exists (mk_net []), ["wind"], (fun _ => None), ["A"], {| col_name := "nom_max_wnd"; col_val := fun _ => Some 5 |}. repeat split. simpl. auto.
Qed.
Lemma min_unmet : exists n carriers int_of buses col cs, bus_column n carriers true int_of buses col = Some cs /\ denotes carriers (sns_periods n) true int_of (col_name col) Ge "wind" None /\ In "B" buses /\ col_val col "B" = Some 5 /\
  exists x, sat x (problem cs) /\ sum_where (fun a => of_tech n "wind" None a && on_bus a && at_bus "B" a) (capacity x) n == 0.
Proof.
  exists (mk_net [mk "Generator" "w" "A" "wind" decades]), ["wind"], (fun _ => None), ["B"], {| col_name := "nom_min_wind"; col_val := fun _ => Some 5 |}. eexists.
  split; [reflexivity|]. split; [exists "nom_min_", "wind"; simpl; auto 10|]. split; [simpl; auto|]. split; [reflexivity|]. exists (fun _ => 0). split; [|reflexivity]. apply satb_iff. reflexivity.
Qed.
Definition caps (l : list (string * Q)) : sol := fun v => match find (fun e => String.eqb (fst e) (snd v)) l with Some e => snd e | None => 0 end.
Lemma retired : exists n cs x, NoDup (map c_name cs) /\ invest n = true /\ by_label false (restricted n cs) n /\ (forall c q, In c cs -> c_growth c = Some q -> 0 <= q) /\
  grows_within n cs x /\ ~ sat x (problem (growth_cons false n cs)).
Proof.
  exists (mk_net [mk "Generator" "w20" "A" "wind" [2020%Z]; mk "Generator" "w30" "A" "wind" [2030; 2040]%Z]), [{| c_name := "wind"; c_growth := Some 100; c_relative := 0 |}], (caps [("w20", 100); ("w30", 100)]).
  split; [repeat constructor; simpl; auto|]. split; [reflexivity|]. split; [left; reflexivity|]. split; [intros c q [<-|[]] Q; injection Q as <-; discriminate|]. split.
  - intros i c q L [<-|[]] Q. injection Q as <-. destruct i as [|[|[|i]]]; [vm_compute; discriminate|vm_compute; discriminate|vm_compute; discriminate|simpl in L; lia].
  - rewrite <- satb_iff. discriminate.
Qed.
Lemma growth_positional : exists n cs x, NoDup (map c_name cs) /\ invest n = true /\ (forall c q, In c cs -> c_growth c = Some q -> 0 <= q) /\
  (forall a, In a (assets n) -> restricted n cs a = true -> outlasts n a) /\ sat x (problem (growth_cons true n cs)) /\ ~ grows_within n cs x.
Proof.
  exists (mk_net [mk "Generator" "w" "A" "wind" decades; mk "StorageUnit" "b" "A" "battery" decades]),
    [{| c_name := "wind"; c_growth := Some 100; c_relative := 0 |}; {| c_name := "battery"; c_growth := Some 10; c_relative := 0 |}], (caps [("b", 50)]).
  split; [repeat constructor; simpl; intuition discriminate|]. split; [reflexivity|]. split; [intros c q [<-|[<-|[]]] Q; injection Q as <-; discriminate|]. split.
  - intros a [<-|[<-|[]]] _ i p _ E; cbn [sns_periods mk_net] in E; cbn [k_in mk]; apply memz_iff, (nth_error_In _ _ E).
  - split; [apply satb_iff; reflexivity|]. intros H. specialize (H 0%nat {| c_name := "battery"; c_growth := Some 10; c_relative := 0 |} 10 ltac:(simpl; lia) ltac:(simpl; auto) eq_refl). vm_compute in H. apply H. reflexivity.
Qed.
Lemma unweighted : exists n g, t_period g = None /\ (exists a, In a (assets n) /\ listed ["AC"] n None a = true) /\ t_carriers g = "AC" /\ cost_limit n g = Raised /\ exists c, volume_limit n g = Written c.
Proof.
  exists {| assets := [mk "Line" "l" "A" "AC" decades]; has_carrier := fun _ => true; inv_periods := decades; sns_periods := decades; weight_of := fun _ => 1; multi := true; invest := false |},
    {| t_carriers := "AC"; t_sense := Le; t_period := None; t_const := 5 |}.
  split; [reflexivity|]. split; [eexists; split; [simpl; auto|reflexivity]|]. split; [reflexivity|]. split; [reflexivity|]. eexists. reflexivity.
Qed.
Lemma column_denotes n carriers ms int_of buses col cs s k p x : bus_column n carriers ms int_of buses col = Some cs -> denotes carriers (sns_periods n) ms int_of (col_name col) s k p ->
  (sat x (problem cs) <-> forall b q a, In b buses -> col_val col b = Some q -> In a (assets n) -> of_tech n k p a = true -> on_bus a = true -> k_bus a = b ->
    sense_holds s (sum_where (fun a => of_tech n k p a && on_bus a && at_bus b a) (capacity x) n) q).
Proof. intros E D. apply parse_iff in D. now apply column_iff with (1 := E). Qed.
Lemma tech_raised o n l : by_label o (of_tech n (l_carrier l) (l_period l)) n ->
  (tech_limit o n l = Raised <-> exists p, l_period l = Some p /\
    (~ In p (inv_periods n) \/ exists b, l_bus l = Some b /\ (exists a, In a (assets n) /\ has_capacity a /\ of_tech n (l_carrier l) (Some p) a = true) /\
       forall a, In a (assets n) -> has_capacity a -> of_tech n (l_carrier l) (Some p) a = true -> k_bus a <> b)).
Proof.
  intros A. unfold tech_limit. destruct (l_period l) as [p|]; [|split; [discriminate|intros [p [H _]]; discriminate]].
  destruct (memz p (inv_periods n)) eqn:M; cbn [negb].
  - apply memz_iff in M. destruct (nonempty (tech_exprs n (l_carrier l) (Some p))) eqn:E.
    + cbn zeta. destruct (l_bus l) as [b|].
      * destruct (mem b _) eqn:K.
        -- apply mem_iff in K. apply in_keys_merge in K; [|auto using by_label_aligned]. apply tech_key in K. destruct K as [a [Ia [C [T B]]]]. split; [discriminate|].
           intros [p' [Q [N|[b' [Qb [_ H]]]]]]; injection Q as <-; [contradiction|]. injection Qb as <-. destruct (H a Ia C T B).
        -- split; [|reflexivity]. intros _. exists p. split; [reflexivity|]. right. exists b. split; [reflexivity|]. split; [now apply tech_nonempty|]. intros a Ia C T B.
           enough (mem b (keys (merge o (tech_exprs n (l_carrier l) (Some p)))) = true) by congruence.
           apply mem_iff, in_keys_merge; [auto using by_label_aligned|]. apply tech_key. exists a. auto.
      * split; [discriminate|]. intros [p' [Q [N|[b' [Qb _]]]]]; [injection Q as <-; contradiction|discriminate].
    + split; [discriminate|]. intros [p' [Q [N|[b' [Qb [X _]]]]]]; injection Q as <-; [contradiction|]. apply tech_nonempty in X. congruence.
  - split; [|reflexivity]. intros _. exists p. split; [reflexivity|]. left. intros I. apply memz_iff in I. congruence.
Qed.
