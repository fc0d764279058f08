From Coq Require Import List String Ascii Bool QArith ZArith Arith Lia.
From Verif Require Import CheckModel CheckSpec.
Import ListNotations.
Open Scope string_scope.
Open Scope list_scope.

Definition ne {A} (l : list A) : Prop := exists x, In x l.
Lemma ne_nil {A} : ~ ne (@nil A).
Proof. intros [x []]. Qed.
Lemma ne_iff {A} (l : list A) : l <> [] <-> ne l.
Proof. destruct l as [|x l]; split; intros H. - now destruct H. - destruct H as [y []]. - exists x. now left. - discriminate. Qed.
Lemma ne_filter {A} (p : A -> bool) l : ne (filter p l) <-> exists x, In x l /\ p x = true.
Proof. split; intros [x H]; exists x; apply filter_In in H || apply filter_In; exact H. Qed.
Lemma ne_app {A} (l m : list A) : ne (l ++ m) <-> ne l \/ ne m.
Proof. split; [intros [x H]; apply in_app_iff in H; destruct H; [left|right]; now exists x|intros [[x H]|[x H]]; exists x; apply in_app_iff; auto]. Qed.
Lemma ne_flat {A B} (f : A -> list B) l : ne (flat_map f l) <-> exists x, In x l /\ ne (f x).
Proof. split; [intros [y H]; apply in_flat_map in H; destruct H as [x [H1 H2]]; exists x; split; auto; now exists y|intros [x [H [y H2]]]; exists y; apply in_flat_map; eauto]. Qed.
Lemma ne_map {A B} (f : A -> B) l : ne (map f l) <-> ne l.
Proof. split; [intros [y H]; apply in_map_iff in H; destruct H as [x [_ H]]; now exists x|intros [x H]; exists (f x); now apply in_map]. Qed.
Lemma nil_ne {A} (l : list A) : nil_b l = false <-> ne l.
Proof. destruct l as [|x l]; cbn; split; intros H. - discriminate. - destruct H as [y []]. - exists x. now left. - reflexivity. Qed.
Lemma ne_found k t l : ne (found k t l) <-> ne l.
Proof. unfold found. destruct (nil_b l) eqn:N; [destruct l; [|discriminate]; split; intros [x []]|]. apply nil_ne in N. split; auto. intros _. eexists. left. reflexivity. Qed.
Lemma mem_In s l : mem s l = true <-> In s l.
Proof. unfold mem. rewrite existsb_exists. split; [intros [x [H E]]; apply String.eqb_eq in E; now subst|intros H; exists s; split; auto; apply String.eqb_refl]. Qed.
Lemma mem_not s l : mem s l = false <-> ~ In s l.
Proof. rewrite <- mem_In. destruct (mem s l); split; intros H; try discriminate; try reflexivity; exfalso; apply H; reflexivity. Qed.
Lemma In_index n c s : In s (index_of n c) <-> defined n c s.
Proof.
  unfold index_of, defined. rewrite in_flat_map. split.
  - intros [t [I H]]. destruct (String.eqb_spec (t_class t) c); [|destruct H]. exists t. auto.
  - intros [t [I [E H]]]. exists t. split; auto. rewrite E, String.eqb_refl. exact H.
Qed.
Lemma is_nan_iff c : is_nan c = true <-> c = NaN.
Proof. destruct c; cbn; split; intros H; try discriminate; reflexivity. Qed.
Lemma is_nan_not c : negb (is_nan c) = true <-> c <> NaN.
Proof. destruct c; cbn; split; intros H; try discriminate; try reflexivity. now destruct H. Qed.
Lemma is_empty_not c : negb (is_empty c) = true <-> c <> Str "".
Proof. destruct c as [s| | | | |]; cbn; try (split; intros H; [discriminate|reflexivity]). destruct s; cbn; split; intros H; try discriminate; try reflexivity. now destruct H. Qed.
Lemma is_zero_iff c : is_zero c = true <-> zero c.
Proof. unfold zero. destruct c as [s|q| | | |]; cbn; try (split; intros H; [discriminate|destruct H as [? [? _]]; discriminate]). rewrite Qeq_bool_iff. split; [eauto|intros [r [E H]]; now injection E as ->]. Qed.
Lemma is_true_iff c : is_true c = true <-> c = Flag true.
Proof. destruct c as [s|q| | | |b]; cbn; split; intros H; try discriminate; [now subst|now injection H as ->]. Qed.
Lemma is_inf_iff c : is_inf c = true <-> inf c.
Proof. unfold inf. destruct c; cbn; split; intros H; try discriminate; auto; destruct H; discriminate. Qed.
Lemma lt_iff a b : lt a b = true <-> less a b.
Proof.
  destruct a as [s|q| | | |], b as [s'|q'| | | |]; cbn; try (split; intros H; [discriminate H|destruct H]); try (split; auto; fail).
  rewrite negb_true_iff, <- not_true_iff_false, Qle_bool_iff. split; [apply Qnot_le_lt|apply Qlt_not_le].
Qed.
Lemma refers_iff n c : negb (match as_str c with Some s => mem s (index_of n "Bus") | None => false end) = true <-> forall b, defined n "Bus" b -> ~ refers c b.
Proof.
  unfold refers. rewrite negb_true_iff. destruct c as [s|q| | | |]; cbn [as_str]; try (split; [intros _ b0 _ [X|[X _]]; discriminate|reflexivity]).
  - rewrite mem_not, In_index. split; [intros H b D [X|[X _]]; [injection X as ->; auto|discriminate]|intros H D; apply (H s D); auto].
  - rewrite mem_not, In_index. split; [intros H b D [X|[_ X]]; [discriminate|subst; auto]|intros H D; apply (H "nan" D); auto].
Qed.
Lemma branch_iff t : is_branch (t_class t) = true <-> branch t.
Proof. unfold is_branch, branch. rewrite mem_In. cbn [In]. split; [intros [H|[H|[H|[]]]]; auto|intros [H|[H|H]]; rewrite H; auto]. Qed.

Lemma bus_missing n t k f : is_branch (t_class t) = false \/ last_int k <> None -> exists l, missing_buses n t (k, f) = Some l /\
  forall i, In i l <-> In i (t_index t) /\ (forall b, defined n "Bus" b -> ~ refers (f i) b) /\ (further_port t k -> f i <> Str "").
Proof.
  intros W. unfold missing_buses. cbn [fst snd]. cbn zeta. destruct (is_branch (t_class t)) eqn:B.
  - destruct (last_int k) as [d|] eqn:D; [|destruct W as [W|W]; [discriminate|now destruct W]]. eexists. split; [reflexivity|]. intros i. apply branch_iff in B. destruct (Nat.ltb_spec 1 d) as [L|L].
    + rewrite !filter_In, refers_iff, is_empty_not. split; [intros [[H1 H2] H3]; auto|intros [H1 [H2 H3]]; split; auto; apply H3; split; auto; exists d; repeat split; auto; lia].
    + rewrite filter_In, refers_iff. split; [intros [H1 H2]; split; auto; split; auto; intros [_ [e [H3 [H4 H5]]]]; rewrite D in H3; injection H3 as <-; lia|tauto].
  - eexists. split; [reflexivity|]. intros i. rewrite filter_In, refers_iff. split; [intros [H1 H2]; split; auto; split; auto; intros [H3 _]; apply branch_iff in H3; congruence|tauto].
Qed.
Definition ports_ok (t : table) : Prop := branch t -> forall k f, holds t k f -> at_port k -> last_int k <> None.
Lemma ports_case t k f : ports_ok t -> holds t k f -> at_port k -> is_branch (t_class t) = false \/ last_int k <> None.
Proof. intros W H P. destruct (is_branch (t_class t)) eqn:B; auto. right. apply branch_iff in B. eapply W; eauto. Qed.
Lemma found_In e k t l : In e (found k t l) <-> e = Found k (t_class t) l /\ ne l.
Proof. unfold found. destruct (nil_b l) eqn:N; [destruct l; [|discriminate]; split; [intros []|intros [_ [x []]]]|]. apply nil_ne in N. split; [intros [<-|[]]; auto|intros [-> _]; now left]. Qed.
Lemma buses_events n t e : ports_ok t -> In e (check_for_unknown_buses n t) ->
  exists l, e = Found "unknown_buses" (t_class t) l /\ ne l /\ forall i, In i l -> unknown_bus n t i.
Proof.
  intros W. unfold check_for_unknown_buses, bus_columns. rewrite in_flat_map. intros [[k f] [I E]]. apply filter_In in I. destruct I as [I P]. cbn [fst] in P.
  destruct (bus_missing n t k f (ports_case t k f W I P)) as [l [Q M]]. rewrite Q in E. apply found_In in E. destruct E as [-> N].
  exists l. split; auto. split; auto. intros i H. apply M in H. split; [tauto|]. exists k, f. tauto.
Qed.
Lemma buses_found n t i : ports_ok t -> unknown_bus n t i -> exists l, In (Found "unknown_buses" (t_class t) l) (check_for_unknown_buses n t) /\ In i l.
Proof.
  intros W [I [k [f [H [P [U F]]]]]]. destruct (bus_missing n t k f (ports_case t k f W H P)) as [l [Q M]]. exists l. assert (In i l) by (apply M; auto). split; auto.
  unfold check_for_unknown_buses, bus_columns. rewrite in_flat_map. exists (k, f). split; [apply filter_In; auto|]. rewrite Q. apply found_In. split; auto. now exists i.
Qed.

(* a check finds exactly its fault *)
Definition exact (n : net) (t : table) (key : string) (es : list event) : Prop :=
  (ne es <-> faulty n t key) /\ forall e, In e es -> exists l, e = Found key (t_class t) l.
Lemma found_shape key t l e : In e (found key t l) -> exists l, e = Found key (t_class t) l.
Proof. intros H. apply found_In in H. destruct H as [-> _]. eauto. Qed.
Lemma buses_exact n t : ports_ok t -> exact n t "unknown_buses" (check_for_unknown_buses n t).
Proof.
  intros W. split; [split|].
  - intros [e H]. apply buses_events in H; auto. destruct H as [l [_ [[i N] H]]]. apply (Bus n t i). auto.
  - intros H. inversion H; subst. destruct (buses_found n t i W H0) as [l [X _]]. eexists. exact X.
  - intros e H. apply buses_events in H; auto. destruct H as [l [-> _]]. eauto.
Qed.
Lemma carriers_exact n t : exact n t "unknown_carriers" (check_for_unknown_carriers n t).
Proof.
  unfold check_for_unknown_carriers. destruct (find_col "carrier" (t_cols t)) as [f|] eqn:F.
  2:{ split; [split|]; [intros H; now apply ne_nil in H| |intros e []]. intros H. inversion H; subst. destruct H0 as [_ [f [X _]]]. congruence. }
  split; [|apply found_shape]. rewrite ne_found, ne_filter.
  assert (K : forall i, negb (match f i with Str s => mem s (index_of n "Carrier") | _ => false end) = true <-> forall c, defined n "Carrier" c -> f i <> Str c).
  { intros i. rewrite negb_true_iff. destruct (f i) as [s|q| | | |]; try (split; [intros _ c _ X; discriminate|reflexivity]). rewrite mem_not, In_index. split; [intros H c D X; injection X as ->; auto|intros H D; now apply (H s D)]. }
  split.
  - intros [i [I H]]. apply andb_true_iff in H. destruct H as [H H3]. apply andb_true_iff in H. destruct H as [H1 H2]. apply (Carrier n t i). split; auto. exists f. split; auto.
    apply is_nan_not in H2. apply is_empty_not in H3. split; auto. split; auto. now apply K.
  - intros H. inversion H; subst. destruct H0 as [I [f' [E [H1 [H2 H3]]]]]. rewrite F in E. injection E as <-. exists i. split; auto.
    apply andb_true_iff. split; [apply andb_true_iff; split|]; [now apply K|now apply is_nan_not|now apply is_empty_not].
Qed.
Lemma same_index_iff a b : same_index a b = true <-> a = b.
Proof.
  revert b. induction a as [|x a IH]; intros [|y b]; cbn; split; intros H; try discriminate; auto.
  - apply andb_true_iff in H. destruct H as [H1 H2]. apply Z.eqb_eq in H1. apply IH in H2. now subst.
  - injection H as -> ->. apply andb_true_iff. split; [apply Z.eqb_refl|now apply IH].
Qed.
Definition series_ok (t : table) : Prop := forall a, In a (t_attrs t) -> at_varying a = true -> exists f, series_of t (at_name a) f.
Lemma time_exact n t : series_ok t -> exact n t "time_series" (check_time_series n t).
Proof.
  intros W. unfold check_time_series. split.
  - rewrite ne_flat. split.
    + intros [a [I H]]. destruct (at_varying a && at_static a) eqn:B; [|now apply ne_nil in H]. apply andb_true_iff in B. destruct B as [B1 B2].
      destruct (W a I B1) as [f F]. unfold series_of in F. rewrite F in H. apply ne_app in H. destruct H as [H|H].
      * apply ne_found, ne_filter in H. destruct H as [c [H1 H2]]. apply negb_true_iff, mem_not in H2. now apply (Column n t a f c).
      * destruct (same_index (n_snaps n) (f_index f)) eqn:S; [now apply ne_nil in H|]. apply (Index n t a f); auto. intros X. rewrite X in S. rewrite (proj2 (same_index_iff _ _) eq_refl) in S. discriminate.
    + intros H. inversion H; subst; exists a; (split; auto); rewrite H1, H2; cbn [andb]; unfold series_of in H3; rewrite H3; apply ne_app.
      * left. apply ne_found, ne_filter. exists c. split; auto. now apply negb_true_iff, mem_not.
      * right. destruct (same_index (n_snaps n) (f_index f)) eqn:S; [apply same_index_iff in S; congruence|]. eexists. left. reflexivity.
  - intros e H. apply in_flat_map in H. destruct H as [a [I H]]. destruct (at_varying a && at_static a) eqn:B; [|destruct H]. apply andb_true_iff in B. destruct B as [B1 B2].
    destruct (W a I B1) as [f F]. unfold series_of in F. rewrite F in H. apply in_app_iff in H. destruct H as [H|H]; [now apply found_shape in H|].
    destruct (same_index (n_snaps n) (f_index f)); [destruct H|]. destruct H as [<-|[]]. eauto.
Qed.
Lemma find_first (t : table) (p : attr -> bool) (P : attr -> Prop) : (forall a, p a = true <-> P a) ->
  forall a, find p (t_attrs t) = Some a <-> first_attr t P a.
Proof.
  intros E a. unfold first_attr. generalize (t_attrs t) as l. induction l as [|b l IH]; cbn.
  - split; [discriminate|intros [x [y [X _]]]; destruct x; discriminate].
  - destruct (p b) eqn:B.
    + split.
      * intros X. injection X as <-. exists [], l. split; auto. split; [now apply E|intros c []].
      * intros [x [y [X [H1 H2]]]]. destruct x as [|c x]; cbn in X; injection X as -> X; auto. exfalso. apply (H2 c); [now left|now apply E].
    + rewrite IH. split.
      * intros [x [y [-> [H1 H2]]]]. exists (b :: x), y. split; auto. split; auto. intros c [<-|C]; auto. intros X. apply E in X. congruence.
      * intros [x [y [X [H1 H2]]]]. destruct x as [|c x]; cbn in X; injection X as -> X; [apply E in H1; congruence|]. subst. exists x, y. split; auto. split; auto. intros d D. apply H2. now right.
Qed.
Lemma first_unique t P a b : first_attr t P a -> first_attr t P b -> (forall x, P x \/ ~ P x) -> a = b.
Proof.
  intros [l [r [E [H1 H2]]]] [l' [r' [E' [H1' H2']]]] D. rewrite E in E'. clear E. revert l' r' E' H2'. induction l as [|c l IH]; intros [|c' l'] r' E' H2'; cbn in E'; injection E' as X Y; auto.
  - subst. exfalso. now apply (H2' c'); [left|].
  - subst. exfalso. now apply (H2 b); [left|].
  - subst. apply (IH (fun b B => H2 b (or_intror B)) l' r'); auto. intros d D'. apply H2'. now right.
Qed.
Lemma find_none_first (t : table) (p : attr -> bool) (P : attr -> Prop) : (forall a, p a = true <-> P a) -> find p (t_attrs t) = None -> forall a, ~ first_attr t P a.
Proof. intros E N a H. apply (find_first t p P E) in H. congruence. Qed.
Lemma capacity_iff a : at_static a && mem (at_name a) ["p_nom"; "s_nom"; "e_nom"] = true <-> capacity_attr a.
Proof. unfold capacity_attr. now rewrite andb_true_iff, mem_In. Qed.
Lemma limit_iff a : at_varying a && mem (at_name a) ["p_max_pu"; "e_max_pu"] = true <-> limit_attr a.
Proof. unfold limit_attr. now rewrite andb_true_iff, mem_In. Qed.
Lemma static_exact n t : exact n t "static_power_attrs" (check_static_power_attributes t).
Proof.
  unfold check_static_power_attributes. destruct (String.eqb_spec (t_class t) "TransformerType") as [T|T].
  { split; [split|]; [intros H; now apply ne_nil in H|intros H; inversion H; subst; congruence|intros e []]. }
  destruct (find _ (t_attrs t)) as [a|] eqn:F.
  2:{ split; [split|]; [intros H; now apply ne_nil in H| |intros e []]. intros H. inversion H; subst; exfalso; eapply (find_none_first _ _ _ capacity_iff F); eauto. }
  pose proof (proj1 (find_first _ _ _ capacity_iff a) F) as A. cbn zeta. split.
  - rewrite ne_app, ne_found, ne_filter, ne_flat. split.
    + intros [[i [I H]]|[col [C H]]].
      * apply lt_iff in H. now apply (Limits n t a i).
      * destruct (existsb _ (t_index t)) eqn:X; [|now apply ne_nil in H]. apply existsb_exists in X. destruct X as [i [I X]]. apply andb_true_iff in X. destruct X as [X1 X2]. apply is_true_iff in X1. apply is_nan_iff in X2.
        destruct C as [<-|[<-|[]]]; [apply (Open n t a i "_min")|apply (Open n t a i "_max")]; auto; cbn; auto.
    + intros H. inversion H; subst.
      * left. assert (a0 = a) as -> by (apply (find_first _ _ _ capacity_iff) in H1; congruence). exists i. split; auto. now apply lt_iff.
      * right. assert (a0 = a) as -> by (apply (find_first _ _ _ capacity_iff) in H1; congruence). exists (at_name a ++ e)%string. split; [destruct H4 as [<-|[<-|[]]]; cbn; auto|].
        destruct (existsb _ (t_index t)) eqn:X; [eexists; left; reflexivity|]. exfalso. rewrite <- not_true_iff_false in X. apply X. apply existsb_exists. exists i. split; auto. rewrite H3, H5. reflexivity.
  - intros e H. apply in_app_iff in H. destruct H as [H|H]; [now apply found_shape in H|]. apply in_flat_map in H. destruct H as [col [_ H]]. destruct (existsb _ _); [|destruct H]. destruct H as [<-|[]]. eauto.
Qed.
Lemma lt_nan_l c : lt NaN c = false. Proof. reflexivity. Qed.
Lemma zip_nth (p : cell -> cell -> bool) h l : (forall c, p NaN c = false) -> (forall c, p c NaN = false) ->
  (existsb (fun hl => p (fst hl) (snd hl)) (zip h l) = true <-> exists k, p (nth k h NaN) (nth k l NaN) = true).
Proof.
  intros P1 P2. revert l. induction h as [|x h IH]; intros l; cbn.
  - split; [discriminate|intros [k H]; destruct k; rewrite P1 in H; discriminate].
  - destruct l as [|y l]; cbn [existsb].
    + split; [discriminate|intros [k H]; destruct k; rewrite P2 in H; discriminate].
    + rewrite orb_true_iff, IH. cbn [fst snd]. split.
      * intros [H|[k H]]; [now exists 0%nat|now exists (S k)].
      * intros [[|k] H]; [now left|right; now exists k].
Qed.
Lemma ex_nan l : existsb is_nan l = true <-> In NaN l.
Proof. rewrite existsb_exists. split; [intros [x [H E]]; apply is_nan_iff in E; now subst|intros H; exists NaN; auto]. Qed.
Lemma prefix_one p s : String.prefix p s = true -> String.length p = 1%nat -> exists c r, p = String c "" /\ s = String c r.
Proof.
  destruct p as [|c [|d p]]; cbn [String.length]; intros H L; try discriminate. destruct s as [|x s]; cbn in H; [discriminate|].
  destruct (ascii_dec c x) as [->|]; [|discriminate]. eauto.
Qed.
Lemma map_repeat {A B} (c : B) (l : list A) : map (fun _ => c) l = repeat c (List.length l).
Proof. induction l; cbn; congruence. Qed.
Lemma dense_values n t a i : dense n t a i = values n t a i.
Proof.
  unfold dense, values, own_series. destruct (find_col a (t_dyn t)); [destruct (find_col i (f_cols f))|]; auto using map_repeat.
Qed.
Lemma limits_exact n t : exact n t "time_series_power_attrs" (check_time_series_power_attributes n t).
Proof.
  unfold check_time_series_power_attributes. destruct (String.eqb_spec (t_class t) "TransformerType") as [T|T].
  { split; [split|]; [intros H; now apply ne_nil in H|intros H; inversion H; subst; congruence|intros e []]. }
  destruct (find _ (t_attrs t)) as [a|] eqn:F.
  2:{ split; [split|]; [intros H; now apply ne_nil in H| |intros e []]. intros H. inversion H; subst; exfalso; eapply (find_none_first _ _ _ limit_iff F); eauto. }
  pose proof (proj1 (find_first _ _ _ limit_iff a) F) as A.
  assert (exists c r, at_name a = String c r) as [c [r E]]. { destruct A as [l [q [_ [[_ P] _]]]]. destruct P as [<-|[<-|[]]]; eauto. }
  rewrite E. cbn zeta. set (p := String c "").
  assert (PX : String.prefix p (at_name a) = true). { rewrite E. cbn. destruct (ascii_dec c c); [|congruence]. now destruct r. }
  assert (U : forall a' p', first_attr t limit_attr a' -> String.prefix p' (at_name a') = true -> String.length p' = 1%nat -> p' = p).
  { intros a' p' A' H1 H2. apply (find_first _ _ _ limit_iff) in A'. assert (a' = a) as -> by congruence. apply prefix_one in H1; auto. destruct H1 as [c' [r' [-> X]]]. rewrite E in X. injection X as -> _. reflexivity. }
  split.
  - rewrite !ne_app, !ne_map, !ne_filter. split.
    + assert (X : forall i e v, In i (t_index t) -> In e ["_max_pu"; "_min_pu"] -> In v (values n t (p ++ e) i) -> v = NaN \/ inf v -> faulty n t "time_series_power_attrs").
      { intros i e v I B V Q. now apply (Bad n t a i p e v). }
      intros [[i [I H]]|[[i [I H]]|[[i [I H]]|[[i [I H]]|[i [I H]]]]]]; rewrite ?dense_values in H.
      * apply ex_nan in H. apply (X i "_max_pu" NaN); cbn; auto.
      * apply ex_nan in H. apply (X i "_min_pu" NaN); cbn; auto.
      * apply existsb_exists in H. destruct H as [v [V H]]. apply is_inf_iff in H. apply (X i "_max_pu" v); cbn; auto.
      * apply existsb_exists in H. destruct H as [v [V H]]. apply is_inf_iff in H. apply (X i "_min_pu" v); cbn; auto.
      * apply zip_nth in H; [|reflexivity|intros []; reflexivity]. destruct H as [k H]. apply lt_iff in H. now apply (Crossed n t a i p k).
    + intros H. inversion H; subst.
      * assert (p0 = p) as -> by eauto. destruct H5 as [<-|[<-|[]]]; destruct H7 as [V|V].
        -- left. exists i. split; auto. rewrite dense_values. apply ex_nan. congruence.
        -- right. right. left. exists i. split; auto. rewrite dense_values. apply existsb_exists. exists v. split; auto. now apply is_inf_iff.
        -- right. left. exists i. split; auto. rewrite dense_values. apply ex_nan. congruence.
        -- right. right. right. left. exists i. split; auto. rewrite dense_values. apply existsb_exists. exists v. split; auto. now apply is_inf_iff.
      * assert (p0 = p) as -> by eauto. right. right. right. right. exists i. split; auto. rewrite !dense_values. apply zip_nth; [reflexivity|intros []; reflexivity|]. exists k. now apply lt_iff.
  - intros e H. rewrite !in_app_iff, !in_map_iff in H. destruct H as [[i [<- _]]|[[i [<- _]]|[[i [<- _]]|[[i [<- _]]|[i [<- _]]]]]]; eauto.
Qed.
Lemma frame_ne f : negb (frame_empty f) = true <-> f_cols f <> [] /\ f_index f <> [].
Proof. unfold frame_empty. rewrite negb_orb, andb_true_iff, !negb_true_iff, !nil_ne, !ne_iff. reflexivity. Qed.
Lemma default_iff t k : existsb (fun a => String.eqb (at_name a) k && negb (is_nan (at_default a)) && negb (is_empty (at_default a))) (t_attrs t) = true <-> has_default t k.
Proof.
  rewrite existsb_exists. unfold has_default. split; intros [a H]; exists a.
  - rewrite !andb_true_iff, is_nan_not, is_empty_not in H. destruct H as [I [[E H1] H2]]. apply String.eqb_eq in E. auto.
  - rewrite !andb_true_iff, is_nan_not, is_empty_not, String.eqb_eq. tauto.
Qed.
Lemma nans_exact n t : exact n t "nans_for_component_default_attrs" (check_nans t).
Proof.
  unfold check_nans. cbn zeta. split.
  - rewrite ne_app, ne_found, ne_map, ne_filter, ne_flat. split.
    + intros [[[k f] [I H]]|[[k f] [I H]]]; cbn [fst snd] in H.
      * apply andb_true_iff in H. destruct H as [H1 H2]. apply default_iff in H1. apply existsb_exists in H2. destruct H2 as [i [I2 H2]]. apply is_nan_iff in H2. now apply (Hole n t k f i).
      * destruct (existsb _ (t_attrs t) && negb (frame_empty f)) eqn:B; [|now apply ne_nil in H]. apply andb_true_iff in B. destruct B as [B1 B2]. apply default_iff in B1. apply frame_ne in B2.
        apply ne_found, ne_map, ne_filter in H. destruct H as [[c v] [H1 H2]]. apply ex_nan in H2. apply (Gap n t k f c v); tauto.
    + intros H. inversion H; subst.
      * left. exists (k, f). split; auto. cbn [fst snd]. apply andb_true_iff. split; [now apply default_iff|]. apply existsb_exists. exists i. split; auto. now apply is_nan_iff.
      * right. exists (k, f). split; auto. cbn [fst snd]. rewrite (proj2 (default_iff t k) H1). rewrite (proj2 (frame_ne f)); [|split; auto; intros X; rewrite X in H2; destruct H2].
        cbn [andb]. apply ne_found, ne_map, ne_filter. exists (c, v). split; auto. now apply ex_nan.
  - intros e H. apply in_app_iff in H. destruct H as [H|H]; [now apply found_shape in H|]. apply in_flat_map in H. destruct H as [kf [_ H]]. destruct (_ && _); [|destruct H]. now apply found_shape in H.
Qed.
Lemma impedance_exact n t : exact n t "zero_impedances" (check_for_zero_impedances t).
Proof.
  unfold check_for_zero_impedances. destruct (mem (t_class t) ["Line"; "Transformer"]) eqn:B.
  - apply mem_In in B. split.
    + rewrite ne_flat. split.
      * intros [a [I H]]. apply ne_found, ne_filter in H. destruct H as [i [I2 H]]. apply is_zero_iff in H. apply (Impedance n t i a); auto. destruct B as [<-|[<-|[]]]; auto.
      * intros H. inversion H; subst. exists a. split; auto. apply ne_found, ne_filter. exists i. split; auto. now apply is_zero_iff.
    + intros e H. apply in_flat_map in H. destruct H as [a [_ H]]. now apply found_shape in H.
  - apply mem_not in B. split; [split|]; [intros H; now apply ne_nil in H| |intros e []]. intros H. inversion H; subst. exfalso. apply B. cbn. destruct H0 as [->| ->]; auto.
Qed.
Lemma rating_exact n t : exact n t "zero_s_nom" (check_for_zero_s_nom t).
Proof.
  unfold check_for_zero_s_nom. destruct (String.eqb_spec (t_class t) "Transformer") as [T|T].
  - split; [|apply found_shape]. rewrite ne_found, ne_filter. split.
    + intros [i [I H]]. apply is_zero_iff in H. now apply (Rating n t i).
    + intros H. inversion H; subst. exists i. split; auto. now apply is_zero_iff.
  - split; [split|]; [intros H; now apply ne_nil in H| |intros e []]. intros H. inversion H; subst. congruence.
Qed.
Lemma assets_exact n t : exact n t "assets" (check_assets t).
Proof.
  unfold check_assets. destruct (mem (t_class t) ["Generator"; "Link"]) eqn:B.
  - apply mem_In in B. split; [|apply found_shape]. rewrite ne_found, ne_filter. split.
    + intros [i [I H]]. rewrite andb_true_iff, !is_true_iff in H. destruct H. apply (Both n t i); auto. destruct B as [<-|[<-|[]]]; auto.
    + intros H. inversion H; subst. exists i. split; auto. now rewrite andb_true_iff, !is_true_iff.
  - apply mem_not in B. split; [split|]; [intros H; now apply ne_nil in H| |intros e []]. intros H. inversion H; subst. exfalso. apply B. cbn. destruct H0 as [->| ->]; auto.
Qed.
Lemma generators_exact n t : exact n t "generators" (check_generators t).
Proof.
  unfold check_generators. destruct (String.eqb_spec (t_class t) "Generator") as [T|T].
  - split.
    + rewrite ne_app, !ne_found, !ne_filter. split.
      * intros [[i [I H]]|[i [I H]]].
        -- rewrite !andb_true_iff, !lt_iff, is_true_iff in H. apply (UpDown n t i); tauto.
        -- apply lt_iff in H. now apply (Energy n t i).
      * intros H. inversion H; subst; [left|right]; exists i; (split; [auto|]); [now rewrite !andb_true_iff, !lt_iff, is_true_iff|now apply lt_iff].
    + intros e H. apply in_app_iff in H. destruct H as [H|H]; now apply found_shape in H.
  - split; [split|]; [intros H; now apply ne_nil in H| |intros e []]. intros H. inversion H; subst; congruence.
Qed.
Lemma find_attr l a : NoDup (map at_name l) -> In a l -> find (fun r => String.eqb (at_name r) (at_name a)) l = Some a.
Proof.
  induction l as [|b l IH]; cbn; intros N I; [destruct I|]. inversion N as [|? ? N1 N2]; subst. destruct I as [->|I]; [now rewrite String.eqb_refl|].
  destruct (String.eqb_spec (at_name b) (at_name a)) as [E|_]; auto. exfalso. apply N1. rewrite E. now apply in_map.
Qed.
Lemma dtypes_exact n t : series_ok t -> NoDup (map at_name (t_attrs t)) -> exact n t "dtypes" (check_dtypes_ t).
Proof.
  intros W N. unfold check_dtypes_. split.
  - rewrite ne_app, ne_found, ne_filter, ne_flat. split.
    + intros [[k [I H]]|[a [I H]]].
      * apply filter_In in I. destruct I as [I K]. apply in_map_iff in I. destruct I as [a [<- I]]. apply filter_In in I. destruct I as [I S]. rewrite find_attr in H by auto.
        apply (Static n t a); auto; intros X; [rewrite X in K; discriminate|rewrite X, String.eqb_refl in H; discriminate].
      * destruct (at_varying a) eqn:V; [|now apply ne_nil in H]. destruct (W a I V) as [f F]. unfold series_of in F. rewrite F in H. destruct (frame_empty f) eqn:X; [now apply ne_nil in H|].
        apply ne_found, ne_filter in H. destruct H as [c [C H]]. assert (Y : negb (frame_empty f) = true) by now rewrite X. apply frame_ne in Y. apply (Varying n t a f c); try tauto.
        intros Z. rewrite Z, String.eqb_refl in H. discriminate.
    + intros H. inversion H; subst.
      * left. exists (at_name a). split; [apply filter_In; split; [apply in_map, filter_In; auto|]|].
        -- destruct (String.eqb_spec (at_name a) "name"); auto.
        -- rewrite find_attr by auto. destruct (String.eqb_spec (t_dtype t (at_name a)) (at_dtype a)); auto.
      * right. exists a. split; auto. rewrite H1. unfold series_of in H2. rewrite H2. destruct (frame_empty f) eqn:X.
        -- exfalso. unfold frame_empty in X. apply orb_true_iff in X. destruct X as [X|X]; [destruct (f_cols f); [destruct H4|discriminate]|destruct (f_index f); [now destruct H3|discriminate]].
        -- apply ne_found, ne_filter. exists c. split; auto. destruct (String.eqb_spec (f_dtype f c) (at_dtype a)); auto.
  - intros e H. apply in_app_iff in H. destruct H as [H|H]; [now apply found_shape in H|]. apply in_flat_map in H. destruct H as [a [I H]].
    destruct (at_varying a) eqn:V; [|destruct H]. destruct (W a I V) as [f F]. unfold series_of in F. rewrite F in H. destruct (frame_empty f); [destruct H|]. now apply found_shape in H.
Qed.

(* checks of the whole network *)
Definition exact_net (n : net) (key : string) (es : list event) : Prop := (ne es <-> faulty_net n key) /\ forall e, In e es -> exists c l, e = Found key c l.
Lemma cell_is_iff s c : cell_is s c = true <-> c = Str s.
Proof. destruct c as [s'| | | | |]; cbn; try (split; intros H; discriminate). rewrite String.eqb_eq. split; [now intros ->|intros H; now injection H as ->]. Qed.
Lemma if_nil {A} (l : list A) (e : event) : ne (if nil_b l then [] else [e]) <-> ne l.
Proof. destruct l as [|x l]; cbn; split; intros [y H]. - destruct H. - destruct H. - exists x. now left. - exists e. now left. Qed.
Lemma not_ex {A} (p : A -> bool) l : existsb p l = false <-> forall x, In x l -> p x = false.
Proof.
  rewrite <- not_true_iff_false, existsb_exists. split; [intros H x I; destruct (p x) eqn:P; auto; exfalso; eauto|intros H [x [I P]]; rewrite (H x I) in P; discriminate].
Qed.
Lemma lonely_exact n : exact_net n "disconnected_buses" (check_for_disconnected_buses n).
Proof.
  unfold check_for_disconnected_buses. cbn zeta. split.
  - rewrite if_nil, ne_filter. split.
    + intros [b [I H]]. apply In_index in I. apply (Lonely n b); auto. intros t k f i T K P J E. apply negb_true_iff in H. rewrite not_ex in H.
      assert (X : cell_is b (f i) = false). { apply H. unfold connected. apply in_flat_map. exists t. split; auto. apply in_flat_map. exists (k, f). split; [apply filter_In; auto|]. now apply in_map. }
      rewrite E in X. cbn in X. rewrite String.eqb_refl in X. discriminate.
    + intros H. inversion H; subst. exists b. split; [now apply In_index|]. apply negb_true_iff, not_ex. intros c C. unfold connected in C. apply in_flat_map in C. destruct C as [t [T C]]. apply in_flat_map in C. destruct C as [[k f] [K C]].
      apply filter_In in K. destruct K as [K P]. apply in_map_iff in C. destruct C as [i [<- J]]. destruct (cell_is b (snd (k, f) i)) eqn:X; auto. apply cell_is_iff in X. exfalso. eapply H1; eauto.
  - intros e H. destruct (nil_b _); [destruct H|]. destruct H as [<-|[]]. eauto.
Qed.
Lemma periods_In n c : In c (constraint_periods n) <-> exists t i, In t (tables n) /\ t_class t = "GlobalConstraint" /\ In i (t_index t) /\ get t "investment_period" i = c /\ c <> NaN.
Proof.
  unfold constraint_periods, of_class. rewrite filter_In, is_nan_not, in_flat_map. split.
  - intros [[t [T H]] X]. apply filter_In in T. destruct T as [T E]. apply String.eqb_eq in E. apply in_map_iff in H. destruct H as [i [H I]]. exists t, i. auto.
  - intros [t [i [T [E [I [G X]]]]]]. split; auto. exists t. split; [apply filter_In; split; auto; now rewrite E|]. apply in_map_iff. eauto.
Qed.
Lemma period_exact n : exact_net n "investment_periods" (check_investment_periods n).
Proof.
  unfold check_investment_periods. destruct (n_periods n) as [ps|] eqn:P.
  - split.
    + split.
      * intros H. destruct (forallb (in_period ps) (constraint_periods n)) eqn:A; [now apply ne_nil in H|]. rewrite <- not_true_iff_false, forallb_forall in A.
        assert (exists c, In c (constraint_periods n) /\ in_period ps c = false) as [c [C F]].
        { clear H. revert A. generalize (constraint_periods n). intros l. induction l as [|x l IH]; intros A; [exfalso; apply A; intros x []|].
          destruct (in_period ps x) eqn:X; [|exists x; split; [now left|auto]]. destruct IH as [c [C F]]; [intros B; apply A; intros y [<-|Y]; auto|]. exists c. split; [now right|auto]. }
        apply periods_In in C. destruct C as [t [i [T [E [I [G X]]]]]]. apply (Period n t i c); auto. intros ps' p q Q. rewrite P in Q. injection Q as <-. intros Ip -> Eq. cbn in F. rewrite not_ex in F. specialize (F p Ip). apply Qeq_bool_iff in Eq. congruence.
      * intros H. inversion H; subst. destruct (forallb (in_period ps) (constraint_periods n)) eqn:A; [|eexists; left; reflexivity]. exfalso. rewrite forallb_forall in A.
        specialize (A (get t "investment_period" i)). rewrite periods_In in A. assert (B : in_period ps (get t "investment_period" i) = true) by (apply A; exists t, i; auto). clear A.
        destruct (get t "investment_period" i) as [s|q| | | |] eqn:G; try discriminate B. cbn in B. apply existsb_exists in B. destruct B as [p [Ip B]]. apply Qeq_bool_iff in B. eapply H5; eauto.
    + intros e H. destruct (forallb _ _); [destruct H|]. destruct H as [<-|[]]. eauto.
  - split.
    + rewrite if_nil. split.
      * intros [c C]. apply periods_In in C. destruct C as [t [i [T [E [I [G X]]]]]]. apply (Period n t i c); auto. intros ps' p q Q. congruence.
      * intros H. inversion H; subst. exists (get t "investment_period" i). apply periods_In. exists t, i. auto.
    + intros e H. destruct (nil_b _); [destruct H|]. destruct H as [<-|[]]. eauto.
Qed.
Lemma shape_exact n : exact_net n "shapes" (check_shapes n).
Proof.
  unfold check_shapes, of_class. split.
  - rewrite ne_flat. split.
    + intros [s [S H]]. apply filter_In in S. destruct S as [S E]. apply String.eqb_eq in E. apply ne_flat in H. destruct H as [t [T H]]. apply ne_found, ne_filter in H. destruct H as [i [I H]].
      apply andb_true_iff in H. destruct H as [H1 H2]. apply cell_is_iff in H1. apply negb_true_iff in H2. rewrite not_ex in H2. apply (Shape n s t i); auto. intros j J X. specialize (H2 j J). apply cell_is_iff in X. congruence.
    + intros H. inversion H; subst. exists s. split; [apply filter_In; split; auto; now rewrite H1|]. apply ne_flat. exists t. split; auto. apply ne_found, ne_filter. exists i. split; auto.
      apply andb_true_iff. split; [now apply cell_is_iff|]. apply negb_true_iff, not_ex. intros j J. destruct (cell_is j (get s "idx" i)) eqn:X; auto. apply cell_is_iff in X. exfalso. eapply H5; eauto.
  - intros e H. apply in_flat_map in H. destruct H as [s [_ H]]. apply in_flat_map in H. destruct H as [t [_ H]]. apply found_shape in H. destruct H as [l ->]. eauto.
Qed.

(* the run of all checks *)
Definition word_of (k : string) : string := if String.eqb k "unknown_carriers" then "unkown_carriers" else k.
Definition fair (l : list (string * list event)) : Prop := forall w es e, In (w, es) l -> In e es -> exists k c i, e = Found k c i /\ w = word_of k.
Definition all_events (l : list (string * list event)) : list event := List.concat (map snd l).
Lemma run_lenient es : (forall e, In e es -> exists k c i, e = Found k c i) -> run false es = (es, None).
Proof.
  induction es as [|e es IH]; intros H; auto. destruct (H e (or_introl eq_refl)) as [k [c [i ->]]]. cbn. rewrite IH; auto. intros x X. apply H. now right.
Qed.
Lemma run_strict es : (forall e, In e es -> exists k c i, e = Found k c i) -> run true es = match es with [] => ([], None) | e :: _ => ([], Some (raised (key_of e))) end.
Proof. destruct es as [|e es]; intros H; auto. destruct (H e (or_introl eq_refl)) as [k [c [i ->]]]. reflexivity. Qed.
Lemma run_all_cases strict l : fair l ->
  (run_all strict l = (all_events l, None) /\ forall w es, In (w, es) l -> strict w = true -> es = []) \/
  (exists pre e post w es, run_all strict l = (pre, Some (raised (key_of e))) /\ all_events l = pre ++ e :: post /\ In (w, es) l /\ In e es /\ strict w = true).
Proof.
  induction l as [|[w es] l IH]; intros F; [left; split; auto; intros w es []|].
  assert (Fe : forall e, In e es -> exists k c i, e = Found k c i). { intros e E. destruct (F w es e (or_introl eq_refl) E) as [k [c [i [X _]]]]. eauto. }
  assert (Fl : fair l) by (intros w' es' e X Y; apply (F w' es' e); auto; now right). specialize (IH Fl).
  cbn [run_all]. destruct (strict w) eqn:S.
  - rewrite run_strict by auto. destruct es as [|e es].
    + destruct IH as [[-> H]|[pre [e [post [w' [es' [-> [H1 [H2 [H3 H4]]]]]]]]]].
      * left. split; auto. intros w' es' [X|X] Y; [now injection X as <- <-|eauto].
      * right. exists pre, e, post, w', es'. split; auto. split; auto. split; auto. now right.
    + right. exists [], e, (es ++ all_events l), w, (e :: es). split; auto. split; auto. split; [now left|]. split; auto. now left.
  - rewrite run_lenient by auto. destruct IH as [[-> H]|[pre [e [post [w' [es' [-> [H1 [H2 [H3 H4]]]]]]]]]].
    + left. split; auto. intros w' es' [X|X] Y; [injection X as <- <-; congruence|eauto].
    + right. exists (es ++ pre), e, post, w', es'. split; auto. split; [|split; [now right|auto]]. unfold all_events in *. cbn [map List.concat snd]. rewrite H1. now rewrite app_assoc.
Qed.

Lemma plan_parts n dtypes w es : well_formed n -> In (w, es) (plan n dtypes) -> exists k, w = word_of k /\ (ne es <-> exists e, In e es) /\
  (forall e, In e es -> violated n dtypes k) /\ forall e, In e es -> exists c i, e = Found k c i.
Proof.
  intros W. unfold plan. rewrite in_app_iff, in_flat_map. intros [[t [T H]]|H].
  - apply filter_In in T. destruct T as [T N]. apply negb_true_iff, nil_ne, ne_iff in N. destruct (W t T) as [W1 [W2 W3]].
    assert (X : forall k, exact n t k es -> (k = "dtypes" -> dtypes = true) -> w = word_of k -> exists k, w = word_of k /\ (ne es <-> exists e, In e es) /\ (forall e, In e es -> violated n dtypes k) /\ forall e, In e es -> exists c i, e = Found k c i).
    { intros k [E1 E2] D ->. exists k. split; auto. split; [reflexivity|]. split.
      - intros e E. left. exists t. split; auto. split; auto. split; auto. apply E1. now exists e.
      - intros e E. destruct (E2 e E) as [l ->]. eauto. }
    unfold component_checks in H. rewrite in_app_iff in H. destruct H as [H|H].
    + cbn [In] in H. repeat (destruct H as [H|H]; [injection H as <- <-; eapply X; [first [apply buses_exact; exact W1|apply carriers_exact|apply time_exact; exact W2|apply static_exact|apply limits_exact|apply nans_exact|apply impedance_exact|apply rating_exact|apply assets_exact|apply generators_exact]|discriminate|reflexivity]|]). destruct H.
    + destruct dtypes; [|destruct H]. destruct H as [H|[]]. injection H as <- <-. apply (X "dtypes"); auto; now apply dtypes_exact.
  - assert (X : forall k, exact_net n k es -> w = word_of k -> exists k, w = word_of k /\ (ne es <-> exists e, In e es) /\ (forall e, In e es -> violated n dtypes k) /\ forall e, In e es -> exists c i, e = Found k c i).
    { intros k [E1 E2] ->. exists k. split; auto. split; [reflexivity|]. split; auto. intros e E. right. apply E1. now exists e. }
    destruct H as [H|[H|[H|[]]]]; injection H as <- <-; [apply (X "disconnected_buses")|apply (X "investment_periods")|apply (X "shapes")]; auto; [apply lonely_exact|apply period_exact|apply shape_exact].
Qed.
Lemma plan_fair n dtypes : well_formed n -> fair (plan n dtypes).
Proof. intros W w es e I E. destruct (plan_parts n dtypes w es W I) as [k [-> [_ [_ H]]]]. destruct (H e E) as [c [i ->]]. exists k, c, i. auto. Qed.
Lemma plan_complete n dtypes k : well_formed n -> violated n dtypes k -> exists es e, In (word_of k, es) (plan n dtypes) /\ In e es /\ key_of e = k.
Proof.
  intros W [[t [T [N [F D]]]]|F].
  - destruct (W t T) as [W1 [W2 W3]].
    assert (X : forall es, exact n t k es -> In (word_of k, es) (component_checks n dtypes t) -> exists es e, In (word_of k, es) (plan n dtypes) /\ In e es /\ key_of e = k).
    { intros es [E1 E2] I. apply E1 in F. destruct F as [e F]. exists es, e. split; [|split; auto; destruct (E2 e F) as [l ->]; reflexivity]. unfold plan. apply in_app_iff. left. apply in_flat_map. exists t. split; auto.
      apply filter_In. split; auto. now apply negb_true_iff, nil_ne, ne_iff. }
    assert (C : In k ["unknown_buses"; "unknown_carriers"; "time_series"; "static_power_attrs"; "time_series_power_attrs"; "nans_for_component_default_attrs"; "zero_impedances"; "zero_s_nom"; "assets"; "generators"; "dtypes"])
      by (inversion F; cbn; tauto).
    unfold component_checks in X. cbn [In] in C.
    repeat (destruct C as [<-|C]; [try (rewrite (D eq_refl) in *); eapply X;
      [first [apply buses_exact; exact W1|apply carriers_exact|apply time_exact; exact W2|apply static_exact|apply limits_exact|apply nans_exact|apply impedance_exact|apply rating_exact|apply assets_exact|apply generators_exact|apply dtypes_exact; assumption]
      |unfold word_of; cbn [String.eqb Ascii.eqb Bool.eqb]; apply in_app_iff; first [left; cbn [In]; tauto|right; cbn [In]; tauto]]|]). destruct C.
  - assert (X : forall es, exact_net n k es -> In (word_of k, es) [("disconnected_buses", check_for_disconnected_buses n); ("investment_periods", check_investment_periods n); ("shapes", check_shapes n)] -> exists es e, In (word_of k, es) (plan n dtypes) /\ In e es /\ key_of e = k).
    { intros es [E1 E2] I. apply E1 in F. destruct F as [e F]. exists es, e. split; [unfold plan; apply in_app_iff; right; exact I|split; auto; destruct (E2 e F) as [c [l ->]]; reflexivity]. }
    inversion F; subst; eapply X; [apply lonely_exact|cbn; tauto|apply period_exact|cbn; tauto|apply shape_exact|cbn; tauto].
Qed.
Lemma word_key k : word_of k = k \/ k = "unknown_carriers".
Proof. unfold word_of. destruct (String.eqb_spec k "unknown_carriers"); auto. Qed.

Definition effective (strict : list string) : list string := if mem "all" strict then strict_options else strict.
Lemma valid_iff strict : forallb (fun s => mem s strict_options) (effective strict) = true <-> valid strict.
Proof.
  unfold effective, valid. destruct (mem "all" strict) eqn:A.
  - apply mem_In in A. split; auto.
  - apply mem_not in A. rewrite forallb_forall. split.
    + intros H. right. intros s I. now apply mem_In, H.
    + intros [H|H] s I; [now destruct A|]. apply mem_In. now apply H.
Qed.
Lemma violated_option n d k : violated n d k -> In k strict_options.
Proof. intros [[t [_ [_ [H _]]]]|H]; inversion H; cbn; tauto. Qed.
Lemma effective_In strict k : In k strict_options -> (In k (effective strict) <-> asked strict k).
Proof.
  intros O. unfold effective, asked. destruct (mem "all" strict) eqn:A; [apply mem_In in A; tauto|]. apply mem_not in A. tauto.
Qed.
Lemma check_unfold n d strict : valid strict -> consistency_check n d strict = run_all (fun k => mem k (effective strict)) (plan n d).
Proof. intros V. apply valid_iff in V. unfold consistency_check. fold (effective strict). cbn zeta. unfold effective in *. now rewrite V. Qed.
Lemma word_strict strict k : valid strict -> mem (word_of k) (effective strict) = true -> In k (effective strict) /\ k <> "unknown_carriers".
Proof.
  intros V H. apply mem_In in H. apply valid_iff in V. rewrite forallb_forall in V. unfold word_of in H. destruct (String.eqb_spec k "unknown_carriers") as [->|N]; auto. specialize (V _ H). discriminate V.
Qed.
Lemma strict_raises n d strict : well_formed n -> valid strict ->
  (snd (consistency_check n d strict) <> None <-> exists k, asked strict k /\ k <> "unknown_carriers" /\ violated n d k).
Proof.
  intros W V. rewrite check_unfold by auto. destruct (run_all_cases (fun k => mem k (effective strict)) (plan n d) (plan_fair n d W)) as [[R H]|[pre [e [post [w [es [R [H1 [H2 [H3 H4]]]]]]]]]]; rewrite R; cbn [snd].
  - split; [intros X; now destruct X|]. intros [k [A [N X]]]. exfalso. destruct (plan_complete n d k W X) as [es [e [I [E _]]]].
    rewrite (H _ _ I) in E; [destruct E|]. unfold word_of. destruct (String.eqb_spec k "unknown_carriers"); [congruence|]. apply mem_In, effective_In; auto. eapply violated_option; eauto.
  - split; [intros _|discriminate]. destruct (plan_parts n d w es W H2) as [k [-> [_ [X _]]]]. specialize (X e H3). destruct (word_strict strict k V H4) as [Y Z]. exists k. split; [|auto].
    apply effective_In; auto. eapply violated_option; eauto.
Qed.
Lemma strict_error n d strict err : well_formed n -> valid strict -> snd (consistency_check n d strict) = Some err ->
  exists k c i post, asked strict k /\ violated n d k /\ fst (consistency_check n d []) = fst (consistency_check n d strict) ++ Found k c i :: post /\
    err = if String.eqb k "investment_periods" then ValueError else ConsistencyError k.
Proof.
  intros W V. rewrite check_unfold by auto. rewrite (check_unfold n d []) by (right; intros x []). intros E.
  assert (L : fst (run_all (fun k => mem k (effective [])) (plan n d)) = all_events (plan n d)).
  { destruct (run_all_cases (fun k => mem k (effective [])) (plan n d) (plan_fair n d W)) as [[R _]|[pre [e [post [w [es [_ [_ [_ [_ X]]]]]]]]]]; [now rewrite R|discriminate X]. }
  destruct (run_all_cases (fun k => mem k (effective strict)) (plan n d) (plan_fair n d W)) as [[R H]|[pre [e [post [w [es [R [H1 [H2 [H3 H4]]]]]]]]]]; rewrite R in *; cbn [snd fst] in *; [discriminate|].
  destruct (plan_parts n d w es W H2) as [k [-> [_ [X S]]]]. specialize (X e H3). destruct (S e H3) as [c [i ->]]. destruct (word_strict strict k V H4) as [Y _].
  exists k, c, i, post. split; [apply effective_In; auto; eapply violated_option; eauto|]. split; auto. split; [now rewrite L|]. injection E as <-. reflexivity.
Qed.
Lemma reports n d strict : well_formed n -> valid strict -> snd (consistency_check n d strict) = None ->
  forall k, (exists c i, In (Found k c i) (fst (consistency_check n d strict))) <-> violated n d k.
Proof.
  intros W V. rewrite check_unfold by auto.
  destruct (run_all_cases (fun k => mem k (effective strict)) (plan n d) (plan_fair n d W)) as [[R H]|[pre [e [post [w [es [R _]]]]]]]; rewrite R; cbn [snd fst]; [|discriminate]. intros _ k. split.
  - intros [c [i I]]. unfold all_events in I. apply in_concat in I. destruct I as [es [I1 I2]]. apply in_map_iff in I1. destruct I1 as [[w es'] [X I1]]. cbn in X. subst es'.
    destruct (plan_parts n d w es W I1) as [k' [_ [_ [X S]]]]. destruct (S _ I2) as [c' [i' E]]. injection E as -> _ _. eauto.
  - intros X. destruct (plan_complete n d k W X) as [es [e [I [E K]]]]. destruct (plan_parts n d _ es W I) as [k' [_ [_ [_ S]]]]. destruct (S e E) as [c [i ->]]. cbn in K. subst k'.
    exists c, i. unfold all_events. apply in_concat. exists es. split; auto. apply in_map_iff. now exists (word_of k, es).
Qed.
Lemma lenient n d : well_formed n -> snd (consistency_check n d []) = None.
Proof.
  intros W. destruct (snd (consistency_check n d [])) eqn:E; auto. exfalso.
  assert (X : snd (consistency_check n d []) <> None) by congruence. apply strict_raises in X; auto; [|right; intros x []]. destruct X as [k [[[]|[]] _]].
Qed.
Lemma invalid n d strict : ~ valid strict -> consistency_check n d strict = ([], Some ValueError).
Proof.
  intros V. unfold consistency_check. cbn zeta. fold (effective strict). rewrite <- valid_iff in V. destruct (forallb _ (effective strict)); auto. now destruct V.
Qed.
(* the reported items *)
Lemma items n d c i : well_formed n -> (exists l, In (Found "unknown_buses" c l) (fst (consistency_check n d [])) /\ In i l) <-> exists t, In t (tables n) /\ t_class t = c /\ unknown_bus n t i.
Proof.
  intros W. rewrite check_unfold by (right; intros x []).
  destruct (run_all_cases (fun k => mem k (effective [])) (plan n d) (plan_fair n d W)) as [[R H]|[pre [e [post [w [es [_ [_ [_ [_ X]]]]]]]]]]; [|discriminate X]. rewrite R. cbn [fst]. split.
  - intros [l [I L]]. unfold all_events in I. apply in_concat in I. destruct I as [es [I1 I2]]. apply in_map_iff in I1. destruct I1 as [[w es'] [X I1]]. cbn in X. subst es'.
    destruct (plan_parts n d w es W I1) as [k' [Ew [_ [_ S]]]]. destruct (S _ I2) as [c' [i' E]]. injection E as <- <- <-. cbn in Ew. subst w.
    unfold plan in I1. rewrite in_app_iff, in_flat_map in I1. destruct I1 as [[t [T I1]]|I1]; [|destruct I1 as [X|[X|[X|[]]]]; discriminate X].
    apply filter_In in T. destruct T as [T _]. unfold component_checks in I1. rewrite in_app_iff in I1. destruct I1 as [I1|I1]; [|destruct d; [destruct I1 as [X|[]]; discriminate X|destruct I1]].
    cbn [In] in I1. destruct I1 as [X|I1]; [|repeat (destruct I1 as [X|I1]; [discriminate X|]); destruct I1]. injection X as <-.
    apply buses_events in I2; [|exact (proj1 (W t T))]. destruct I2 as [l' [X [_ U]]]. injection X as -> <-. exists t. auto.
  - intros [t [T [<- U]]]. destruct (buses_found n t i (proj1 (W t T)) U) as [l [I L]]. exists l. split; auto. unfold all_events. apply in_concat. exists (check_for_unknown_buses n t). split; auto.
    apply in_map_iff. exists ("unknown_buses", check_for_unknown_buses n t). split; auto. unfold plan. apply in_app_iff. left. apply in_flat_map. exists t. split.
    + apply filter_In. split; auto. apply negb_true_iff, nil_ne. exists i. apply U.
    + unfold component_checks. cbn. auto.
Qed.
(* no report on the limits: they are numbers and not crossed *)
Definition numeric (c : cell) : Prop := match c with Str _ | Flag _ => False | _ => True end.
Lemma uncrossed n d t a i k p : well_formed n -> ~ violated n d "time_series_power_attrs" -> In t (tables n) -> t_class t <> "TransformerType" -> In i (t_index t) ->
  first_attr t limit_attr a -> at_name a = (p ++ "_max_pu")%string -> String.length p = 1%nat ->
  (k < List.length (values n t (p ++ "_max_pu") i))%nat -> (k < List.length (values n t (p ++ "_min_pu") i))%nat ->
  (forall v, In v (values n t (p ++ "_max_pu") i) \/ In v (values n t (p ++ "_min_pu") i) -> numeric v) ->
  exists lo hi, nth k (values n t (p ++ "_min_pu") i) NaN = Num lo /\ nth k (values n t (p ++ "_max_pu") i) NaN = Num hi /\ (lo <= hi)%Q.
Proof.
  intros W V T C I A E Lp L1 L2 Nu.
  assert (P : String.prefix p (at_name a) = true). { rewrite E. clear. induction p as [|c p IH]; [destruct (("" ++ "_max_pu")%string); reflexivity|]. cbn. destruct (ascii_dec c c); [exact IH|congruence]. }
  assert (V' : ~ faulty n t "time_series_power_attrs"). { intros X. apply V. left. exists t. split; auto. split; [intros Y; rewrite Y in I; destruct I|]. split; auto. discriminate. }
  assert (B : forall e v, In e ["_max_pu"; "_min_pu"] -> In v (values n t (p ++ e) i) -> numeric v -> exists q, v = Num q).
  { intros e v He Hv Hn. destruct v as [s|q| | | |b]; try (destruct Hn; fail); [eauto| | |]; exfalso; apply V'; eapply (Bad n t a i p e); eauto; unfold inf; auto. }
  destruct (B "_max_pu" (nth k (values n t (p ++ "_max_pu") i) NaN)) as [hi Hi]; [cbn; auto|now apply nth_In|apply Nu; left; now apply nth_In|].
  destruct (B "_min_pu" (nth k (values n t (p ++ "_min_pu") i) NaN)) as [lo Lo]; [cbn; auto|now apply nth_In|apply Nu; right; now apply nth_In|].
  exists lo, hi. split; auto. split; auto. apply Qnot_lt_le. intros X. apply V'. apply (Crossed n t a i p k); auto. rewrite Hi, Lo. exact X.
Qed.

(* counterexamples *)
Definition plain (c : string) (idx : list string) (cols : list (string * (string -> cell))) : table :=
  {| t_class := c; t_index := idx; t_cols := cols; t_dtype := fun _ => ""; t_attrs := []; t_dyn := [] |}.
Definition network (l : list table) : net := {| tables := l; n_snaps := [0%Z]; n_periods := None |}.
Definition carrier_net : net := network [plain "Bus" ["b"] []; plain "Generator" ["g"] [("bus", fun _ => Str "b"); ("carrier", fun _ => Str "gas"); ("committable", fun _ => Flag false)]].
Lemma carrier_wf : well_formed carrier_net.
Proof. intros t [<-|[<-|[]]]; (split; [intros [B|[B|B]]; discriminate B|split; [intros a []|constructor]]). Qed.
Lemma carriers_lenient : well_formed carrier_net /\ violated carrier_net false "unknown_carriers" /\
  (forall strict, valid strict -> snd (consistency_check carrier_net false strict) = None) /\ consistency_check carrier_net false ["unkown_carriers"] = ([], Some ValueError).
Proof.
  split; [exact carrier_wf|]. split.
  { left. exists (plain "Generator" ["g"] [("bus", fun _ => Str "b"); ("carrier", fun _ => Str "gas"); ("committable", fun _ => Flag false)]). split; [cbn; auto|]. split; [discriminate|]. split; [|discriminate].
    apply (Carrier _ _ "g"). split; [now left|]. eexists. split; [reflexivity|]. split; [discriminate|]. split; [discriminate|]. intros c [t [[<-|[<-|[]]] [X _]]]; discriminate X. }
  split; [|reflexivity]. intros strict V. destruct (snd (consistency_check carrier_net false strict)) as [e|] eqn:E; auto. exfalso.
  assert (X : snd (consistency_check carrier_net false strict) <> None) by congruence. apply strict_raises in X; [|exact carrier_wf|exact V]. destruct X as [k [_ [N X]]].
  apply (reports carrier_net false [] carrier_wf) in X; [|right; intros x []|reflexivity]. destruct X as [c [i X]]. vm_compute in X. destruct X as [X|[]]. injection X as <- _ _. now apply N.
Qed.
(* a user column bus_region of links *)
Definition region_net : net := network [plain "Bus" ["b"; "c"] []; plain "Link" ["k"] [("bus0", fun _ => Str "b"); ("bus1", fun _ => Str "c"); ("bus_region", fun _ => Str "north"); ("committable", fun _ => Flag false)]].
Lemma custom_port : (forall t k f i, In t (tables region_net) -> In (k, f) (t_cols t) -> In k ["bus0"; "bus1"] -> In i (t_index t) -> exists b, f i = Str b /\ defined region_net "Bus" b) /\
  snd (consistency_check region_net false []) = Some ValueError.
Proof.
  split; [|reflexivity]. intros t k f i [<-|[<-|[]]] K P I; cbn in K; [destruct K|].
  destruct K as [K|[K|[K|[K|[]]]]]; injection K as <- <-.
  - exists "b". split; auto. exists (plain "Bus" ["b"; "c"] []). cbn; auto.
  - exists "c". split; auto. exists (plain "Bus" ["b"; "c"] []). cbn; auto 6.
  - cbn in P. destruct P as [P|[P|[]]]; discriminate P.
  - cbn in P. destruct P as [P|[P|[]]]; discriminate P.
Qed.
(* one global constraint for a bus, one for the whole network *)
Definition limits_net : net := network [plain "Bus" ["b"] []; plain "GlobalConstraint" ["here"; "everywhere"] [("bus", fun i => if String.eqb i "here" then Str "b" else NaN); ("investment_period", fun _ => NaN)]].
Lemma mixed_constraints : consistency_check limits_net false ["unknown_buses"] = ([], Some (ConsistencyError "unknown_buses")).
Proof. reflexivity. Qed.
Definition period_net : net := network [plain "Bus" ["b"] []; plain "Generator" ["g"] [("bus", fun _ => Str "b")]; plain "GlobalConstraint" ["co2"] [("investment_period", fun _ => Num 2030)]].
Lemma period_error : snd (consistency_check period_net false ["investment_periods"]) = Some ValueError.
Proof. reflexivity. Qed.
(* example of a network with a fault of many kinds *)
Definition sick : net := network [plain "Bus" ["b"; "lone"] []; plain "Line" ["l"] [("bus0", fun _ => Str "b"); ("bus1", fun _ => Str "nowhere"); ("x", fun _ => Num 0); ("r", fun _ => Num 1)]].
Lemma sick_wf : well_formed sick.
Proof.
  intros t [<-|[<-|[]]]; (split; [|split; [intros a []|constructor]]).
  - intros [B|[B|B]]; discriminate B.
  - intros _ k f H P. cbn in H. destruct H as [H|[H|[H|[H|[]]]]]; injection H as <- <-; vm_compute; try discriminate; discriminate P.
Qed.
Lemma period_fault : violated period_net false "investment_periods".
Proof.
  right. eapply (Period _ _ "co2"); [right; right; left; reflexivity|reflexivity|now left|reflexivity|discriminate|]. intros ps p q X. discriminate X.
Qed.
Lemma mixed_constraints_case : (forall t k f i, In t (tables limits_net) -> holds t k f -> at_port k -> In i (t_index t) -> t_class t = "GlobalConstraint" /\ (f i = NaN \/ exists b, f i = Str b /\ defined limits_net "Bus" b)) /\
  consistency_check limits_net false ["unknown_buses"] = ([], Some (ConsistencyError "unknown_buses")).
Proof.
  split; [|exact mixed_constraints]. intros t k f i [<-|[<-|[]]] K P I; [destruct K|]. split; [reflexivity|]. destruct K as [K|[K|[]]]; injection K as <- <-; [|discriminate P].
  destruct (String.eqb i "here"); [|now left]. right. exists "b". split; auto. exists (plain "Bus" ["b"] []). cbn. auto.
Qed.
(* a generator whose limit varies *)
Definition max_attr : attr := {| at_name := "p_max_pu"; at_static := true; at_varying := true; at_default := Num 1; at_dtype := "" |}.
Definition rated_gens : table := {| t_class := "Generator"; t_index := ["g"]; t_cols := [("bus", fun _ => Str "b"); ("p_max_pu", fun _ => Num 1); ("p_min_pu", fun _ => Num 0)]; t_dtype := fun _ => "";
  t_attrs := [max_attr]; t_dyn := [("p_max_pu", {| f_index := [0%Z; 1%Z]; f_cols := [("g", [Num (1#2); Num (3#4)])]; f_dtype := fun _ => "" |})] |}.
Definition rated : net := {| tables := [plain "Bus" ["b"] []; rated_gens]; n_snaps := [0%Z; 1%Z]; n_periods := None |}.
Lemma rated_wf : well_formed rated.
Proof.
  intros t [<-|[<-|[]]]; (split; [intros [B|[B|B]]; discriminate B|split]).
  - intros a []. - constructor.
  - intros a [<-|[]] _. eexists. reflexivity.
  - repeat constructor. intros [].
Qed.
