From Coq Require Import List String Bool QArith ZArith Arith Lia Lqa.
From Verif Require Import LinModel LinProofs WholeModel IdleSpec WarnModel WarnSpec.
From Verif Require DispatchModel RampModel CommitModel CapModel CapProofs IdleProofs.
Import ListNotations.
Open Scope string_scope.
Open Scope list_scope.
Open Scope Q_scope.
Notation problem := CapModel.problem.

Lemma less_iff a b : less a b = true <-> a < b.
Proof. unfold less. rewrite negb_true_iff, <- not_true_iff_false, Qle_bool_iff. split; [apply Qnot_le_lt|apply Qlt_not_le]. Qed.
Lemma class_iff n c a : In a (of_class n c) <-> In a (assets n) /\ cls a = c.
Proof. unfold of_class. rewrite filter_In, String.eqb_eq. tauto. Qed.
Lemma listed_in w g l : In w (listed g l) -> w = g (map nm l).
Proof. destruct l; cbn; [tauto|]. intros [<-|[]]. reflexivity. Qed.
Lemma listed_has g l a : In a l -> In (g (map nm l)) (listed g l).
Proof. destruct l; [tauto|]. intros _. now left. Qed.

(* which messages appear *)
Lemma warnings_in n w : In w (warnings n) <-> exists c, In c classes /\ (In w (check_static_power n c) \/ In w (check_series_power n c) \/ In w (check_assets n c) \/ In w (check_generators n c)).
Proof. unfold warnings. rewrite in_flat_map. unfold check_component. setoid_rewrite in_app_iff. setoid_rewrite in_app_iff. setoid_rewrite in_app_iff. unfold classes. tauto. Qed.
Lemma not_series n c f : (forall t i ts, f <> Operational_limits t i ts) -> ~ In f (check_series_power n c).
Proof.
  intros N H. unfold check_series_power in H. destruct (has_pu c); [|destruct H]. apply in_flat_map in H. destruct H as [a [_ H]]. destruct (bad_snapshots n a) as [|t ts]; [destruct H|]. destruct H as [<-|[]]. eapply N. reflexivity.
Qed.
Lemma only_listed n c w : In w (check_static_power n c) \/ In w (check_assets n c) \/ In w (check_generators n c) ->
  w = Expansion_limits c (map nm (filter bad_expansion (of_class n c))) \/
  (has_uc c = true /\ w = Both_kinds c (map nm (filter (fun a => committable a && ext a) (of_class n c)))) \/
  (c = "Generator" /\ w = Up_and_down (map nm (filter (fun a => committable a && Nat.ltb 0 (up_before a) && Nat.ltb 0 (down_before a)) (of_class n c)))) \/
  (c = "Generator" /\ w = Energy_sums (map nm (filter bad_sums (of_class n c)))).
Proof.
  intros [H|[H|H]].
  - left. exact (listed_in _ _ _ H).
  - right; left. unfold check_assets in H. destruct (has_uc c); [|destruct H]. split; [reflexivity|exact (listed_in _ _ _ H)].
  - right; right. unfold check_generators in H. destruct (String.eqb c "Generator") eqn:E; [|destruct H]. apply String.eqb_eq in E. apply in_app_iff in H. destruct H as [H|H]; [left|right]; (split; [exact E|exact (listed_in _ _ _ H)]).
Qed.
Lemma names_in n c (f : asset -> bool) i : In i (map nm (filter f (of_class n c))) <-> in_class n c i (fun a => f a = true).
Proof.
  rewrite in_map_iff. unfold in_class. setoid_rewrite filter_In. setoid_rewrite class_iff. split; [intros [a [<- [[I C] F]]]|intros [a [I [C [<- F]]]]]; exists a; auto.
Qed.
Lemma in_class_iff n c i P Q_ : (forall a, In a (assets n) -> (P a <-> Q_ a)) -> in_class n c i P <-> in_class n c i Q_.
Proof. intros H. split; intros [a [I [C [N F]]]]; exists a; (split; [exact I|split; [exact C|split; [exact N|now apply H]]]). Qed.
Lemma expansion_listed n c i : In c classes -> (mentioned n (Expansion_limits c) i <-> in_class n c i no_capacity).
Proof.
  intros C. rewrite <- (in_class_iff n c i (fun a => bad_expansion a = true)).
  - split.
    + intros [names [W I]]. apply warnings_in in W. destruct W as [c' [_ [W|[W|W]]]]; [|exfalso; revert W; apply not_series; discriminate|];
        (destruct (only_listed n c' (Expansion_limits c names)) as [E|[[_ E]|[[_ E]|[_ E]]]]; [tauto| | | |]; try discriminate E; injection E as -> ->; now apply names_in).
    + intros H. exists (map nm (filter bad_expansion (of_class n c))). split; [|now apply names_in]. apply warnings_in. exists c. split; [exact C|]. left. apply names_in in H. apply in_map_iff in H. destruct H as [a [_ H]]. exact (listed_has _ _ a H).
  - intros a _. unfold bad_expansion, no_capacity. destruct (nom_max a) as [u|]; [rewrite less_iff|]; split; [eauto|intros [v [E L]]; injection E as ->; exact L|discriminate|intros [v [E _]]; discriminate].
Qed.
Lemma sums_listed n i : mentioned n Energy_sums i <-> in_class n "Generator" i no_sum.
Proof.
  rewrite <- (in_class_iff n "Generator" i (fun a => bad_sums a = true)).
  - split.
    + intros [names [W I]]. apply warnings_in in W. destruct W as [c' [_ [W|[W|W]]]]; [|exfalso; revert W; apply not_series; discriminate|];
        (destruct (only_listed n c' (Energy_sums names)) as [E|[[_ E]|[[_ E]|[-> E]]]]; [tauto| | | |]; try discriminate E; injection E as ->; now apply names_in).
    + intros H. exists (map nm (filter bad_sums (of_class n "Generator"))). split; [|now apply names_in]. apply warnings_in. exists "Generator". split; [now left|]. right; right; right. unfold check_generators. cbn [String.eqb]. change (String.eqb "Generator" "Generator") with true. cbn iota. apply in_app_iff. right. apply names_in in H. apply in_map_iff in H. destruct H as [a [_ H]]. exact (listed_has _ _ a H).
  - intros a _. unfold bad_sums, no_sum. destruct (e_min a) as [l|], (e_max a) as [u|]; rewrite ?less_iff; split; try discriminate; try (intros [l' [u' [E [E' L]]]]; try discriminate E; try discriminate E'; injection E as ->; injection E' as ->; exact L); eauto.
Qed.
Lemma updown_listed n i : mentioned n Up_and_down i <-> in_class n "Generator" i up_and_down.
Proof.
  rewrite <- (in_class_iff n "Generator" i (fun a => (committable a && Nat.ltb 0 (up_before a) && Nat.ltb 0 (down_before a)) = true)).
  - split.
    + intros [names [W I]]. apply warnings_in in W. destruct W as [c' [_ [W|[W|W]]]]; [|exfalso; revert W; apply not_series; discriminate|];
        (destruct (only_listed n c' (Up_and_down names)) as [E|[[_ E]|[[-> E]|[_ E]]]]; [tauto| | | |]; try discriminate E; injection E as ->; now apply (names_in n "Generator")).
    + intros H. eexists. split; [|apply names_in; exact H]. apply warnings_in. exists "Generator". split; [now left|]. right; right; right. unfold check_generators. change (String.eqb "Generator" "Generator") with true. cbn iota. apply in_app_iff. left. apply names_in in H. apply in_map_iff in H. destruct H as [a [_ H]]. exact (listed_has _ _ a H).
  - intros a _. unfold up_and_down. rewrite !andb_true_iff, !Nat.ltb_lt. tauto.
Qed.
Lemma both_listed n c i : c = "Generator" \/ c = "Link" -> (mentioned n (Both_kinds c) i <-> in_class n c i (fun a => committable a = true /\ ext a = true)).
Proof.
  intros C. rewrite <- (in_class_iff n c i (fun a => (committable a && ext a) = true)).
  - split.
    + intros [names [W I]]. apply warnings_in in W. destruct W as [c' [_ [W|[W|W]]]]; [|exfalso; revert W; apply not_series; discriminate|];
        (destruct (only_listed n c' (Both_kinds c names)) as [E|[[_ E]|[[_ E]|[_ E]]]]; [tauto| | | |]; try discriminate E; injection E as -> ->; now apply (names_in n c')).
    + intros H. eexists. split; [|apply names_in; exact H]. apply warnings_in. exists c. split; [destruct C as [->| ->]; unfold classes; cbn; auto|]. right; right; left. unfold check_assets. replace (has_uc c) with true by (destruct C as [->| ->]; reflexivity). apply names_in in H. apply in_map_iff in H. destruct H as [a [_ H]]. exact (listed_has _ _ a H).
  - intros a _. rewrite andb_true_iff. tauto.
Qed.
Lemma bad_in n a t : In t (bad_snapshots n a) <-> (t < nsnaps n)%nat /\ max_pu a t < min_pu a t.
Proof. unfold bad_snapshots. rewrite filter_In, in_seq, less_iff. split; intros [H1 H2]; (split; [lia|exact H2]). Qed.
Lemma limits_listed n c i t : In c ["Generator"; "Link"; "Store"; "StorageUnit"] ->
  (mentioned_at n c i t <-> (t < nsnaps n)%nat /\ in_class n c i (fun a => max_pu a t < min_pu a t)).
Proof.
  intros C. assert (P : has_pu c = true) by (apply existsb_exists; exists c; split; [exact C|apply String.eqb_refl]). split.
  - intros [ts [W I]]. apply warnings_in in W. destruct W as [c' [_ W]].
    assert (W' : In (Operational_limits c i ts) (check_series_power n c')). { destruct W as [W|[W|W]]; [|exact W|]; exfalso; (destruct (only_listed n c' (Operational_limits c i ts)) as [E|[[_ E]|[[_ E]|[_ E]]]]; [tauto| | | |]; discriminate E). }
    clear W. unfold check_series_power in W'. destruct (has_pu c'); [|destruct W']. apply in_flat_map in W'. destruct W' as [a [A W]]. apply class_iff in A. destruct A as [A A'].
    destruct (bad_snapshots n a) as [|s ss] eqn:B; [destruct W|]. destruct W as [W|[]]. injection W as -> <- <-. rewrite <- B in I. apply bad_in in I. split; [tauto|]. exists a. tauto.
  - intros [T [a [A [E [N L]]]]]. exists (bad_snapshots n a). assert (I : In t (bad_snapshots n a)) by (apply bad_in; auto). split; [|exact I]. apply warnings_in. exists c. split; [cbn in C; unfold classes; cbn; intuition|]. right; left. unfold check_series_power. rewrite P. apply in_flat_map. exists a. split; [apply class_iff; auto|]. destruct (bad_snapshots n a); [destruct I|]. left. now rewrite N.
Qed.

(* rows of the problem *)
Lemma collect_in l cs p : collect l = Some cs -> In (Some p) l -> forall c, In c p -> In c cs.
Proof.
  revert cs. induction l as [|o l IH]; intros cs E I c J; [destruct I|]. destruct o as [q|]; [|discriminate]. cbn [collect] in E. destruct (collect l) as [r|]; [|discriminate]. injection E as <-. apply in_app_iff. destruct I as [I|I]; [injection I as ->; now left|right; eauto].
Qed.
Lemma part_sat kvl n x p : feasible kvl n x -> In (Some p) (parts kvl n) -> forall c, In c p -> CapModel.has_term c = true -> holds x c.
Proof. intros [cs [E [S _]]] I c J T. rewrite CapProofs.sat_problem in S. apply (S c); [exact (collect_in _ _ _ E I c J)|exact T]. Qed.
Lemma in_add {A} ts (l : list A) mk f t a : In t ts -> In a l -> mk t a = true -> In (f t a) (add_constraints ts l mk f).
Proof. intros T I M. unfold add_constraints. apply in_flat_map. exists t. split; [exact T|]. apply in_flat_map. exists a. split; [exact I|]. rewrite M. now left. Qed.
Lemma view_in n attr c a : In a (assets n) -> cls a = c -> In (d_view attr a) (map (d_view attr) (of_class n c)).
Proof. intros I C. apply in_map. apply class_iff. auto. Qed.
Lemma capacity_row kvl n x c na a r : feasible kvl n x -> In (c, na) nominal_attrs -> In r (capacity_of n c na) -> CapModel.has_term r = true -> cls a = c -> holds x r.
Proof.
  intros F C R T _. apply (part_sat kvl n x (capacity n) F); [unfold parts; cbn; auto|unfold capacity; apply in_flat_map; exists (c, na); auto|exact T].
Qed.
Lemma nattr_in c : In c classes -> In (c, nattr c) nominal_attrs.
Proof. intros C. unfold classes in C. cbn [In] in C. repeat (destruct C as [<-|C]; [cbn; auto 10|]). destruct C. Qed.
Lemma same_asset n a b : well_named n -> In a (assets n) -> In b (assets n) -> cls a = cls b -> nm a = nm b -> a = b.
Proof.
  intros [ND _]. induction (assets n) as [|d l IH]; [intros []|]. cbn [map] in ND. inversion ND as [|? ? N1 N2]; subst. intros [<-|I] [<-|J] C N; auto.
  - exfalso. apply N1. apply in_map_iff. exists b. split; [congruence|exact J].
  - exfalso. apply N1. apply in_map_iff. exists a. split; [congruence|exact I].
Qed.
Lemma expansion_infeasible kvl n a x : well_named n -> In a (assets n) -> ext a = true -> mentioned n (Expansion_limits (cls a)) (nm a) -> ~ feasible kvl n x.
Proof.
  intros WN I E M F. assert (C : In (cls a) classes) by (apply WN; exact I). apply expansion_listed in M; [|exact C]. destruct M as [b [J [Cb [Nb [u [U L]]]]]]. assert (b = a) by (apply (same_asset n); auto). subst b.
  set (d := d_view "" a). assert (D : In d (DispatchModel.ext_assets (map (d_view "") (of_class n (cls a))))) by (apply filter_In; split; [now apply view_in|exact E]).
  assert (H1 : holds x (DispatchModel.mk [(1, DispatchModel.cap (cls a) (nattr (cls a)) d)] Ge (nom_min a))).
  { apply (capacity_row kvl n x (cls a) (nattr (cls a)) a _ F (nattr_in _ C)); [|reflexivity|reflexivity]. unfold capacity_of, DispatchModel.nominal. apply in_app_iff; left. apply in_app_iff; left.
    apply (in_add [O] _ _ (fun _ a0 => DispatchModel.mk [(1, DispatchModel.cap (cls a) (nattr (cls a)) a0)] Ge (DispatchModel.nom_min a0)) O d); [now left|exact D|reflexivity]. }
  assert (H2 : holds x (DispatchModel.mk [(1, DispatchModel.cap (cls a) (nattr (cls a)) d)] Le u)).
  { apply (capacity_row kvl n x (cls a) (nattr (cls a)) a _ F (nattr_in _ C)); [|reflexivity|reflexivity]. unfold capacity_of, DispatchModel.nominal. apply in_app_iff; left. apply in_app_iff; right.
    pose proof (in_add [O] _ (fun _ a0 => match DispatchModel.nom_max a0 with None => false | _ => true end) (fun _ a0 => DispatchModel.mk [(1, DispatchModel.cap (cls a) (nattr (cls a)) a0)] Le (match DispatchModel.nom_max a0 with Some u => u | None => 0 end)) O d (or_introl eq_refl) D) as X.
    cbn beta in X. change (DispatchModel.nom_max d) with (nom_max a) in X. rewrite U in X. exact (X eq_refl). }
  unfold holds in *. cbn [DispatchModel.mk sns lhs rhs eval] in *. lra.
Qed.
Lemma sums_infeasible kvl n a x : well_named n -> In a (assets n) -> cls a = "Generator" -> flag a = true -> (0 < nsnaps n)%nat -> mentioned n Energy_sums (nm a) -> ~ feasible kvl n x.
Proof.
  intros WN I C FL T M F. apply sums_listed in M. destruct M as [b [J [Cb [Nb [l [u [L [U X]]]]]]]]. assert (b = a) by (apply (same_asset n); congruence || auto). subst b.
  set (e := CapModel.supply_terms (w_gen n) (seq 0 (nsnaps n)) (sup_view a)).
  assert (HT : forall s q, CapModel.has_term {| lhs := e; sns := s; rhs := q |} = true).
  { intros s q. unfold CapModel.has_term. cbn [lhs]. apply existsb_exists. exists (w_gen n O, Some ("Generator-p", O, nm a)). split; [|reflexivity]. unfold e, CapModel.supply_terms. apply in_map_iff. exists O. split; [cbn [sup_view CapModel.u_active]; unfold on; rewrite FL; reflexivity|apply in_seq; lia]. }
  assert (V : In (sup_view a) (map sup_view (of_class n "Generator"))) by (apply in_map; apply class_iff; auto).
  assert (P : In (Some (supplies n)) (parts kvl n)) by (unfold parts; cbn; auto 10).
  assert (H1 : holds x {| lhs := e; sns := Ge; rhs := l |}). { apply (part_sat kvl n x _ F P); [|apply HT]. unfold supplies, CapModel.total_supply. apply in_app_iff; left. apply in_flat_map. exists (sup_view a). split; [exact V|]. cbn [sup_view CapModel.u_min]. rewrite L. now left. }
  assert (H2 : holds x {| lhs := e; sns := Le; rhs := u |}). { apply (part_sat kvl n x _ F P); [|apply HT]. unfold supplies, CapModel.total_supply. apply in_app_iff; right. apply in_flat_map. exists (sup_view a). split; [exact V|]. cbn [sup_view CapModel.u_max]. rewrite U. now left. }
  unfold holds in *. cbn [sns lhs rhs] in *. lra.
Qed.

(* dispatch limits *)
Lemma operation_row kvl n x c attr na k r : feasible kvl n x -> In (c, attr, na, k) operations -> In r (operation_of n (c, attr, na, k)) -> CapModel.has_term r = true -> holds x r.
Proof. intros F C R T. apply (part_sat kvl n x (operation n) F); [unfold parts; cbn; auto|unfold operation; apply in_flat_map; exists (c, attr, na, k); auto|exact T]. Qed.
Definition not_passive (k : DispatchModel.kind) : Prop := match k with DispatchModel.Passive => False | _ => True end.
Lemma fixed_bounds kvl n x a attr na k t : feasible kvl n x -> In (cls a, attr, na, k) operations -> not_passive k -> In a (assets n) -> flag a = true -> ext a = false -> com a = false -> (t < nsnaps n)%nat ->
  fst (DispatchModel.bounds_pu k (d_view attr a) t) * nom a <= x ((cls a ++ "-" ++ attr)%string, t, nm a) <= snd (DispatchModel.bounds_pu k (d_view attr a) t) * nom a.
Proof.
  intros F O NP I FL E C T. set (d := d_view attr a).
  assert (D : In d (DispatchModel.fixed_assets (map (d_view attr) (of_class n (cls a))))) by (apply filter_In; split; [now apply view_in|cbn; now rewrite E, C]).
  assert (LT : forall s, DispatchModel.loss_term (cls a) k (lossy n) s d t = []) by (intros s; unfold DispatchModel.loss_term, DispatchModel.is_passive; destruct k; [destruct NP|reflexivity..]).
  assert (OPL : DispatchModel.op (cls a) attr d t = Some ((cls a ++ "-" ++ attr)%string, t, nm a)) by (unfold DispatchModel.op; cbn [d d_view DispatchModel.active]; unfold on; rewrite FL; reflexivity).
  assert (AC : DispatchModel.active d t = true) by exact FL. assert (TS : In t (DispatchModel.snaps (nsnaps n))) by (apply in_seq; lia).
  pose proof (in_add _ _ (fun t a => DispatchModel.active a t) (fun t a0 => DispatchModel.mk ((1, DispatchModel.op (cls a) attr a0 t) :: DispatchModel.loss_term (cls a) k (lossy n) (-(1)) a0 t) Ge (fst (DispatchModel.bounds_pu k a0 t) * DispatchModel.nom a0)) t d TS D AC) as R1.
  pose proof (in_add _ _ (fun t a => DispatchModel.active a t) (fun t a0 => DispatchModel.mk ((1, DispatchModel.op (cls a) attr a0 t) :: DispatchModel.loss_term (cls a) k (lossy n) 1 a0 t) Le (snd (DispatchModel.bounds_pu k a0 t) * DispatchModel.nom a0)) t d TS D AC) as R2.
  cbn beta in R1, R2. rewrite LT, OPL in R1, R2.
  assert (H1 := operation_row kvl n x (cls a) attr na k _ F O (in_or_app _ _ _ (or_introl (in_or_app _ _ _ (or_introl R1)))) eq_refl).
  assert (H2 := operation_row kvl n x (cls a) attr na k _ F O (in_or_app _ _ _ (or_introl (in_or_app _ _ _ (or_intror R2)))) eq_refl).
  unfold holds in *. cbn [DispatchModel.mk sns lhs rhs eval val] in *. change (DispatchModel.nom d) with (nom a) in *. split; lra.
Qed.
Lemma extendable_bounds kvl n x a attr na k t : feasible kvl n x -> In (cls a, attr, na, k) operations -> not_passive k -> In a (assets n) -> flag a = true -> ext a = true -> (t < nsnaps n)%nat ->
  let C := x ((cls a ++ "-" ++ na)%string, O, nm a) in
  fst (DispatchModel.bounds_pu k (d_view attr a) t) * C <= x ((cls a ++ "-" ++ attr)%string, t, nm a) <= snd (DispatchModel.bounds_pu k (d_view attr a) t) * C.
Proof.
  intros F O NP I FL E T C. set (d := d_view attr a).
  assert (D : In d (DispatchModel.ext_assets (map (d_view attr) (of_class n (cls a))))) by (apply filter_In; split; [now apply view_in|exact E]).
  assert (LT : forall s, DispatchModel.loss_term (cls a) k (lossy n) s d t = []) by (intros s; unfold DispatchModel.loss_term, DispatchModel.is_passive; destruct k; [destruct NP|reflexivity..]).
  assert (OPL : DispatchModel.op (cls a) attr d t = Some ((cls a ++ "-" ++ attr)%string, t, nm a)) by (unfold DispatchModel.op; cbn [d d_view DispatchModel.active]; unfold on; rewrite FL; reflexivity).
  assert (AC : DispatchModel.active d t = true) by exact FL. assert (TS : In t (DispatchModel.snaps (nsnaps n))) by (apply in_seq; lia).
  pose proof (in_add _ _ (fun t a => DispatchModel.active a t) (fun t a0 => DispatchModel.mk ((1, DispatchModel.op (cls a) attr a0 t) :: (- fst (DispatchModel.bounds_pu k a0 t), DispatchModel.cap (cls a) na a0) :: DispatchModel.loss_term (cls a) k (lossy n) (-(1)) a0 t) Ge 0) t d TS D AC) as R1.
  pose proof (in_add _ _ (fun t a => DispatchModel.active a t) (fun t a0 => DispatchModel.mk ((1, DispatchModel.op (cls a) attr a0 t) :: (- snd (DispatchModel.bounds_pu k a0 t), DispatchModel.cap (cls a) na a0) :: DispatchModel.loss_term (cls a) k (lossy n) 1 a0 t) Le 0) t d TS D AC) as R2.
  cbn beta in R1, R2. rewrite LT, OPL in R1, R2.
  assert (H1 := operation_row kvl n x (cls a) attr na k _ F O (in_or_app _ _ _ (or_intror (in_or_app _ _ _ (or_introl (in_or_app _ _ _ (or_introl R1)))))) eq_refl).
  assert (H2 := operation_row kvl n x (cls a) attr na k _ F O (in_or_app _ _ _ (or_intror (in_or_app _ _ _ (or_introl (in_or_app _ _ _ (or_intror R2)))))) eq_refl).
  unfold holds in *. cbn [DispatchModel.mk sns lhs rhs eval val DispatchModel.cap] in *. change (DispatchModel.vname (cls a) na) with (cls a ++ "-" ++ na)%string in *. change (DispatchModel.name d) with (nm a) in *. fold C in H1, H2. split; lra.
Qed.
Lemma four c : In c ["Generator"; "Link"; "Store"; "StorageUnit"] ->
  (exists attr na, In (c, attr, na, DispatchModel.Other) operations /\ na = nattr c) \/
  (In (c, "p_dispatch", "p_nom", DispatchModel.Storage_dispatch) operations /\ In (c, "p_store", "p_nom", DispatchModel.Storage_store) operations /\ nattr c = "p_nom").
Proof. intros C. cbn [In] in C. destruct C as [<-|[<-|[<-|[<-|[]]]]]; [left; exists "p", "p_nom"|left; exists "p", "p_nom"|left; exists "e", "e_nom"|right]; cbn; auto 20. Qed.
Lemma flagged_pu n a t : well_named n -> In a (assets n) -> In (cls a) ["Generator"; "Link"; "Store"; "StorageUnit"] -> mentioned_at n (cls a) (nm a) t -> (t < nsnaps n)%nat /\ max_pu a t < min_pu a t.
Proof.
  intros WN I C M. apply limits_listed in M; [|exact C]. destruct M as [T [b [J [Cb [Nb L]]]]]. assert (b = a) by (apply (same_asset n); auto). subst b. auto.
Qed.
Lemma neg_times p q c : p < q -> 0 < c -> p * c < q * c. Proof. intros. now apply Qmult_lt_compat_r. Qed.
Lemma limits_infeasible kvl n a t x : well_named n -> In a (assets n) -> In (cls a) ["Generator"; "Link"; "Store"; "StorageUnit"] -> flag a = true -> ext a = false -> com a = false -> 0 < nom a ->
  mentioned_at n (cls a) (nm a) t -> ~ feasible kvl n x.
Proof.
  intros WN I C FL E K P M F. destruct (flagged_pu n a t WN I C M) as [T L]. pose proof (neg_times _ _ _ L P) as X. destruct (four _ C) as [[attr [na [O _]]]|[O1 [O2 _]]].
  - pose proof (fixed_bounds kvl n x a attr na _ t F O Logic.I I FL E K T) as H. cbn [DispatchModel.bounds_pu fst snd d_view DispatchModel.min_pu DispatchModel.max_pu] in H. lra.
  - pose proof (fixed_bounds kvl n x a _ _ _ t F O1 Logic.I I FL E K T) as H1. pose proof (fixed_bounds kvl n x a _ _ _ t F O2 Logic.I I FL E K T) as H2.
    cbn [DispatchModel.bounds_pu fst snd d_view DispatchModel.min_pu DispatchModel.max_pu] in H1, H2. destruct H1 as [H1 H1'], H2 as [H2 H2']. lra.
Qed.
Lemma limits_capacity kvl n a t x : well_named n -> In a (assets n) -> In (cls a) ["Generator"; "Link"; "Store"; "StorageUnit"] -> flag a = true -> ext a = true ->
  mentioned_at n (cls a) (nm a) t -> feasible kvl n x -> x (cap_var a) <= 0.
Proof.
  intros WN I C FL E M F. destruct (flagged_pu n a t WN I C M) as [T L]. apply Qnot_lt_le. intros P. pose proof (neg_times _ _ _ L P) as X. unfold cap_var in *. destruct (four _ C) as [[attr [na [O N]]]|[O1 [O2 N]]].
  - pose proof (extendable_bounds kvl n x a attr na _ t F O Logic.I I FL E T) as H. cbn zeta in H. cbn [DispatchModel.bounds_pu fst snd d_view DispatchModel.min_pu DispatchModel.max_pu] in H. subst na. lra.
  - pose proof (extendable_bounds kvl n x a _ _ _ t F O1 Logic.I I FL E T) as H1. pose proof (extendable_bounds kvl n x a _ _ _ t F O2 Logic.I I FL E T) as H2.
    cbn zeta in H1, H2. cbn [DispatchModel.bounds_pu fst snd d_view DispatchModel.min_pu DispatchModel.max_pu] in H1, H2. rewrite N in *. destruct H1 as [H1 H1'], H2 as [H2 H2']. lra.
Qed.
Lemma uc_class a : com a = true -> cls a = "Generator" \/ cls a = "Link".
Proof. unfold com, has_uc. rewrite andb_true_iff, orb_true_iff, !String.eqb_eq. tauto. Qed.
Lemma uc_row a : com a = true -> In (cls a, "p", "p_nom", DispatchModel.Other) operations.
Proof. intros C. destruct (uc_class a C) as [-> | ->]; cbn; auto 10. Qed.
Lemma limits_status kvl n a t x : well_named n -> In a (assets n) -> flag a = true -> com a = true -> 0 < nom a ->
  mentioned_at n (cls a) (nm a) t -> feasible kvl n x -> x ((cls a ++ "-status")%string, t, nm a) == 0.
Proof.
  intros WN I FL C P M F. assert (CL : In (cls a) ["Generator"; "Link"; "Store"; "StorageUnit"]) by (destruct (uc_class a C) as [-> | ->]; cbn; auto). destruct (flagged_pu n a t WN I CL M) as [T L]. pose proof (neg_times _ _ _ L P) as X. set (d := d_view "p" a).
  assert (D : In d (DispatchModel.com_assets (map (d_view "p") (of_class n (cls a))))) by (apply filter_In; split; [now apply view_in|exact C]).
  assert (OPL : forall v, DispatchModel.op (cls a) v d t = Some ((cls a ++ "-" ++ v)%string, t, nm a)) by (intros v; unfold DispatchModel.op; cbn [d d_view DispatchModel.active]; unfold on; rewrite FL; reflexivity).
  assert (AC : DispatchModel.active d t = true) by exact FL. assert (TS : In t (DispatchModel.snaps (nsnaps n))) by (apply in_seq; lia).
  pose proof (in_add _ _ (fun t a => DispatchModel.active a t) (fun t a0 => DispatchModel.mk [(1, DispatchModel.op (cls a) "p" a0 t); (- (fst (DispatchModel.bounds_pu DispatchModel.Other a0 t) * DispatchModel.nom a0), DispatchModel.op (cls a) "status" a0 t)] Ge 0) t d TS D AC) as R1.
  pose proof (in_add _ _ (fun t a => DispatchModel.active a t) (fun t a0 => DispatchModel.mk [(1, DispatchModel.op (cls a) "p" a0 t); (- (snd (DispatchModel.bounds_pu DispatchModel.Other a0 t) * DispatchModel.nom a0), DispatchModel.op (cls a) "status" a0 t)] Le 0) t d TS D AC) as R2.
  cbn beta in R1, R2. rewrite !OPL in R1, R2.
  assert (Z : 0 <= x ((cls a ++ "-status")%string, t, nm a)).
  { destruct F as [cs [_ [_ [_ [B _]]]]]. specialize (B a I C). assert (U : val x (CommitModel.status (cls a) (u_view a) t) = x ((cls a ++ "-status")%string, t, nm a)) by (unfold CommitModel.status, CommitModel.uvar; cbn [u_view CommitModel.u_active]; unfold on; rewrite FL; reflexivity).
    destruct (linear n); destruct B as [B _]; specialize (B t T FL); rewrite U in B; [tauto|]. destruct B as [B|B]; rewrite B; discriminate. }
  pose proof (operation_row kvl n x (cls a) "p" "p_nom" DispatchModel.Other _ F (uc_row a C) (in_or_app _ _ _ (or_intror (in_or_app _ _ _ (or_intror (in_or_app _ _ _ (or_introl (in_or_app _ _ _ (or_introl R1)))))))) eq_refl) as H1.
  pose proof (operation_row kvl n x (cls a) "p" "p_nom" DispatchModel.Other _ F (uc_row a C) (in_or_app _ _ _ (or_intror (in_or_app _ _ _ (or_intror (in_or_app _ _ _ (or_introl (in_or_app _ _ _ (or_intror R2)))))))) eq_refl) as H2.
  unfold holds in *. cbn [DispatchModel.mk sns lhs rhs eval val DispatchModel.bounds_pu fst snd] in *. change (DispatchModel.nom d) with (nom a) in *. change (DispatchModel.min_pu d t) with (min_pu a t) in *. change (DispatchModel.max_pu d t) with (max_pu a t) in *.
  change (cls a ++ "-" ++ "status")%string with (cls a ++ "-status")%string in *. set (s := x ((cls a ++ "-status")%string, t, nm a)) in *. destruct (Qlt_le_dec 0 s) as [S|S]; [|lra]. pose proof (neg_times _ _ _ X S). lra.
Qed.
Lemma updown_infeasible kvl n a x : well_named n -> In a (assets n) -> flag a = true -> cls a = "Generator" -> (0 < nsnaps n)%nat -> (up_before a < min_up a)%nat -> (down_before a < min_down a)%nat ->
  mentioned n Up_and_down (nm a) -> ~ feasible kvl n x.
Proof.
  intros WN I FL C T U D M F. apply updown_listed in M. destruct M as [b [J [Cb [Nb [K [UB DB]]]]]]. assert (b = a) by (apply (same_asset n); congruence || auto). subst b.
  assert (CO : com a = true) by (unfold com; rewrite K, C; reflexivity).
  assert (ROWS : forall r, In r (CommitModel.commitment (cls a) (u_view a) (nsnaps n) false) -> CapModel.has_term r = true -> holds x r).
  { intros r R H. apply (operation_row kvl n x (cls a) "p" "p_nom" DispatchModel.Other _ F (uc_row a CO)); [|exact H]. unfold operation_of. rewrite !in_app_iff. do 3 right. left. unfold commitment_of. apply in_app_iff; left. apply in_flat_map. exists a. split; [|exact R]. apply filter_In. split; [apply class_iff; auto|exact CO]. }
  set (s := CommitModel.status (cls a) (u_view a) O). assert (S : s = Some ((cls a ++ "-status")%string, O, nm a)) by (unfold s, CommitModel.status, CommitModel.uvar; cbn [u_view CommitModel.u_active]; unfold on; rewrite FL; reflexivity).
  assert (IU : CommitModel.initially_up (u_view a) false = true) by (unfold CommitModel.initially_up, CommitModel.up_before_set; cbn [u_view CommitModel.up_before]; destruct (up_before a); [lia|reflexivity]).
  assert (ID : CommitModel.initially_down (u_view a) false = true) by (unfold CommitModel.initially_down, CommitModel.down_before_set; cbn [u_view CommitModel.down_before]; destruct (down_before a); [lia|reflexivity]).
  assert (TS : In O (seq 0 (nsnaps n))) by (apply in_seq; lia).
  assert (H1 : holds x (CommitModel.con1 [(1, s)] Eq 1)).
  { apply ROWS; [|rewrite S; reflexivity]. unfold CommitModel.commitment. rewrite !in_app_iff. do 3 right; left. unfold CommitModel.stay_up.
    apply (in_add (seq 0 (nsnaps n)) [u_view a] _ (fun t _ => CommitModel.con1 [(1, CommitModel.status (cls a) (u_view a) t)] Eq 1) O (u_view a)); [exact TS|now left|]. rewrite IU. cbn [u_view CommitModel.u_active CommitModel.min_up]. unfold on, CommitModel.up_before_set. cbn [u_view CommitModel.up_before]. rewrite FL, !andb_true_r. apply Nat.leb_le. lia. }
  assert (H2 : holds x (CommitModel.con1 [(1, s)] Eq 0)).
  { apply ROWS; [|rewrite S; reflexivity]. unfold CommitModel.commitment. rewrite !in_app_iff. do 4 right. unfold CommitModel.stay_down.
    apply (in_add (seq 0 (nsnaps n)) [u_view a] _ (fun t _ => CommitModel.con1 [(1, CommitModel.status (cls a) (u_view a) t)] Eq 0) O (u_view a)); [exact TS|now left|]. rewrite ID. cbn [u_view CommitModel.u_active CommitModel.min_down]. unfold on, CommitModel.down_before_set. cbn [u_view CommitModel.down_before]. rewrite FL, !andb_true_r. apply Nat.leb_le. lia. }
  unfold holds in *. cbn [CommitModel.con1 sns lhs rhs eval] in *. lra.
Qed.

(* without messages: a point within all limits *)
Definition cap_key (c : string) : string := (c ++ "-" ++ nattr c)%string.
Definition op_attr (c : string) : string := if String.eqb c "Store" then "e" else "p".
Definition op_key (c : string) : string := (c ++ "-" ++ op_attr c)%string.
Definition at_least (a : asset) : Q := if ext a then nom_min a else nom a.
Definition point (n : net) : sol := fun v =>
  let '(s, t, i) := v in
  match find (fun a => String.eqb s (cap_key (cls a)) && String.eqb i (nm a)) (assets n) with
  | Some a => nom_min a
  | None => match find (fun a => String.eqb s (op_key (cls a)) && has_pu (cls a) && negb (String.eqb (cls a) "StorageUnit") && String.eqb i (nm a)) (assets n) with
            | Some a => at_least a * min_pu a t
            | None => 0
            end
  end.
Definition keys_apart : bool := forallb (fun c => forallb (fun d =>
  implb (String.eqb (cap_key c) (cap_key d)) (String.eqb c d) && implb (String.eqb (op_key c) (op_key d)) (String.eqb c d) && negb (String.eqb (op_key c) (cap_key d)) &&
  forallb (fun v => negb (String.eqb v (cap_key d)) && negb (String.eqb v (op_key d) && has_pu d && negb (String.eqb d "StorageUnit")))
    ["Line-s"; "Line-loss"; "Transformer-s"; "Transformer-loss"; "StorageUnit-p_dispatch"; "StorageUnit-p_store"; "StorageUnit-state_of_charge"]) classes) classes.
Lemma keys_ok : keys_apart = true. Proof. vm_compute. reflexivity. Qed.
Lemma find_one {A} (f : A -> bool) l a : In a l -> f a = true -> (forall b, In b l -> f b = true -> b = a) -> find f l = Some a.
Proof. intros I F U. destruct (find f l) as [b|] eqn:E; [apply find_some in E; destruct E as [E1 E2]; now rewrite (U b E1 E2)|]. pose proof (find_none _ _ E a I). congruence. Qed.
Lemma find_no {A} (f : A -> bool) l : (forall b, In b l -> f b = false) -> find f l = None.
Proof. intros H. destruct (find f l) as [b|] eqn:E; [|reflexivity]. apply find_some in E. rewrite (H b) in E; [destruct E; discriminate|tauto]. Qed.
Section Quiet.
Variable n : net.
Hypothesis WN : well_named n.
Lemma apart c d : In c classes -> In d classes -> (cap_key c = cap_key d -> c = d) /\ (op_key c = op_key d -> c = d) /\ op_key c <> cap_key d /\
  forall v, In v ["Line-s"; "Line-loss"; "Transformer-s"; "Transformer-loss"; "StorageUnit-p_dispatch"; "StorageUnit-p_store"; "StorageUnit-state_of_charge"] ->
    String.eqb v (cap_key d) = false /\ (String.eqb v (op_key d) && has_pu d && negb (String.eqb d "StorageUnit"))%bool = false.
Proof.
  intros C D. pose proof keys_ok as K. unfold keys_apart in K. rewrite forallb_forall in K. specialize (K c C). rewrite forallb_forall in K. specialize (K d D). rewrite !andb_true_iff, forallb_forall in K. destruct K as [[[K1 K2] K3] K4].
  split; [|split; [|split]].
  - intros E. rewrite E, String.eqb_refl in K1. now apply String.eqb_eq.
  - intros E. rewrite E, String.eqb_refl in K2. now apply String.eqb_eq.
  - intros E. rewrite E, String.eqb_refl in K3. discriminate.
  - intros v V. specialize (K4 v V). rewrite andb_true_iff, !negb_true_iff in K4. exact K4.
Qed.
Lemma point_cap a : In a (assets n) -> point n (cap_key (cls a), O, nm a) = nom_min a.
Proof.
  intros I. unfold point. rewrite (find_one _ _ a I); [reflexivity|now rewrite !String.eqb_refl|]. intros b J H. rewrite andb_true_iff, !String.eqb_eq in H. destruct H as [H1 H2]. apply (same_asset n); auto. symmetry. exact (proj1 (apart _ _ (proj2 WN a I) (proj2 WN b J)) H1).
Qed.
Lemma point_op a t : In a (assets n) -> has_pu (cls a) = true -> cls a <> "StorageUnit" -> point n (op_key (cls a), t, nm a) = at_least a * min_pu a t.
Proof.
  intros I P S. unfold point. rewrite find_no.
  - rewrite (find_one _ _ a I); [reflexivity|apply String.eqb_neq in S; now rewrite !String.eqb_refl, P, S|]. intros b J H. rewrite !andb_true_iff, !String.eqb_eq in H. destruct H as [[[H1 _] _] H2]. apply (same_asset n); auto. symmetry. exact (proj1 (proj2 (apart _ _ (proj2 WN a I) (proj2 WN b J))) H1).
  - intros b J. destruct (apart (cls a) (cls b)) as [_ [_ [H _]]]; [now apply WN|now apply WN|]. apply String.eqb_neq in H. now rewrite H.
Qed.
Lemma point_zero s t i : In s ["Line-s"; "Line-loss"; "Transformer-s"; "Transformer-loss"; "StorageUnit-p_dispatch"; "StorageUnit-p_store"; "StorageUnit-state_of_charge"] -> point n (s, t, i) = 0.
Proof.
  intros I. unfold point. rewrite find_no; [rewrite find_no; [reflexivity|]|]; intros b J; (destruct (apart (cls b) (cls b)) as [_ [_ [_ H]]]; [now apply WN|now apply WN|]; destruct (H s I) as [H1 H2]).
  - now rewrite H2.
  - now rewrite H1.
Qed.
Hypothesis SI : simple n.
Hypothesis SG : signs n.
Hypothesis QU : warnings n = [].
Lemma no_flag f i : mentioned n f i -> False.
Proof. intros [names [W _]]. rewrite QU in W. destruct W. Qed.
Lemma range_ok a u : In a (assets n) -> nom_max a = Some u -> nom_min a <= u.
Proof.
  intros I U. apply Qnot_lt_le. intros L. apply (no_flag (Expansion_limits (cls a)) (nm a)). apply expansion_listed; [now apply WN|]. exists a. split; [exact I|]. split; [reflexivity|]. split; [reflexivity|]. exists u. auto.
Qed.
Lemma pu_ok a t : In a (assets n) -> has_pu (cls a) = true -> (t < nsnaps n)%nat -> min_pu a t <= max_pu a t.
Proof.
  intros I P T. apply Qnot_lt_le. intros L. assert (M : mentioned_at n (cls a) (nm a) t). { apply limits_listed; [apply existsb_exists in P; destruct P as [c [P1 P2]]; apply String.eqb_eq in P2; congruence|]. split; [exact T|]. exists a. auto. }
  destruct M as [ts [W _]]. rewrite QU in W. destruct W.
Qed.
Lemma least_pos a : In a (assets n) -> 0 <= at_least a.
Proof. intros I. destruct (sg_nom n SG a I). unfold at_least. destruct (ext a); assumption. Qed.
Lemma class_in c attr na k : In (c, attr, na, k) operations -> na = nattr c /\ In c classes.
Proof. intros O. unfold operations in O. cbn [In] in O. repeat (destruct O as [O|O]; [injection O as <- <- <- <-; split; [reflexivity|unfold classes; cbn; auto 10]|]). destruct O. Qed.
(* the dispatch and the capacity of an asset at the point fit *)
Lemma fits c attr na k a t : In (c, attr, na, k) operations -> In a (assets n) -> cls a = c -> (t < nsnaps n)%nat ->
  fst (DispatchModel.bounds_pu k (d_view attr a) t) * at_least a <= point n ((c ++ "-" ++ attr)%string, t, nm a) <= snd (DispatchModel.bounds_pu k (d_view attr a) t) * at_least a.
Proof.
  intros O I C T. pose proof (least_pos a I) as P. unfold operations in O. cbn [In] in O.
  assert (OTHER : has_pu (cls a) = true -> cls a <> "StorageUnit" -> min_pu a t * at_least a <= point n (op_key (cls a), t, nm a) <= max_pu a t * at_least a).
  { intros H S. rewrite (point_op a t I H S). pose proof (pu_ok a t I H T) as X. split; [lra|]. rewrite (Qmult_comm (at_least a)). apply Qmult_le_compat_r; assumption. }
  assert (PASS : (cls a = "Line" \/ cls a = "Transformer") -> forall z, z == 0 -> - max_pu a t * at_least a <= z <= max_pu a t * at_least a).
  { intros B z ->. pose proof (sg_branch n SG a t I B) as X. pose proof (Qmult_le_0_compat _ _ X P). split; lra. }
  assert (STO : forall q z, 0 <= q -> z == 0 -> 0 * at_least a <= z <= q * at_least a).
  { intros q z X ->. pose proof (Qmult_le_0_compat _ _ X P). split; lra. }
  destruct O as [O|[O|[O|[O|[O|[O|[O|[O|[]]]]]]]]]; injection O as <- <- <- <-; cbn [DispatchModel.bounds_pu fst snd d_view DispatchModel.min_pu DispatchModel.max_pu DispatchModel.max_hours].
  - unfold op_key in OTHER. rewrite C in OTHER. apply OTHER; [reflexivity|discriminate].
  - apply PASS; [auto|]. rewrite point_zero by (cbn; auto 10). reflexivity.
  - apply PASS; [auto|]. rewrite point_zero by (cbn; auto 10). reflexivity.
  - unfold op_key in OTHER. rewrite C in OTHER. apply OTHER; [reflexivity|discriminate].
  - unfold op_key in OTHER. rewrite C in OTHER. apply OTHER; [reflexivity|discriminate].
  - destruct (sg_unit n SG a t I C) as [U1 [U2 U3]]. apply STO; [exact U2|]. rewrite point_zero by (cbn; auto 10). reflexivity.
  - destruct (sg_unit n SG a t I C) as [U1 [U2 U3]]. apply STO; [lra|]. rewrite point_zero by (cbn; auto 10). reflexivity.
  - destruct (sg_unit n SG a t I C) as [U1 [U2 U3]]. apply STO; [exact U3|]. rewrite point_zero by (cbn; auto 10). reflexivity.
Qed.
Lemma loss_zero c attr na k a t s : In (c, attr, na, k) operations -> flag a = true -> eval (point n) (DispatchModel.loss_term c k (lossy n) s (d_view attr a) t) == 0.
Proof.
  intros O FL. unfold DispatchModel.loss_term, DispatchModel.is_passive, DispatchModel.op. cbn [d_view DispatchModel.active]. unfold on. rewrite FL. unfold operations in O. cbn [In] in O.
  destruct O as [O|[O|[O|[O|[O|[O|[O|[O|[]]]]]]]]]; injection O as <- <- <- <-; cbn [andb]; try reflexivity; (destruct (lossy n); [|reflexivity]); cbn [eval val]; rewrite point_zero by (cbn; auto 10); ring.
Qed.
Lemma in_view c attr d : In d (map (d_view attr) (of_class n c)) -> exists a, d = d_view attr a /\ In a (assets n) /\ cls a = c.
Proof. intros I. apply in_map_iff in I. destruct I as [a [<- I]]. apply class_iff in I. exists a. tauto. Qed.
Lemma quiet : exists x, sat x (problem (capacity n ++ operation n)).
Proof.
  exists (point n). assert (ALL : sat (point n) (capacity n ++ operation n)).
  { apply sat_app. split.
    - intros r R. unfold capacity in R. apply in_flat_map in R. destruct R as [[c na] [J R]]. assert (N : na = nattr c /\ In c classes) by (unfold nominal_attrs in J; cbn [In] in J; repeat (destruct J as [J|J]; [injection J as <- <-; split; [reflexivity|unfold classes; cbn; auto 10]|]); destruct J). destruct N as [-> CC].
      revert r R. cbn [fst snd]. change (sat (point n) (capacity_of n c (nattr c))). unfold capacity_of. rewrite !sat_app. unfold DispatchModel.nominal, DispatchModel.fixed_nominal, DispatchModel.modular. rewrite sat_app, !sat_add. repeat split.
      + intros t d _ D _. apply filter_In in D. destruct D as [D E]. apply in_view in D. destruct D as [a [-> [I C]]]. unfold holds. cbn [DispatchModel.mk sns lhs rhs eval val DispatchModel.cap]. change (DispatchModel.vname c (nattr c)) with (cap_key c). change (DispatchModel.name (d_view "" a)) with (nm a). change (DispatchModel.nom_min (d_view "" a)) with (nom_min a). subst c. rewrite (point_cap a I). lra.
      + intros t d _ D M. apply filter_In in D. destruct D as [D E]. apply in_view in D. destruct D as [a [-> [I C]]]. unfold holds. cbn [DispatchModel.mk sns lhs rhs eval val DispatchModel.cap]. change (DispatchModel.vname c (nattr c)) with (cap_key c). change (DispatchModel.name (d_view "" a)) with (nm a). change (DispatchModel.nom_max (d_view "" a)) with (nom_max a) in *. subst c. rewrite (point_cap a I). destruct (nom_max a) as [u|] eqn:U; [|discriminate]. pose proof (range_ok a u I U). lra.
      + intros t d _ D M. exfalso. apply filter_In in D. destruct D as [D E]. apply in_view in D. destruct D as [a [-> [I C]]]. change (DispatchModel.nom_set (d_view "" a)) with (nom_set a) in M. destruct (si_modules n SI a I) as [_ X]. rewrite X in M. discriminate.
      + intros t d _ D M. exfalso. apply filter_In in D. destruct D as [D E]. apply in_view in D. destruct D as [a [-> [I C]]]. change (DispatchModel.nom_mod (d_view "" a)) with (nom_mod a) in E. destruct (si_modules n SI a I) as [X _]. rewrite andb_true_iff, negb_true_iff in E. destruct E as [_ E]. rewrite <- not_true_iff_false, Qle_bool_iff in E. rewrite X in E. lra.
    - intros r R. unfold operation in R. apply in_flat_map in R. destruct R as [[[[c attr] na] k] [O R]]. revert r R. change (sat (point n) (operation_of n (c, attr, na, k))). destruct (class_in _ _ _ _ O) as [-> CC].
      assert (COM : forall a, In a (assets n) -> com a = false) by (intros a I; unfold com; now rewrite (si_uc n SI a I)).
      unfold operation_of. rewrite !sat_app. unfold DispatchModel.non_extendables, DispatchModel.extendables, DispatchModel.committables, DispatchModel.fixed_operation. rewrite !sat_app, !sat_add.
      assert (OPV : forall a t, In a (assets n) -> flag a = true -> val (point n) (DispatchModel.op c attr (d_view attr a) t) = point n ((c ++ "-" ++ attr)%string, t, nm a)) by (intros a t _ FL; unfold DispatchModel.op; cbn [d_view DispatchModel.active]; unfold on; rewrite FL; reflexivity).
      split; [split|split; [split|split; [split|split; [|split]]]].
      + intros t d T D A. apply filter_In in D. destruct D as [D E]. apply in_view in D. destruct D as [a [-> [I C]]]. cbn in E. apply andb_true_iff in E. destruct E as [E _]. apply negb_true_iff in E. assert (T' : (t < nsnaps n)%nat) by (apply in_seq in T; lia). pose proof (fits c attr _ k a t O I C T') as H. unfold at_least in H. rewrite E in H.
        unfold holds. cbn [DispatchModel.mk sns lhs rhs eval]. rewrite (OPV a t I A), (loss_zero c attr _ k a t _ O A). change (DispatchModel.nom (d_view attr a)) with (nom a). lra.
      + intros t d T D A. apply filter_In in D. destruct D as [D E]. apply in_view in D. destruct D as [a [-> [I C]]]. cbn in E. apply andb_true_iff in E. destruct E as [E _]. apply negb_true_iff in E. assert (T' : (t < nsnaps n)%nat) by (apply in_seq in T; lia). pose proof (fits c attr _ k a t O I C T') as H. unfold at_least in H. rewrite E in H.
        unfold holds. cbn [DispatchModel.mk sns lhs rhs eval]. rewrite (OPV a t I A), (loss_zero c attr _ k a t _ O A). change (DispatchModel.nom (d_view attr a)) with (nom a). lra.
      + intros t d T D A. apply filter_In in D. destruct D as [D E]. apply in_view in D. destruct D as [a [-> [I C]]]. cbn in E. assert (T' : (t < nsnaps n)%nat) by (apply in_seq in T; lia). pose proof (fits c attr _ k a t O I C T') as H. unfold at_least in H. rewrite E in H.
        unfold holds. cbn [DispatchModel.mk sns lhs rhs eval]. rewrite (OPV a t I A), (loss_zero c attr _ k a t _ O A). cbn [DispatchModel.cap val]. change (DispatchModel.vname c (nattr c)) with (cap_key c). change (DispatchModel.name (d_view attr a)) with (nm a). assert (PC : point n (cap_key c, 0%nat, nm a) = nom_min a) by (rewrite <- C; now apply point_cap). rewrite PC. lra.
      + intros t d T D A. apply filter_In in D. destruct D as [D E]. apply in_view in D. destruct D as [a [-> [I C]]]. cbn in E. assert (T' : (t < nsnaps n)%nat) by (apply in_seq in T; lia). pose proof (fits c attr _ k a t O I C T') as H. unfold at_least in H. rewrite E in H.
        unfold holds. cbn [DispatchModel.mk sns lhs rhs eval]. rewrite (OPV a t I A), (loss_zero c attr _ k a t _ O A). cbn [DispatchModel.cap val]. change (DispatchModel.vname c (nattr c)) with (cap_key c). change (DispatchModel.name (d_view attr a)) with (nm a). assert (PC : point n (cap_key c, 0%nat, nm a) = nom_min a) by (rewrite <- C; now apply point_cap). rewrite PC. lra.
      + intros t d T D A. exfalso. apply filter_In in D. destruct D as [D E]. apply in_view in D. destruct D as [a [-> [I C]]]. change (com a = true) in E. rewrite (COM a I) in E. discriminate.
      + intros t d T D A. exfalso. apply filter_In in D. destruct D as [D E]. apply in_view in D. destruct D as [a [-> [I C]]]. change (com a = true) in E. rewrite (COM a I) in E. discriminate.
      + unfold commitment_of. assert (Z : filter com (of_class n c) = []). { destruct (filter com (of_class n c)) as [|a l] eqn:Z; [reflexivity|]. exfalso. assert (J : In a (filter com (of_class n c))) by (rewrite Z; now left). apply filter_In in J. destruct J as [J1 J2]. apply class_iff in J1. rewrite (COM a) in J2; [discriminate|tauto]. } rewrite Z. intros r [].
      + destruct (has_uc c); [|intros r []]. unfold RampModel.ramps. assert (Z : RampModel.early_return (nsnaps n) (map r_view (of_class n c)) = true). { unfold RampModel.early_return. apply orb_true_iff. left. unfold RampModel.everywhere. apply forallb_forall. intros a I. apply in_map_iff in I. destruct I as [b [<- I]]. apply class_iff in I. apply forallb_forall. intros t _. cbn [r_view RampModel.up RampModel.down]. destruct (si_ramps n SI b t) as [-> ->]; [tauto|reflexivity]. } rewrite Z. intros r [].
      + intros t d T D A. exfalso. apply in_view in D. destruct D as [a [-> [I C]]]. change (DispatchModel.fix_set (d_view attr a) t) with (op_set a attr t) in A. rewrite (si_sets n SI a attr t I) in A. discriminate. }
  intros r R. apply ALL. unfold problem in R. apply filter_In in R. tauto.
Qed.
End Quiet.

(* concrete networks *)
Definition limits_ (a : asset) (lo hi : Q) : asset :=
  {| cls := cls a; nm := nm a; bus0 := bus0 a; bus1 := bus1 a; sgn := sgn a; ports := ports a; carrier := carrier a; flag := flag a; ext := ext a; committable := committable a;
     nom := nom a; nom_min := nom_min a; nom_max := nom_max a; nom_set := nom_set a; nom_mod := nom_mod a; min_pu := fun _ => lo; max_pu := fun _ => hi; max_hours := max_hours a;
     op_set := op_set a; up := up a; down := down a; up_static := up_static a; down_static := down_static a; start_lim := start_lim a; shut_lim := shut_lim a;
     min_up := min_up a; min_down := min_down a; up_before := up_before a; down_before := down_before a; eff := eff a; stand := stand a; init := init a; cyclic := cyclic a;
     eff_dispatch := eff_dispatch a; eff_store := eff_store a; inflow := inflow a; capital := capital a; marginal := marginal a; storage_cost := storage_cost a;
     spill_cost := spill_cost a; quadratic := quadratic a; standby := standby a; start_cost := start_cost a; shut_cost := shut_cost a; len := len a; e_min := e_min a; e_max := e_max a; r_eff := r_eff a |}.
Definition sums_ (a : asset) (lo hi : option Q) : asset :=
  {| cls := cls a; nm := nm a; bus0 := bus0 a; bus1 := bus1 a; sgn := sgn a; ports := ports a; carrier := carrier a; flag := flag a; ext := ext a; committable := committable a;
     nom := nom a; nom_min := nom_min a; nom_max := nom_max a; nom_set := nom_set a; nom_mod := nom_mod a; min_pu := min_pu a; max_pu := max_pu a; max_hours := max_hours a;
     op_set := op_set a; up := up a; down := down a; up_static := up_static a; down_static := down_static a; start_lim := start_lim a; shut_lim := shut_lim a;
     min_up := min_up a; min_down := min_down a; up_before := up_before a; down_before := down_before a; eff := eff a; stand := stand a; init := init a; cyclic := cyclic a;
     eff_dispatch := eff_dispatch a; eff_store := eff_store a; inflow := inflow a; capital := capital a; marginal := marginal a; storage_cost := storage_cost a;
     spill_cost := spill_cost a; quadratic := quadratic a; standby := standby a; start_cost := start_cost a; shut_cost := shut_cost a; len := len a; e_min := lo; e_max := hi; r_eff := r_eff a |}.
Definition unit_ (a : asset) (mu md ub db : nat) : asset :=
  {| cls := cls a; nm := nm a; bus0 := bus0 a; bus1 := bus1 a; sgn := sgn a; ports := ports a; carrier := carrier a; flag := flag a; ext := ext a; committable := true;
     nom := nom a; nom_min := nom_min a; nom_max := nom_max a; nom_set := nom_set a; nom_mod := nom_mod a; min_pu := min_pu a; max_pu := max_pu a; max_hours := max_hours a;
     op_set := op_set a; up := up a; down := down a; up_static := up_static a; down_static := down_static a; start_lim := start_lim a; shut_lim := shut_lim a;
     min_up := mu; min_down := md; up_before := ub; down_before := db; eff := eff a; stand := stand a; init := init a; cyclic := cyclic a;
     eff_dispatch := eff_dispatch a; eff_store := eff_store a; inflow := inflow a; capital := capital a; marginal := marginal a; storage_cost := storage_cost a;
     spill_cost := spill_cost a; quadratic := quadratic a; standby := standby a; start_cost := start_cost a; shut_cost := shut_cost a; len := len a; e_min := e_min a; e_max := e_max a; r_eff := r_eff a |}.
Definition small := IdleProofs.small.
Definition blank := IdleProofs.blank.
(* all kinds of messages *)
Definition faulty : net := small 2 [IdleProofs.with_range (blank "Generator" "g" "a" true true) 2 (Some 1); limits_ (blank "Store" "e" "a" true false) (1#2) (1#4);
  unit_ (blank "Generator" "h" "a" true true) 3 3 1 1; sums_ (blank "Generator" "s" "a" true false) (Some 5) (Some 4)] (fun _ => 1) 0 [] [].
Lemma faulty_case : well_named faulty /\ warnings faulty = [Expansion_limits "Generator" ["g"]; Both_kinds "Generator" ["h"]; Up_and_down ["h"]; Energy_sums ["s"]; Operational_limits "Store" "e" [0%nat; 1%nat]] /\
  consistency_check faulty ["assets"] = Inconsistent /\ consistency_check faulty ["dtypes"] = Passed (warnings faulty) /\
  consistency_check faulty ["units"] = Unknown_option.
Proof.
  split; [split; [cbn; repeat (constructor; [cbn; intuition discriminate|]); constructor|cbn; unfold classes; cbn [In]; intros a I; repeat (destruct I as [<-|I]; [cbn; auto 10|]); destruct I]|].
  split; [vm_compute; reflexivity|]. split; [|split]; vm_compute; reflexivity.
Qed.
(* a network without a message, with a point within all limits *)
Definition fair : net := small 2 [IdleProofs.with_range (blank "Generator" "g" "a" true true) 1 (Some 2); limits_ (blank "Store" "e" "a" true false) (1#4) (1#2); blank "StorageUnit" "s" "a" true true; blank "Line" "l" "a" true false] (fun _ => 1) 0 [] [].
Lemma fair_case : well_named fair /\ simple fair /\ signs fair /\ warnings fair = [] /\ consistency_check fair ["all"] = Passed [].
Proof.
  split; [split; [cbn; repeat (constructor; [cbn; intuition discriminate|]); constructor|cbn; unfold classes; cbn [In]; intros a I; repeat (destruct I as [<-|I]; [cbn; auto 10|]); destruct I]|].
  split; [constructor; cbn [fair small IdleProofs.small assets In]; intros a; intros; repeat (destruct H as [<-|H]; [cbn; auto 10; try (split; reflexivity)|]); destruct H|].
  split; [constructor; cbn [fair small IdleProofs.small assets In]; intros a; intros; repeat (destruct H as [<-|H]; [try (cbn in H0; intuition discriminate); cbn; repeat split; try discriminate|]); destruct H|].
  assert (W : warnings fair = []) by (vm_compute; reflexivity). split; [exact W|]. vm_compute; reflexivity.
Qed.
(* contradictions without a message *)
Definition narrow_line : net := small 1 [blank "Generator" "g" "a" true false; limits_ (blank "Line" "l" "a" true false) 0 (-(1))] (fun _ => 1) 0 [] [].
Definition forced_unit : net := small 1 [blank "Generator" "g" "a" true false; limits_ (blank "StorageUnit" "s" "a" true false) (1#2) 1] (fun _ => 1) 0 [] [].
Definition torn_link : net := small 1 [blank "Generator" "g" "a" true false; unit_ (blank "Link" "l" "a" true false) 3 3 1 1] (fun _ => 1) 0 [] [].
Ltac named := split; [cbn; repeat (constructor; [cbn; intuition discriminate|]); constructor|cbn; unfold classes; cbn [In]; intros a I; repeat (destruct I as [<-|I]; [cbn; auto 10|]); destruct I].
Lemma line_case : well_named narrow_line /\ warnings narrow_line = [] /\ ~ exists x, feasible IdleProofs.no_kvl narrow_line x.
Proof.
  split; [named|]. split; [vm_compute; reflexivity|]. intros [y [cs [E [S _]]]]. vm_compute in E. injection E as <-.
  pose proof (IdleProofs.row_holds y _ {| lhs := [(1, Some ("Line-s", 0%nat, "l"))]; sns := Ge; rhs := 5 |} S ltac:(cbn; tauto)) as H1.
  pose proof (IdleProofs.row_holds y _ {| lhs := [(1, Some ("Line-s", 0%nat, "l"))]; sns := Le; rhs := -5 |} S ltac:(cbn; tauto)) as H2.
  unfold holds in *. cbn [sns lhs rhs eval val] in *. lra.
Qed.
Lemma unit_case : well_named forced_unit /\ warnings forced_unit = [] /\ ~ exists x, feasible IdleProofs.no_kvl forced_unit x.
Proof.
  split; [named|]. split; [vm_compute; reflexivity|]. intros [y F]. pose proof (fixed_bounds _ _ y (limits_ (blank "StorageUnit" "s" "a" true false) (1#2) 1) "p_store" "p_nom" DispatchModel.Storage_store 0 F ltac:(cbn; auto 10) Logic.I ltac:(cbn; auto) eq_refl eq_refl eq_refl ltac:(cbn; lia)) as H.
  destruct H as [H1 H2]. cbn [DispatchModel.bounds_pu fst snd d_view DispatchModel.min_pu DispatchModel.max_pu limits_ min_pu max_pu nom blank IdleProofs.blank cls nm] in H1, H2. lra.
Qed.
Lemma link_case : well_named torn_link /\ warnings torn_link = [] /\ ~ exists x, feasible IdleProofs.no_kvl torn_link x.
Proof.
  split; [named|]. split; [vm_compute; reflexivity|]. intros [y [cs [E [S _]]]]. vm_compute in E. injection E as <-.
  pose proof (IdleProofs.row_holds y _ {| lhs := [(1, Some ("Link-status", 0%nat, "l"))]; sns := Eq; rhs := 1 |} S ltac:(cbn; tauto)) as H1.
  pose proof (IdleProofs.row_holds y _ {| lhs := [(1, Some ("Link-status", 0%nat, "l"))]; sns := Eq; rhs := 0 |} S ltac:(cbn; tauto)) as H2.
  unfold holds in *. cbn [sns lhs rhs eval val] in *. lra.
Qed.
(* a message without a contradiction: neither extendable nor of any use *)
Definition harmless : net := small 1 [IdleProofs.with_range (blank "Generator" "g" "a" true false) 2 (Some 1)] (fun _ => 1) 0 [] [].
Lemma harmless_case : warnings harmless = [Expansion_limits "Generator" ["g"]] /\ feasible IdleProofs.no_kvl harmless IdleProofs.one_x.
Proof. split; [vm_compute; reflexivity|IdleProofs.feas]. Qed.

(* strict options *)
Lemma has_in s l : has s l = true <-> In s l.
Proof.
  unfold has. rewrite existsb_exists. split.
  - intros (y & J & E). apply String.eqb_eq in E. now subst.
  - intros J. exists s. split; [exact J|apply String.eqb_refl].
Qed.
Lemma fatal_iff s w : fatal s w <-> In (option_of w) (if has "all" s then strict_options else s).
Proof.
  unfold fatal. destruct (has "all" s) eqn:E.
  - apply has_in in E. split; [|now left]. intros _. destruct w; cbn; tauto.
  - split; [intros [J|J]|].
    + apply has_in in J. congruence.
    + destruct w; exact J.
    + intros J. right. destruct w; exact J.
Qed.
Lemma known_iff s : known s <-> forallb (fun s => has s strict_options) (if has "all" s then strict_options else s) = true.
Proof.
  unfold known. destruct (has "all" s) eqn:E.
  - apply has_in in E. split; [reflexivity|now left].
  - rewrite forallb_forall. split.
    + intros [J|J] y Iy; [apply has_in in J; congruence|]. apply has_in. exact (J y Iy).
    + intros J. right. intros y Iy. apply (proj1 (has_in _ _)). exact (J y Iy).
Qed.
Lemma strict_cases n s :
  (consistency_check n s = Unknown_option <-> ~ known s) /\
  (consistency_check n s = Inconsistent <-> known s /\ exists w, In w (warnings n) /\ fatal s w) /\
  (forall ws, consistency_check n s = Passed ws <-> known s /\ ws = warnings n /\ forall w, In w ws -> ~ fatal s w).
Proof.
  unfold consistency_check. pose proof (known_iff s) as K.
  set (st := if has "all" s then strict_options else s) in *.
  destruct (forallb (fun s => has s strict_options) st) eqn:E; cbn [negb].
  2:{ assert (NK : ~ known s) by (intros H; apply K in H; discriminate H).
      split; [now split|]. split; [split; [discriminate|intros [H _]; now elim NK]|].
      intros ws. split; [discriminate|intros [H _]; now elim NK]. }
  assert (KK : known s) by now apply K.
  destruct (existsb (fun w => has (option_of w) st) (warnings n)) eqn:X.
  - apply existsb_exists in X. destruct X as (w & Iw & H). apply has_in in H. apply fatal_iff in H.
    split; [split; [discriminate|intros N; now elim N]|]. split; [split; [intros _; split; [exact KK|now exists w]|reflexivity]|].
    intros ws. split; [discriminate|]. intros (_ & -> & N). exfalso. exact (N w Iw H).
  - assert (N : forall w, In w (warnings n) -> ~ fatal s w).
    { intros w Iw F. apply fatal_iff in F. fold st in F. apply has_in in F.
      enough (existsb (fun w => has (option_of w) st) (warnings n) = true) by congruence. apply existsb_exists. now exists w. }
    split; [split; [discriminate|intros M; now elim M]|]. split; [split; [discriminate|intros (_ & w & Iw & F); exfalso; exact (N w Iw F)]|].
    intros ws. split.
    + intros H. injection H as <-. now split.
    + intros (_ & -> & _). reflexivity.
Qed.
