From Coq Require Import List String Bool Lia Permutation.
From Verif Require Import TablesModel ControlModel ControlSpec.
Import ListNotations.
Open Scope string_scope.
Open Scope list_scope.

Lemma isin_In x l : isin x l = true <-> In x l.
Proof.
  unfold isin. rewrite existsb_exists. split.
  - intros [y [I E]]. apply String.eqb_eq in E. now subst.
  - intros I. exists x. split; auto. apply String.eqb_refl.
Qed.

Lemma isin_false x l : isin x l = false <-> ~ In x l.
Proof. rewrite <- isin_In. destruct (isin x l); intuition congruence. Qed.

Lemma buses_i_In s n x : In x (buses_i s n) <-> bus_in s n x.
Proof.
  unfold buses_i, sub_buses, bus_in. rewrite in_map_iff. split.
  - intros [b [<- I]]. apply filter_In in I. destruct I as [I E]. apply String.eqb_eq in E. eauto.
  - intros [b [I [<- E]]]. exists b. split; auto. apply filter_In. split; auto. now apply String.eqb_eq.
Qed.

Lemma sub_gens_In s n g : In g (sub_gens s n) <-> gen_in s n g.
Proof. unfold sub_gens, gen_in. rewrite filter_In, isin_In, buses_i_In. tauto. Qed.

Lemma filter_split {A} (p : A -> bool) l x r :
  filter p l = x :: r -> exists pre post, l = pre ++ x :: post /\ (forall y, In y pre -> p y = false) /\ p x = true
                                   /\ filter p post = r.
Proof.
  induction l as [|a l IH]; simpl; [discriminate|].
  destruct (p a) eqn:E.
  - intros H. injection H as <- <-. exists [], l. repeat split; auto. intros y [].
  - intros H. destruct (IH H) as [pre [post [-> [P [Px R]]]]]. exists (a :: pre), post. repeat split; auto.
    intros y [<-|I]; auto.
Qed.

Lemma NoDup_gname n g h : NoDup (map gname (gens n)) -> In g (gens n) -> In h (gens n) -> gname g = gname h -> g = h.
Proof.
  generalize (gens n). induction l as [|a l IH]; simpl; intros ND Ig Ih E; [destruct Ig|].
  inversion ND as [|? ? NI ND']; subst.
  destruct Ig as [<-|Ig], Ih as [<-|Ih]; auto.
  - destruct NI. rewrite E. now apply in_map.
  - destruct NI. rewrite <- E. now apply in_map.
Qed.

Lemma Forall2_map_r {A B} (R : A -> B -> Prop) (f : A -> B) l : (forall x, In x l -> R x (f x)) -> Forall2 R l (map f l).
Proof. induction l; simpl; intros H; constructor; auto. Qed.

(* what find_slack_bus does *)
Lemma find_slack_spec s n n1 sl :
  NoDup (map gname (gens n)) -> find_slack_bus s n = inl (n1, sl) ->
  buses n1 = buses n /\
  ((forall g, ~ gen_in s n g) /\ slack_generator sl = None /\ hd_error (buses_i s n) = Some (slack_bus sl) /\ n1 = n
   \/ exists g, chosen s n g /\ slack_generator sl = Some (gname g) /\ slack_bus sl = gbus g /\
        Forall2 (gen_after s n g) (gens n) (gens n1)).
Proof.
  intros ND H. unfold find_slack_bus in H. destruct (sub_gens s n) as [|g gs] eqn:SG.
  - destruct (buses_i s n) as [|x xs] eqn:B; [discriminate|]. injection H as <- <-. split; auto. left.
    repeat split; auto. intros g I. apply sub_gens_In in I. rewrite SG in I. destruct I.
  - destruct (filter (fun g0 => String.eqb (gctrl g0) "Slack") (g :: gs)) as [|h others] eqn:FS.
    + injection H as <- <-. split; auto. right.
      assert (NS : forall h, gen_in s n h -> gctrl h <> "Slack").
      { intros h I E. apply sub_gens_In in I. rewrite SG in I.
        assert (J : In h (filter (fun g0 => String.eqb (gctrl g0) "Slack") (g :: gs)))
          by (apply filter_In; split; auto; now apply String.eqb_eq).
        rewrite FS in J. destruct J. }
      assert (IG : gen_in s n g) by (apply sub_gens_In; rewrite SG; simpl; auto).
      exists g. split.
      { split; auto. unfold sub_gens in SG. destruct (filter_split _ _ _ _ SG) as [pre [post [E [P _]]]].
        exists pre, post. split; auto. right. split; auto. intros h I J. specialize (P h I).
        apply sub_gens_In in J. unfold sub_gens in J. apply filter_In in J. destruct J. congruence. }
      repeat split; auto. simpl.
      assert (A : forall h, In h (gens n) ->
         gen_after s n g h (if isin (gname h) [gname g]
                            then {| gname := gname h; gbus := gbus h; gctrl := "Slack"; gactive := gactive h |} else h)).
      { intros h I. destruct (isin (gname h) [gname g]) eqn:E.
        - apply isin_In in E. destruct E as [E|[]].
          assert (h = g) as -> by (apply (NoDup_gname n); auto; apply IG).
          repeat split; auto; intros; congruence.
        - apply isin_false in E. assert (h <> g) by (intros ->; simpl in E; tauto).
          repeat split; auto; try congruence. intros _ J K. now apply NS in J. }
      apply Forall2_map_r. exact A.
    + injection H as <- <-. split; auto. right.
      assert (IH : In h (h :: others)) by (simpl; auto). rewrite <- FS in IH. apply filter_In in IH.
      destruct IH as [Ih Eh]. apply String.eqb_eq in Eh. rewrite <- SG in Ih. apply sub_gens_In in Ih.
      exists h. split.
      { split; auto. rewrite <- SG in FS. destruct (filter_split _ _ _ _ FS) as [pre [post [E [P _]]]].
        assert (D : exists pre0 post0, gens n = pre0 ++ h :: post0 /\ filter (fun g => isin (gbus g) (buses_i s n)) pre0 = pre).
        { unfold sub_gens in E. revert pre E P. clear FS SG ND Ih.
          generalize (fun g => isin (gbus g) (buses_i s n)) as q. intros q.
          generalize (gens n). induction l as [|a l IH]; simpl; intros pre E P; [destruct pre; discriminate|].
          destruct (q a) eqn:Q.
          - destruct pre as [|b pre]; simpl in E; injection E as -> E.
            + exists [], l. auto.
            + destruct (IH pre E) as [p0 [q0 [-> F]]]; [intros; apply P; simpl; auto|].
              exists (b :: p0), q0. split; auto. simpl. now rewrite Q, F.
          - destruct (IH pre E P) as [p0 [q0 [-> F]]]. exists (a :: p0), q0. split; auto. simpl. now rewrite Q. }
        destruct D as [p0 [q0 [E0 F0]]]. exists p0, q0. split; auto. left. split; auto.
        intros x Ix Jx K. assert (In x pre).
        { rewrite <- F0. apply filter_In. split; auto. apply isin_In, buses_i_In, Jx. }
        specialize (P x H). apply String.eqb_neq in P. auto. }
      repeat split; auto. simpl.
      assert (NDs : NoDup (map gname (h :: others))).
      { rewrite <- FS, <- SG. unfold sub_gens.
        assert (G : forall (p q : gen -> bool) l, NoDup (map gname l) -> NoDup (map gname (filter p (filter q l)))).
        { intros p q l. induction l as [|a l IHl]; simpl; intros N; [constructor|]. inversion N as [|? ? NI N']; subst.
          destruct (q a); simpl; auto. destruct (p a); simpl; auto. constructor; auto.
          intros J. apply NI. apply in_map_iff in J. destruct J as [y [<- J]]. apply filter_In in J. destruct J as [J _].
          apply filter_In in J. destruct J. now apply in_map. }
        now apply G. }
      assert (O : forall x, In x others <-> x <> h /\ gen_in s n x /\ gctrl x = "Slack").
      { intros x. split.
        - intros I. assert (J : In x (h :: others)) by (simpl; auto). rewrite <- FS in J. apply filter_In in J.
          destruct J as [J K]. apply String.eqb_eq in K. rewrite <- SG in J. apply sub_gens_In in J. repeat split; try apply J; auto.
          intros ->. inversion NDs as [|? ? NI _]; subst. apply NI. now apply in_map.
        - intros [N [J K]]. assert (I : In x (h :: others)).
          { rewrite <- FS. apply filter_In. split; [rewrite <- SG; now apply sub_gens_In|now apply String.eqb_eq]. }
          destruct I; congruence. }
      assert (A : forall x, In x (gens n) ->
         gen_after s n h x (if isin (gname x) (map gname others)
                            then {| gname := gname x; gbus := gbus x; gctrl := "PV"; gactive := gactive x |} else x)).
      { intros x I. destruct (isin (gname x) (map gname others)) eqn:E.
        - apply isin_In in E. apply in_map_iff in E. destruct E as [y [E J]].
          assert (y = x) as ->. { apply (NoDup_gname n); auto. apply O in J. apply J. }
          apply O in J. destruct J as [N [J K]]. repeat split; auto; intros; try congruence. tauto.
        - apply isin_false in E.
          assert (NO : ~ In x others) by (intros J; apply E; now apply in_map).
          repeat split; auto; try congruence. intros N J K. exfalso. apply NO. apply O. auto. }
      apply Forall2_map_r. exact A.
Qed.

(* composing the column updates of the bus table *)
Lemma fold_bgen gs l m :
  buses (fold_left (fun m x => set_bgen x (first_pv gs x) m) l m) =
  map (fun b => if isin (bname b) l
                then {| bname := bname b; bsub := bsub b; bctrl := bctrl b; bgen := first_pv gs (bname b) |}
                else b) (buses m) /\
  gens (fold_left (fun m x => set_bgen x (first_pv gs x) m) l m) = gens m.
Proof.
  revert m. induction l as [|x l IH]; intros m; simpl.
  - split; auto. symmetry. rewrite <- (map_id (buses m)) at 2. apply map_ext. auto.
  - destruct (IH (set_bgen x (first_pv gs x) m)) as [-> ->]. simpl. split; auto.
    rewrite map_map. apply map_ext. intros b. destruct (String.eqb (bname b) x) eqn:E; simpl; auto.
    apply String.eqb_eq in E. destruct (isin (bname b) l) eqn:I; simpl; auto. now rewrite E.
Qed.

Definition new_ctrl (gs : list gen) (slack : string) (x : string) : string :=
  if String.eqb x slack then "Slack"
  else if isin x (map gbus (filter (fun g => String.eqb (gctrl g) "PV") gs)) then "PV" else "PQ".
Definition new_gen (gs : list gen) (sl : slack) (b : bus) : option string :=
  if String.eqb (bname b) (slack_bus sl) then slack_generator sl
  else if isin (bname b) (map gbus (filter (fun g => String.eqb (gctrl g) "PV") gs))
       then first_pv gs (bname b) else bgen b.
Definition new_bus (s : string) (gs : list gen) (sl : slack) (b : bus) : bus :=
  if String.eqb (bsub b) s
  then {| bname := bname b; bsub := bsub b; bctrl := new_ctrl gs (slack_bus sl) (bname b);
          bgen := new_gen gs sl b |}
  else b.

Lemma bname_inj n b c : NoDup (map bname (buses n)) -> In b (buses n) -> In c (buses n) -> bname b = bname c -> b = c.
Proof.
  generalize (buses n). induction l as [|a l IH]; simpl; intros ND Ig Ih E; [destruct Ig|].
  inversion ND as [|? ? NI ND']; subst.
  destruct Ig as [<-|Ig], Ih as [<-|Ih]; auto.
  - destruct NI. rewrite E. now apply in_map.
  - destruct NI. rewrite <- E. now apply in_map.
Qed.

Lemma sub_gens_ext s n m : buses n = buses m -> gens n = gens m -> sub_gens s n = sub_gens s m.
Proof. intros B G. unfold sub_gens, buses_i, sub_buses. now rewrite B, G. Qed.

Lemma slack_in s n n1 sl : find_slack_bus s n = inl (n1, sl) -> bus_in s n (slack_bus sl).
Proof.
  unfold find_slack_bus. destruct (sub_gens s n) as [|g gs] eqn:SG.
  - destruct (buses_i s n) as [|x xs] eqn:B; [discriminate|]. intros H. injection H as <- <-. simpl.
    apply buses_i_In. rewrite B. simpl. auto.
  - destruct (filter (fun g0 => String.eqb (gctrl g0) "Slack") (g :: gs)) as [|h others] eqn:FS;
      intros H; injection H as <- <-; simpl.
    + assert (I : In g (sub_gens s n)) by (rewrite SG; simpl; auto). apply sub_gens_In in I. apply I.
    + assert (I : In h (h :: others)) by (simpl; auto). rewrite <- FS in I. apply filter_In in I.
      destruct I as [I _]. rewrite <- SG in I. apply sub_gens_In in I. apply I.
Qed.

Lemma find_bus_controls_eq s n n' c :
  NoDup (map bname (buses n)) -> find_bus_controls s n = inl (n', c) ->
  exists n1, find_slack_bus s n = inl (n1, ctl_slack c) /\ buses n1 = buses n /\ gens n' = gens n1 /\
    buses n' = map (new_bus s (sub_gens s n1) (ctl_slack c)) (buses n) /\
    pvs c = map bname (filter (fun b => String.eqb (bctrl b) "PV") (sub_buses s n')) /\
    pqs c = map bname (filter (fun b => String.eqb (bctrl b) "PQ") (sub_buses s n')) /\
    buses_o c = slack_bus (ctl_slack c) :: pvs c ++ pqs c.
Proof.
  intros ND H. unfold find_bus_controls in H. destruct (find_slack_bus s n) as [[n1 sl]|e] eqn:FS; [|discriminate].
  assert (B1 : buses n1 = buses n).
  { unfold find_slack_bus in FS. destruct (sub_gens s n) as [|g gs].
    - destruct (buses_i s n); [discriminate|]. now injection FS as <- <-.
    - destruct (filter _ _); injection FS as <- <-; reflexivity. }
  remember (map gbus (filter (fun g => String.eqb (gctrl g) "PV") (sub_gens s n1))) as at_pv eqn:AP.
  destruct (fold_bgen (sub_gens s n1) at_pv (set_bctrl at_pv "PV" (set_bctrl (buses_i s n1) "PQ" n1))) as [FB FG].
  remember (fold_left (fun m x => set_bgen x (first_pv (sub_gens s n1) x) m) at_pv
             (set_bctrl at_pv "PV" (set_bctrl (buses_i s n1) "PQ" n1))) as n4 eqn:E4.
  injection H as <- <-. exists n1. simpl. repeat split; auto.
  rewrite FB. simpl. rewrite !map_map, B1.
  apply map_ext_in. intros b I.
  assert (BI : isin (bname b) (buses_i s n1) = String.eqb (bsub b) s).
  { destruct (String.eqb (bsub b) s) eqn:E.
    - apply isin_In, buses_i_In. apply String.eqb_eq in E. exists b. rewrite B1. auto.
    - apply isin_false. intros J. apply buses_i_In in J. destruct J as [b' [I' [E1 E2]]]. rewrite B1 in I'.
      assert (b' = b) as -> by (apply (bname_inj n); auto). apply String.eqb_neq in E. auto. }
  assert (AS : isin (bname b) at_pv = true -> String.eqb (bsub b) s = true).
  { intros J. rewrite <- BI. apply isin_In. apply isin_In in J. rewrite AP in J. apply in_map_iff in J.
    destruct J as [g [<- J]]. apply filter_In in J. destruct J as [J _]. apply sub_gens_In in J.
    apply buses_i_In. apply J. }
  assert (SS : String.eqb (bname b) (slack_bus sl) = true -> String.eqb (bsub b) s = true).
  { intros J. apply String.eqb_eq in J. rewrite <- BI. apply isin_In, buses_i_In. rewrite J.
    pose proof (slack_in _ _ _ _ FS) as [b' [I' [E1 E2]]]. exists b'. rewrite B1. auto. }
  unfold new_bus, new_ctrl, new_gen. rewrite BI. rewrite <- AP.
  destruct (String.eqb (bsub b) s) eqn:E; simpl.
  - destruct (isin (bname b) at_pv) eqn:P; simpl; rewrite ?P; simpl;
      rewrite ?orb_false_r;
      destruct (String.eqb (bname b) (slack_bus sl)) eqn:Q; simpl; rewrite ?Q; auto.
  - destruct (isin (bname b) at_pv) eqn:P; [specialize (AS eq_refl); discriminate|].
    simpl. rewrite P.
    destruct (String.eqb (bname b) (slack_bus sl)) eqn:Q; [specialize (SS eq_refl); discriminate|].
    simpl. rewrite ?Q. reflexivity.
Qed.

Lemma first_pv_spec gs x :
  In x (map gbus (filter (fun g => String.eqb (gctrl g) "PV") gs)) ->
  exists g, In g gs /\ gbus g = x /\ gctrl g = "PV" /\ first_pv gs x = Some (gname g).
Proof.
  intros I. apply in_map_iff in I. destruct I as [g [<- I]]. apply filter_In in I. destruct I as [I E].
  unfold first_pv. destruct (find _ gs) as [h|] eqn:F.
  - apply find_some in F. destruct F as [J K]. apply andb_true_iff in K. destruct K as [K1 K2].
    apply String.eqb_eq in K1. apply String.eqb_eq in K2. exists h. auto.
  - exfalso. apply (find_none _ _ F g) in I. rewrite E, String.eqb_refl in I. discriminate.
Qed.

Lemma controls_buses s n n' c :
  NoDup (map bname (buses n)) -> find_bus_controls s n = inl (n', c) ->
  Forall2 (bus_after s n' (slack_bus (ctl_slack c))) (buses n) (buses n').
Proof.
  intros ND H. destruct (find_bus_controls_eq _ _ _ _ ND H) as [n1 [FS [B1 [G [B _]]]]].
  rewrite B.
  assert (A : forall b, In b (buses n) -> bus_after s n' (slack_bus (ctl_slack c)) b (new_bus s (sub_gens s n1) (ctl_slack c) b)).
  { intros b I. unfold new_bus, bus_after.
    assert (PVin : forall g, In g (gens n') -> gbus g = bname b -> gctrl g = "PV" -> bsub b = s ->
              In (bname b) (map gbus (filter (fun g => String.eqb (gctrl g) "PV") (sub_gens s n1)))).
    { intros g Ig Eg Cg Sb. apply in_map_iff. exists g. split; auto. apply filter_In. split; [|now apply String.eqb_eq].
      apply sub_gens_In. split; [congruence|]. exists b. rewrite B1. auto. }
    destruct (String.eqb (bsub b) s) eqn:E.
    - apply String.eqb_eq in E. simpl. unfold new_ctrl, new_gen.
      repeat split; auto; try congruence.
      + intros _ Q. now rewrite Q, String.eqb_refl.
      + apply String.eqb_neq in H1. rewrite H1. destruct H2 as [g [Ig [Eg Cg]]].
        pose proof (PVin g Ig Eg Cg E) as J. apply isin_In in J. now rewrite J.
      + apply String.eqb_neq in H1. rewrite H1. destruct H2 as [g [Ig [Eg Cg]]].
        pose proof (PVin g Ig Eg Cg E) as J. destruct (first_pv_spec _ _ J) as [h [Ih [Eh [Ch Fh]]]].
        apply isin_In in J. rewrite J. exists h. apply sub_gens_In in Ih. destruct Ih as [Ih _].
        repeat split; auto. congruence.
      + apply String.eqb_neq in H1. rewrite H1.
        destruct (isin (bname b) _) eqn:J; auto. exfalso. apply H2. apply isin_In in J.
        destruct (first_pv_spec _ _ J) as [h [Ih [Eh [Ch Fh]]]]. apply sub_gens_In in Ih. destruct Ih as [Ih _].
        exists h. rewrite G. auto.
      + apply String.eqb_neq in H1. rewrite H1.
        destruct (isin (bname b) _) eqn:J; auto. exfalso. apply H2. apply isin_In in J.
        destruct (first_pv_spec _ _ J) as [h [Ih [Eh [Ch Fh]]]]. apply sub_gens_In in Ih. destruct Ih as [Ih _].
        exists h. rewrite G. auto.
    - apply String.eqb_neq in E. repeat split; auto; intros; congruence. }
  apply Forall2_map_r. exact A.
Qed.

Lemma new_bus_name s gs sl b : bname (new_bus s gs sl b) = bname b.
Proof. unfold new_bus. now destruct (String.eqb (bsub b) s). Qed.
Lemma new_bus_sub s gs sl b : bsub (new_bus s gs sl b) = bsub b.
Proof. unfold new_bus. now destruct (String.eqb (bsub b) s) eqn:E. Qed.

Lemma buses_i_new s n n' gs sl : buses n' = map (new_bus s gs sl) (buses n) -> buses_i s n' = buses_i s n.
Proof.
  intros B. unfold buses_i, sub_buses. rewrite B. clear B. induction (buses n) as [|b l IH]; simpl; auto.
  rewrite new_bus_sub. destruct (String.eqb (bsub b) s); simpl; rewrite ?new_bus_name, IH; auto.
Qed.

Lemma three_way {A} (f : A -> string) (p q r : A -> bool) l :
  (forall x, In x l -> (p x, q x, r x) = (true, false, false) \/ (p x, q x, r x) = (false, true, false) \/
              (p x, q x, r x) = (false, false, true)) ->
  Permutation (map f (filter p l) ++ map f (filter q l) ++ map f (filter r l)) (map f l).
Proof.
  induction l as [|x l IH]; simpl; intros H; [constructor|].
  assert (H' : forall x0, In x0 l -> (p x0, q x0, r x0) = (true, false, false) \/ (p x0, q x0, r x0) = (false, true, false) \/
              (p x0, q x0, r x0) = (false, false, true)) by (intros; apply H; auto). specialize (IH H').
  destruct (H x (or_introl eq_refl)) as [E|[E|E]]; injection E as -> -> ->; simpl.
  - now constructor.
  - rewrite <- Permutation_middle. now constructor.
  - rewrite app_assoc, <- Permutation_middle, <- app_assoc. now constructor.
Qed.

Lemma controls_partition s n n' c :
  NoDup (map bname (buses n)) -> find_bus_controls s n = inl (n', c) ->
  Permutation (buses_o c) (buses_i s n) /\
  (forall x, In x (pvs c) <-> exists b, In b (buses n') /\ bsub b = s /\ bname b = x /\ bctrl b = "PV") /\
  (forall x, In x (pqs c) <-> exists b, In b (buses n') /\ bsub b = s /\ bname b = x /\ bctrl b = "PQ").
Proof.
  intros ND H. destruct (find_bus_controls_eq _ _ _ _ ND H) as [n1 [FS [B1 [G [B [P1 [P2 P3]]]]]]].
  split; [|split].
  - rewrite P3, P1, P2. rewrite <- (buses_i_new s n n' _ _ B).
    unfold buses_i.
    assert (SL : map bname (filter (fun b => String.eqb (bctrl b) "Slack") (sub_buses s n')) = [slack_bus (ctl_slack c)]).
    { destruct (slack_in _ _ _ _ FS) as [b0 [I0 [E0 S0]]].
      unfold sub_buses. rewrite B. clear - ND I0 E0 S0.
      induction (buses n) as [|b l IH]; [destruct I0|]. simpl in *. inversion ND as [|? ? NI ND']; subst.
      assert (L : forall l' , ~ In (bname b0) (map bname l') ->
         filter (fun b => String.eqb (bctrl b) "Slack")
           (filter (fun b => String.eqb (bsub b) (bsub b0)) (map (new_bus (bsub b0) (sub_gens (bsub b0) n1) (ctl_slack c)) l')) = []).
      { induction l' as [|a l' IHl]; simpl; auto. intros N. rewrite new_bus_sub.
        destruct (String.eqb (bsub a) (bsub b0)) eqn:E; [|apply IHl; tauto].
        simpl. unfold new_bus at 1. rewrite E. simpl. unfold new_ctrl.
        destruct (String.eqb (bname a) (slack_bus (ctl_slack c))) eqn:Q.
        - apply String.eqb_eq in Q. exfalso. apply N. left. congruence.
        - destruct (isin _ _); simpl; apply IHl; tauto. }
      rewrite new_bus_sub. destruct I0 as [->|I0].
      - rewrite String.eqb_refl. simpl. unfold new_bus at 1. rewrite String.eqb_refl. simpl. unfold new_ctrl.
        rewrite E0, String.eqb_refl. simpl. unfold new_bus at 1. rewrite String.eqb_refl. simpl.
        rewrite L; [now rewrite E0|]. auto.
      - assert (NE : bname b <> bname b0) by (intros Q; apply NI; rewrite Q; now apply in_map).
        destruct (String.eqb (bsub b) (bsub b0)) eqn:E; [|now apply IH].
        simpl. unfold new_bus at 1. rewrite E. simpl. unfold new_ctrl.
        destruct (String.eqb (bname b) (slack_bus (ctl_slack c))) eqn:Q.
        + apply String.eqb_eq in Q. congruence.
        + destruct (isin _ _); simpl; now apply IH. }
    change (slack_bus (ctl_slack c) :: map bname (filter (fun b => String.eqb (bctrl b) "PV") (sub_buses s n')) ++
            map bname (filter (fun b => String.eqb (bctrl b) "PQ") (sub_buses s n')))
      with ([slack_bus (ctl_slack c)] ++ map bname (filter (fun b => String.eqb (bctrl b) "PV") (sub_buses s n')) ++
            map bname (filter (fun b => String.eqb (bctrl b) "PQ") (sub_buses s n'))).
    rewrite <- SL. apply three_way. intros b I.
    unfold sub_buses in I. apply filter_In in I. destruct I as [I E]. rewrite B in I. apply in_map_iff in I.
    destruct I as [b0 [<- I]]. rewrite new_bus_sub in E. unfold new_bus. rewrite E. simpl. unfold new_ctrl.
    destruct (String.eqb (bname b0) _); [auto|]. destruct (isin _ _); auto.
  - intros x. rewrite P1, in_map_iff. unfold sub_buses. split.
    + intros [b [<- I]]. apply filter_In in I. destruct I as [I E]. apply filter_In in I. destruct I as [I S].
      apply String.eqb_eq in E. apply String.eqb_eq in S. eauto.
    + intros [b [I [S [<- E]]]]. exists b. split; auto. apply filter_In.
      split; [apply filter_In; split; auto|]; now apply String.eqb_eq.
  - intros x. rewrite P2, in_map_iff. unfold sub_buses. split.
    + intros [b [<- I]]. apply filter_In in I. destruct I as [I E]. apply filter_In in I. destruct I as [I S].
      apply String.eqb_eq in E. apply String.eqb_eq in S. eauto.
    + intros [b [I [S [<- E]]]]. exists b. split; auto. apply filter_In.
      split; [apply filter_In; split; auto|]; now apply String.eqb_eq.
Qed.

Lemma controls_gens s n n' c :
  NoDup (map gname (gens n)) -> NoDup (map bname (buses n)) -> find_bus_controls s n = inl (n', c) ->
  ((forall g, ~ gen_in s n g) /\ slack_generator (ctl_slack c) = None /\
     hd_error (buses_i s n) = Some (slack_bus (ctl_slack c)) /\ gens n' = gens n)
  \/ exists g, chosen s n g /\ slack_generator (ctl_slack c) = Some (gname g) /\ slack_bus (ctl_slack c) = gbus g /\
        Forall2 (gen_after s n g) (gens n) (gens n').
Proof.
  intros N1 N2 H. destruct (find_bus_controls_eq _ _ _ _ N2 H) as [n1 [FS [B1 [G [B [P1 [P2 P3]]]]]]].
  destruct (find_slack_spec _ _ _ _ N1 FS) as [_ [[A [D [E F]]]|[g [A [D [E F]]]]]].
  - left. rewrite G, F. auto.
  - right. exists g. rewrite G. auto.
Qed.

Lemma Forall2_In_r {A B} (R : A -> B -> Prop) l l' y : Forall2 R l l' -> In y l' -> exists x, In x l /\ R x y.
Proof. induction 1; simpl; intros I; [destruct I|]. destruct I as [<-|I]; [eauto|]. destruct (IHForall2 I) as [z [? ?]]. eauto. Qed.
Lemma Forall2_In_l {A B} (R : A -> B -> Prop) l l' x : Forall2 R l l' -> In x l -> exists y, In y l' /\ R x y.
Proof. induction 1; simpl; intros I; [destruct I|]. destruct I as [<-|I]; [eauto|]. destruct (IHForall2 I) as [z [? ?]]. eauto. Qed.

Lemma gen_after_names s n g l l' : Forall2 (gen_after s n g) l l' -> map gname l' = map gname l.
Proof. induction 1 as [|a b l l' H F IH]; simpl; auto. destruct H as [-> _]. now rewrite IH. Qed.

Lemma singleton {A} (l : list A) x : NoDup l -> In x l -> (forall y, In y l -> y = x) -> l = [x].
Proof.
  intros ND I H. destruct l as [|a l]; [destruct I|]. assert (a = x) as -> by (apply H; simpl; auto).
  destruct l as [|b l]; auto. assert (b = x) as -> by (apply H; simpl; auto). inversion ND as [|? ? NI _]; subst. destruct NI. simpl; auto.
Qed.

Lemma bus_in_ext s n n' : buses_i s n' = buses_i s n -> forall x, bus_in s n' x <-> bus_in s n x.
Proof. intros E x. rewrite <- !buses_i_In, E. tauto. Qed.

(* exactly one Slack generator is left *)
Lemma one_slack s n n' g :
  NoDup (map gname (gens n)) -> buses_i s n' = buses_i s n -> gen_in s n g ->
  Forall2 (gen_after s n g) (gens n) (gens n') ->
  filter (fun h => String.eqb (gctrl h) "Slack") (sub_gens s n') =
  [{| gname := gname g; gbus := gbus g; gctrl := "Slack"; gactive := gactive g |}].
Proof.
  intros ND B G F.
  assert (ND' : NoDup (gens n')).
  { apply (NoDup_map_inv gname). rewrite (gen_after_names _ _ _ _ _ F). auto. }
  apply singleton.
  - unfold sub_gens. now apply NoDup_filter, NoDup_filter.
  - destruct (Forall2_In_l _ _ _ _ F (proj1 G)) as [y [I [E1 [E2 [E3 [E4 _]]]]]].
    apply filter_In. split.
    + apply sub_gens_In. split.
      * specialize (E4 eq_refl). destruct y; simpl in *. subst. exact I.
      * simpl. apply (bus_in_ext _ _ _ B). apply G.
    + reflexivity.
  - intros y I. apply filter_In in I. destruct I as [I E]. apply String.eqb_eq in E. apply sub_gens_In in I.
    destruct I as [I J]. destruct (Forall2_In_r _ _ _ _ F I) as [h [Ih [E1 [E2 [E3 [E4 [E5 E6]]]]]]].
    assert (DEC : h = g \/ h <> g).
    { destruct (string_dec (gname h) (gname g)) as [Q|Q].
      - left. apply (NoDup_gname n); auto. apply G.
      - right. congruence. }
    destruct DEC as [->|N].
    + destruct y; simpl in *; subst; reflexivity.
    + exfalso. destruct (string_dec (gctrl h) "Slack") as [Q|Q].
      * assert (Gh : gen_in s n h).
        { split; auto. apply (bus_in_ext _ _ _ B). rewrite <- E2. auto. }
        rewrite (E5 N Gh Q) in E. discriminate.
      * rewrite (E6 N (or_intror Q)) in E. congruence.
Qed.

Lemma set_gctrl_nil c n : set_gctrl [] c n = n.
Proof. destruct n as [g b]. unfold set_gctrl. simpl. f_equal. rewrite <- (map_id g) at 2. now apply map_ext. Qed.

Lemma new_bus_idem s gs sl b : new_bus s gs sl (new_bus s gs sl b) = new_bus s gs sl b.
Proof.
  unfold new_bus. destruct (String.eqb (bsub b) s) eqn:E; simpl; rewrite E; auto.
  simpl. f_equal. unfold new_gen. simpl. destruct (String.eqb (bname b) _); auto. destruct (isin _ _); auto.
Qed.

Lemma cnet_eq n m : gens n = gens m -> buses n = buses m -> n = m.
Proof. destruct n, m; simpl; intros; subst; auto. Qed.

Lemma controls_idem s n n' c :
  NoDup (map gname (gens n)) -> NoDup (map bname (buses n)) ->
  find_bus_controls s n = inl (n', c) -> find_bus_controls s n' = inl (n', c).
Proof.
  intros N1 N2 H. destruct (find_bus_controls_eq _ _ _ _ N2 H) as [n1 [FS [B1 [G [B [P1 [P2 P3]]]]]]].
  pose proof (buses_i_new s n n' _ _ B) as BI.
  assert (FS' : find_slack_bus s n' = inl (n', ctl_slack c)).
  { destruct (find_slack_spec _ _ _ _ N1 FS) as [_ [[A [D [E F]]]|[g [A [D [E F]]]]]].
    - subst n1. unfold find_slack_bus. destruct (sub_gens s n') as [|x xs] eqn:SG.
      + rewrite BI. destruct (buses_i s n); [discriminate|]. injection E as ->. destruct (ctl_slack c); simpl in *; now subst.
      + exfalso. assert (I : In x (sub_gens s n')) by (rewrite SG; simpl; auto). apply sub_gens_In in I.
        destruct I as [I J]. apply (A x). split; [congruence|]. now apply (bus_in_ext _ _ _ BI).
    - rewrite <- G in F. pose proof (one_slack s n n' g N1 BI (proj1 A) F) as U.
      unfold find_slack_bus. destruct (sub_gens s n') as [|x xs] eqn:SG; [discriminate|].
      rewrite U. simpl. rewrite set_gctrl_nil. f_equal. f_equal. destruct (ctl_slack c); simpl in *; now subst. }
  assert (N2' : NoDup (map bname (buses n'))).
  { rewrite B, map_map. erewrite map_ext; [exact N2|]. intros b. apply new_bus_name. }
  destruct (find_bus_controls s n') as [[n'' c'']|e] eqn:H'.
  2:{ unfold find_bus_controls in H'. rewrite FS' in H'. discriminate. }
  destruct (find_bus_controls_eq _ _ _ _ N2' H') as [n1' [FS1 [B1' [G' [B' [P1' [P2' P3']]]]]]].
  rewrite FS' in FS1. injection FS1 as <- SC.
  assert (n'' = n') as ->.
  { apply cnet_eq; auto. rewrite B', <- SC.
    assert (SGE : sub_gens s n' = sub_gens s n1).
    { unfold sub_gens. rewrite BI, G. unfold buses_i, sub_buses. now rewrite B1. }
    rewrite SGE, B, map_map. apply map_ext. intros b. apply new_bus_idem. }
  f_equal. f_equal. destruct c, c''; simpl in *. subst. reflexivity.
Qed.

(* the summary users rely on: one Slack generator, sitting at the one Slack bus *)
Lemma controls_one_slack s n n' c :
  NoDup (map gname (gens n)) -> NoDup (map bname (buses n)) ->
  find_bus_controls s n = inl (n', c) ->
  (exists! b, In b (buses n') /\ bsub b = s /\ bctrl b = "Slack") /\
  ((exists g, gen_in s n g) -> exists! g, gen_in s n' g /\ gctrl g = "Slack").
Proof.
  intros N1 N2 H. destruct (find_bus_controls_eq _ _ _ _ N2 H) as [n1 [FS [B1 [G [B [P1 [P2 P3]]]]]]].
  pose proof (buses_i_new s n n' _ _ B) as BI.
  assert (N2' : NoDup (map bname (buses n'))).
  { rewrite B, map_map. erewrite map_ext; [exact N2|]. intros b. apply new_bus_name. }
  split.
  - destruct (slack_in _ _ _ _ FS) as [b0 [I0 [E0 S0]]].
    exists (new_bus s (sub_gens s n1) (ctl_slack c) b0). split.
    + rewrite B. split; [now apply in_map|]. rewrite new_bus_sub. split; auto. unfold new_bus.
      rewrite (proj2 (String.eqb_eq _ _) S0). simpl. unfold new_ctrl. now rewrite E0, String.eqb_refl.
    + intros b [I [S E]]. apply (bname_inj n'); auto; [rewrite B; now apply in_map|].
      rewrite new_bus_name, E0. rewrite B in I. apply in_map_iff in I. destruct I as [b1 [<- I]].
      rewrite new_bus_sub in S. unfold new_bus in E. rewrite (proj2 (String.eqb_eq _ _) S) in E. simpl in E.
      rewrite new_bus_name. unfold new_ctrl in E. destruct (String.eqb (bname b1) _) eqn:Q.
      * apply String.eqb_eq in Q. auto.
      * destruct (isin _ _); discriminate.
  - intros [g0 I0]. destruct (controls_gens _ _ _ _ N1 N2 H) as [[A _]|[g [A [_ [_ F]]]]]; [now apply A in I0|].
    pose proof (one_slack s n n' g N1 BI (proj1 A) F) as U.
    assert (W : forall x, In x (filter (fun h => String.eqb (gctrl h) "Slack") (sub_gens s n')) <-> gen_in s n' x /\ gctrl x = "Slack").
    { intros x. rewrite filter_In, sub_gens_In, String.eqb_eq. tauto. }
    rewrite U in W. eexists. split; [apply W; simpl; left; reflexivity|].
    intros x Hx. apply W in Hx. simpl in Hx. tauto.
Qed.

(* it fails only on a sub-network without buses *)
Lemma controls_total s n : (exists x, bus_in s n x) -> exists r, find_bus_controls s n = inl r.
Proof.
  intros [x I]. apply buses_i_In in I. unfold find_bus_controls, find_slack_bus.
  destruct (sub_gens s n); [destruct (buses_i s n); [destruct I|eauto]|]. destruct (filter _ _); eauto.
Qed.
