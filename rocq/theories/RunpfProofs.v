From Coq Require Import List String Bool Ascii Permutation.
From Verif Require Import ControlModel ControlSpec ControlProofs RunpfModel RunpfSpec.
Import ListNotations.
Open Scope string_scope.
Open Scope list_scope.

(* order of names *)
Lemma leb_total a b : String.leb a b = true \/ String.leb b a = true.
Proof. exact (String.leb_total a b). Qed.
Lemma leb_refl a : String.leb a a = true.
Proof. destruct (leb_total a a); auto. Qed.
Lemma compare_refl a : String.compare a a = Eq.
Proof.
  induction a as [|x a IH]; [reflexivity|]. cbn [String.compare].
  assert (X : Ascii.compare x x = Eq) by (unfold Ascii.compare; apply BinNat.N.compare_refl). now rewrite X.
Qed.
Lemma compare_lt_trans : forall a b c, String.compare a b = Lt -> String.compare b c = Lt -> String.compare a c = Lt.
Proof.
  induction a as [|x a IH]; intros [|y b] [|z c]; simpl; auto; try discriminate.
  destruct (Ascii.compare x y) eqn:E1; try discriminate.
  - apply Ascii.compare_eq_iff in E1. subst y. destruct (Ascii.compare x z) eqn:E2; try discriminate; auto. apply IH.
  - intros _. destruct (Ascii.compare y z) eqn:E2; try discriminate.
    + apply Ascii.compare_eq_iff in E2. subst z. now rewrite E1.
    + intros _. assert (X : Ascii.compare x z = Lt).
      { unfold Ascii.compare in *. rewrite BinNat.N.compare_lt_iff in *. eapply BinNat.N.lt_trans; eauto. }
      now rewrite X.
Qed.
Lemma leb_iff a b : String.leb a b = true <-> a = b \/ String.compare a b = Lt.
Proof.
  unfold String.leb. destruct (String.compare a b) eqn:E.
  - apply String.compare_eq_iff in E. tauto.
  - tauto.
  - split; [discriminate|]. intros [->|X]; [|discriminate].
    pose proof (compare_refl b). congruence.
Qed.
Lemma leb_trans a b c : String.leb a b = true -> String.leb b c = true -> String.leb a c = true.
Proof.
  rewrite !leb_iff. intros [->|H1] [->|H2]; auto. right. eapply compare_lt_trans; eauto.
Qed.

Lemma least_fold l : forall a, In (fold_left smaller l a) (a :: l) /\ forall k, In k (a :: l) -> String.leb (fold_left smaller l a) k = true.
Proof.
  induction l as [|b l IH]; intros a; cbn [fold_left].
  - split; [now left|]. intros k [<-|[]]. apply leb_refl.
  - destruct (IH (smaller a b)) as [I M].
    assert (S0 : String.leb (smaller a b) a = true /\ String.leb (smaller a b) b = true /\ (smaller a b = a \/ smaller a b = b)).
    { unfold smaller. destruct (String.leb a b) eqn:E.
      - repeat split; auto using leb_refl.
      - destruct (leb_total a b) as [X|X]; [congruence|]. repeat split; auto using leb_refl. }
    destruct S0 as (Sa & Sb & Sc). split.
    + destruct I as [<-|I]; [|right; now right]. destruct Sc as [->| ->]; [now left|right; now left].
    + pose proof (M _ (or_introl eq_refl)) as M0. intros k [<-|[<-|I']].
      * eapply leb_trans; eauto.
      * eapply leb_trans; eauto.
      * apply M. now right.
Qed.
Lemma least_In l h : least l = Some h -> In h l /\ forall k, In k l -> String.leb h k = true.
Proof. destruct l as [|a l]; [discriminate|]. intros E. injection E as <-. apply least_fold. Qed.
Lemma least_None l : least l = None <-> l = [].
Proof. destruct l; split; intros H; auto; discriminate H. Qed.
Lemma leb_antisym a b : String.leb a b = true -> String.leb b a = true -> a = b.
Proof.
  rewrite !leb_iff. intros [->|H1] [H|H2]; auto.
  pose proof (compare_lt_trans _ _ _ H1 H2) as X.
  pose proof (compare_refl a). congruence.
Qed.

(* the columns that are never touched *)
Definition frame (n : cnet) : list (string * string * bool) * list bus :=
  (map (fun g => (gname g, gbus g, gactive g)) (gens n), buses n).
Definition recolour (f : gen -> string) (n : cnet) : cnet :=
  {| gens := map (fun g => {| gname := gname g; gbus := gbus g; gctrl := f g; gactive := gactive g |}) (gens n); buses := buses n |}.

Lemma sub_names s n m : frame n = frame m -> map gname (sub_gens s n) = map gname (sub_gens s m).
Proof.
  unfold frame. intros E. injection E as EG EB. unfold sub_gens, buses_i, sub_buses. rewrite EB.
  revert EG. generalize (gens m), (gens n). intros r0 l. revert r0. induction l as [|g l IH]; intros [|h r] EG; try discriminate; auto.
  cbn [map] in EG. injection EG as E1 E2 E3 E4. cbn [filter]. rewrite E2.
  destruct (isin (gbus h) _); cbn [map]; rewrite ?E1, ?(IH r E4); auto.
Qed.
Lemma others_frame s g n m : frame n = frame m -> others s g n = others s g m.
Proof. intros E. unfold others. now rewrite (sub_names s n m E). Qed.
Lemma set_gctrl_frame l c n : frame (set_gctrl l c n) = frame n.
Proof.
  unfold frame, set_gctrl. cbn [gens buses]. f_equal. rewrite map_map. apply map_ext. intros g.
  destruct (isin (gname g) l); reflexivity.
Qed.

(* the marks as functions of the names *)
Definition marks (subs : list (string * option string)) (n : cnet) : list string :=
  flat_map (fun sg => match least (others (fst sg) (snd sg) n) with Some h => [h] | None => [] end) subs.
Definition slack_names (subs : list (string * option string)) : list string :=
  flat_map (fun sg => match snd sg with Some g => [g] | None => [] end) subs.

Lemma set_two l1 l2 c n : gens (set_gctrl l2 c (set_gctrl l1 c n)) = gens (set_gctrl (l1 ++ l2) c n).
Proof.
  unfold set_gctrl. cbn [gens]. rewrite map_map. apply map_ext. intros g.
  assert (X : isin (gname g) (l1 ++ l2) = isin (gname g) l1 || isin (gname g) l2) by (unfold isin; apply existsb_app).
  rewrite X. destruct (isin (gname g) l1); cbn [gname gbus gactive gctrl orb]; destruct (isin (gname g) l2); reflexivity.
Qed.
Lemma set_none c n : gens (set_gctrl [] c n) = gens n.
Proof. unfold set_gctrl. cbn [gens isin existsb]. apply map_id. Qed.
Lemma set_gens_ext l c n m : gens n = gens m -> gens (set_gctrl l c n) = gens (set_gctrl l c m).
Proof. intros E. unfold set_gctrl. cbn [gens]. now rewrite E. Qed.

Lemma mark_slack_gens subs : forall n m, mark_slack subs n = Some m ->
  gens m = gens (set_gctrl (slack_names subs) "Slack" n) /\ buses m = buses n.
Proof.
  induction subs as [|[s [g|]] subs IH]; intros n m E; cbn [mark_slack] in E; try discriminate.
  - injection E as <-. split; [symmetry; apply set_none|reflexivity].
  - destruct (IH _ _ E) as [G B]. split; [|exact B].
    rewrite G, set_two. reflexivity.
Qed.
Lemma mark_slack_some subs n : (exists m, mark_slack subs n = Some m) <-> forall s, ~ In (s, None) subs.
Proof.
  revert n. induction subs as [|[s [g|]] subs IH]; intros n; cbn [mark_slack].
  - split; [intros _ s []|eauto].
  - rewrite IH. split; intros H s' I.
    + destruct I as [I|I]; [discriminate|]. now apply (H s').
    + apply (H s'). now right.
  - split; [intros [m E]; discriminate|]. intros H. exfalso. apply (H s). now left.
Qed.

Lemma mark_pq_gens subs : forall n m, frame n = frame m ->
  gens (mark_pq subs m) = gens (set_gctrl (marks subs n) "PQ" m) /\ buses (mark_pq subs m) = buses m.
Proof.
  induction subs as [|[s g] subs IH]; intros n m E.
  - split; [symmetry; apply set_none|reflexivity].
  - unfold mark_pq. cbn [fold_left fst snd marks flat_map].
    rewrite <- (others_frame s g n m E). destruct (least (others s g n)) as [h|] eqn:L.
    + assert (E' : frame n = frame (set_gctrl [h] "PQ" m)) by (rewrite set_gctrl_frame; exact E).
      destruct (IH n (set_gctrl [h] "PQ" m) E') as [G B]. fold (mark_pq subs (set_gctrl [h] "PQ" m)).
      rewrite G, B, set_two. split; reflexivity.
    + destruct (IH n m E) as [G B]. fold (mark_pq subs m). rewrite G, B. split; reflexivity.
Qed.

Lemma gen_in_one s s' n g : NoDup (map bname (buses n)) -> gen_in s n g -> gen_in s' n g -> s = s'.
Proof.
  intros ND (_ & b & I & E & S0) (_ & b' & I' & E' & S'). assert (b = b') by (apply (bname_inj n); auto; congruence).
  subst. congruence.
Qed.

Section R.
Variables (subs : list (string * option string)) (n n' : cnet).
Hypothesis NG : NoDup (map gname (gens n)).
Hypothesis NB : NoDup (map bname (buses n)).
Hypothesis W : with_slacks subs n.
Hypothesis E : set_controls subs n = Some n'.

Lemma others_In s g h : In (s, Some g) subs -> In h (others s (Some g) n) <-> exists k, gen_in s n k /\ gname k = h /\ h <> g.
Proof.
  intros I. unfold others. rewrite filter_In, in_map_iff. split.
  - intros [[k [Ek Ik]] N]. apply sub_gens_In in Ik. exists k. split; [exact Ik|]. split; [exact Ek|].
    intros ->. now rewrite String.eqb_refl in N.
  - intros [k [Ik [Ek N]]]. split; [exists k; split; auto; now apply sub_gens_In|].
    destruct (String.eqb_spec h g); [contradiction|reflexivity].
Qed.

Lemma in_slack h : In h (gens n) -> In (gname h) (slack_names subs) <-> balances subs h.
Proof.
  intros Ih. unfold slack_names, balances. rewrite in_flat_map. split.
  - intros [[s [g|]] [I J]]; cbn [snd] in J; [destruct J as [J|[]]|destruct J]. subst g. eauto.
  - intros [s I]. exists (s, Some (gname h)). split; [exact I|]. now left.
Qed.
Lemma in_marks h : In h (gens n) -> In (gname h) (marks subs n) <-> follows subs n h.
Proof.
  intros Ih. unfold marks, follows. rewrite in_flat_map. split.
  - intros [[s o] [I J]]. cbn [fst snd] in J. destruct (proj2 W s o I) as (g & Hg & ->).
    destruct (least (others s (Some (gname g)) n)) as [k|] eqn:L; [|destruct J]. destruct J as [->|[]].
    apply least_In in L. destruct L as [L1 L2]. apply (others_In s (gname g) _ I) in L1.
    destruct L1 as (k & Hk & Ek & Nk).
    assert (k = h) by (apply (NoDup_gname n); auto; apply Hk). subst k.
    exists s, (gname g). split; [exact I|]. split; [exact Hk|]. split; [exact Nk|].
    intros k Hk' Nk'. apply L2. apply (others_In s (gname g) _ I). eauto.
  - intros (s & g & I & Hh & Nh & M). exists (s, Some g). split; [exact I|]. cbn [fst snd].
    destruct (least (others s (Some g) n)) as [k|] eqn:L.
    + apply least_In in L. destruct L as [L1 L2]. left. apply (others_In s g _ I) in L1.
      destruct L1 as (k' & Hk & Ek & Nk). apply leb_antisym.
      * apply L2. apply (others_In s g _ I). eauto.
      * rewrite <- Ek. apply M; auto. now rewrite Ek.
    + apply least_None in L. assert (X : In (gname h) (others s (Some g) n)) by (apply (others_In s g _ I); eauto).
      rewrite L in X. destruct X.
Qed.

Lemma result : gens n' = map (fun h => {| gname := gname h; gbus := gbus h; gactive := gactive h;
    gctrl := if isin (gname h) (marks subs n) then "PQ" else if isin (gname h) (slack_names subs) then "Slack" else "PV" |}) (gens n) /\
  buses n' = buses n.
Proof.
  unfold set_controls in E. destruct (mark_slack subs (all_pv n)) as [m|] eqn:EM; [|discriminate].
  cbn [option_map] in E. injection E as E1. destruct (mark_slack_gens _ _ _ EM) as [G B].
  assert (FR : frame n = frame m).
  { unfold frame. rewrite G, B. unfold set_gctrl, all_pv. cbn [gens buses]. f_equal. rewrite !map_map. apply map_ext.
    intros g. cbn [gname]. destruct (isin (gname g) (slack_names subs)); reflexivity. }
  destruct (mark_pq_gens subs n m FR) as [G2 B2]. rewrite <- E1, G2, B2, B. split; [|reflexivity].
  unfold set_gctrl at 1. cbn [gens]. rewrite G. unfold set_gctrl, all_pv. cbn [gens]. rewrite !map_map. apply map_ext. intros g.
  cbn [gname gbus gactive]. destruct (isin (gname g) (slack_names subs)); cbn [gname gbus gactive];
    destruct (isin (gname g) (marks subs n)); reflexivity.
Qed.

Lemma not_both h : In h (gens n) -> balances subs h -> ~ follows subs n h.
Proof.
  intros Ih [s Is] (s' & g & I' & Hh & Nh & _).
  destruct (proj2 W s _ Is) as (k & Hk & Ek). injection Ek as Ek.
  assert (h = k) by (apply (NoDup_gname n); auto; apply Hk). subst k.
  assert (s = s') by (eapply gen_in_one; eauto). subst s'.
  apply Nh. destruct W as [ND _]. clear -ND Is I'. induction subs as [|[a o] r IH]; [destruct Is|].
  cbn [map] in ND. inversion ND as [|? ? NI ND']; subst. cbn [fst] in NI.
  destruct Is as [E1|I1], I' as [E2|I2].
  - congruence.
  - injection E1 as -> ->. exfalso. apply NI. apply in_map_iff. exists (s, Some g). auto.
  - injection E2 as -> ->. exfalso. apply NI. apply in_map_iff. exists (s, Some (gname h)). auto.
  - auto.
Qed.

Theorem controls_set : Forall2 (controls_after subs n) (gens n) (gens n') /\ buses n' = buses n.
Proof.
  destruct result as [G B]. split; [|exact B]. rewrite G. apply Forall2_map_r. intros h Ih.
  unfold controls_after. cbn [gname gbus gactive gctrl]. repeat (split; [reflexivity|]).
  destruct (isin (gname h) (marks subs n)) eqn:M.
  - apply isin_In, (in_marks h Ih) in M. split; [|split; [reflexivity|contradiction]].
    intros Bl. exfalso. now apply (not_both h).
  - apply isin_false in M. rewrite (in_marks h Ih) in M.
    destruct (isin (gname h) (slack_names subs)) eqn:SN.
    + apply isin_In, (in_slack h Ih) in SN. split; [reflexivity|]. split; [contradiction|contradiction].
    + apply isin_false in SN. rewrite (in_slack h Ih) in SN. split; [contradiction|]. split; [contradiction|reflexivity].
Qed.

(* the sub-networks seen by the power flow *)
Lemma gen_in_after s h' : gen_in s n' h' -> exists h, gen_in s n h /\ controls_after subs n h h'.
Proof.
  intros [I (b & Ib & Eb & Sb)]. destruct controls_set as [F B].
  assert (X : exists h, In h (gens n) /\ controls_after subs n h h').
  { clear -F I. induction F as [|a a' l l' H F IH]; [destruct I|]. destruct I as [<-|I].
    - exists a. split; [now left|exact H].
    - destruct (IH I) as (h & Ih & Hh). exists h. split; [now right|exact Hh]. }
  destruct X as (h & Ih & Hh). exists h. split; [|exact Hh]. split; [exact Ih|].
  exists b. rewrite B in Ib. split; [exact Ib|]. split; [|exact Sb]. destruct Hh as (_ & -> & _) in Eb. now rewrite Eb.
Qed.
Lemma names_after : map gname (gens n') = map gname (gens n).
Proof. destruct result as [G _]. rewrite G, map_map. reflexivity. Qed.

Theorem power_flow_controls s g n2 c :
  In (s, Some g) subs -> find_bus_controls s n' = inl (n2, c) ->
  slack_generator (ctl_slack c) = Some g /\
  (exists h, gen_in s n h /\ gname h = g /\ slack_bus (ctl_slack c) = gbus h) /\
  gens n2 = gens n' /\
  (forall h, gen_in s n h -> gbus h <> slack_bus (ctl_slack c) -> ~ follows subs n h -> In (gbus h) (pvs c)).
Proof.
  intros I F. destruct controls_set as [FA B].
  assert (NG' : NoDup (map gname (gens n'))) by (rewrite names_after; exact NG).
  assert (NB' : NoDup (map bname (buses n'))) by (rewrite B; exact NB).
  destruct (proj2 W s _ I) as (k & Hk & Ek). injection Ek as Ek.
  (* the balancing generator is in n' *)
  assert (IN : forall h, gen_in s n h -> exists h', gen_in s n' h' /\ controls_after subs n h h').
  { intros h [Ih (b & Ib & Eb & Sb)].
    assert (X : exists h', In h' (gens n') /\ controls_after subs n h h').
    { clear -FA Ih. induction FA as [|a a' l l' H FA IH]; [destruct Ih|]. destruct Ih as [<-|Ih].
      - exists a'. split; [now left|exact H].
      - destruct (IH Ih) as (h' & I' & H'). exists h'. split; [now right|exact H']. }
    destruct X as (h' & Ih' & Hh'). exists h'. split; [|exact Hh']. split; [exact Ih'|].
    exists b. rewrite B. split; [exact Ib|]. split; [|exact Sb]. destruct Hh' as (_ & -> & _). exact Eb. }
  (* whoever is Slack in s is k *)
  assert (US : forall h', gen_in s n' h' -> gctrl h' = "Slack" -> gname h' = g).
  { intros h' Hh' C'. destruct (gen_in_after s h' Hh') as (h & Hh & (N1 & _ & _ & CB & CF & CN)).
    destruct result as [G _].
    assert (BL : balances subs h).
    { assert (D : In (gname h) (slack_names subs) \/ ~ In (gname h) (slack_names subs)) by (destruct (in_dec string_dec (gname h) (slack_names subs)); auto).
      assert (D2 : In (gname h) (marks subs n) \/ ~ In (gname h) (marks subs n)) by (destruct (in_dec string_dec (gname h) (marks subs n)); auto).
      rewrite (in_slack h (proj1 Hh)) in D. rewrite (in_marks h (proj1 Hh)) in D2.
      destruct D as [D|D]; [exact D|]. destruct D2 as [D2|D2].
      - rewrite (CF D2) in C'. discriminate.
      - rewrite (CN D D2) in C'. discriminate. }
    destruct BL as [s' Is']. destruct (proj2 W s' _ Is') as (k' & Hk' & Ek'). injection Ek' as Ek'.
    assert (h = k') by (apply (NoDup_gname n); auto; [apply Hh|apply Hk']). subst k'.
    assert (s = s') by (exact (gen_in_one _ _ n h NB Hh Hk')). subst s'. rewrite N1.
    destruct W as [ND _]. clear -ND Is' I. induction subs as [|[a o] r IH]; [destruct I|].
    cbn [map] in ND. inversion ND as [|? ? NI ND']; subst. cbn [fst] in NI.
    destruct Is' as [E1|I1], I as [E2|I2].
    - congruence.
    - injection E1 as -> ->. exfalso. apply NI. apply in_map_iff. exists (s, Some g). auto.
    - injection E2 as -> ->. exfalso. apply NI. apply in_map_iff. exists (s, Some (gname h)). auto.
    - auto. }
  destruct (IN k Hk) as (k' & Hk' & (Kn & Kb & _ & KS & _)).
  assert (CK : gctrl k' = "Slack") by (apply KS; exists s; now rewrite <- Ek).
  destruct (controls_gens s n' n2 c NG' NB' F) as [(NoG & _)|(q & (Hq & Hch) & Sg & Sb & FG)]; [exfalso; now apply (NoG k')|].
  assert (CQ : gctrl q = "Slack").
  { destruct Hch as (pre & post & EQ & [[C _]|[C _]]); [exact C|]. exfalso. now apply (C k'). }
  assert (EQk : q = k') by (apply (NoDup_gname n'); auto; [apply Hq|apply Hk'|rewrite (US q Hq CQ), Kn; exact Ek]).
  subst q.
  assert (G2 : gens n2 = gens n').
  { assert (AA : forall h, gen_in s n' h -> gctrl h = "Slack" -> h = k').
    { intros h Hh Ch. apply (NoDup_gname n'); auto; [apply Hh|apply Hk'|]. rewrite (US h Hh Ch), Kn. exact Ek. }
    assert (GEN : forall l r, Forall2 (gen_after s n' k') l r -> (forall h, In h l -> In h (gens n')) -> r = l);
      [|exact (GEN _ _ FG (fun h J => J))].
    clear FG. induction l as [|a l IH]; intros r FG SUB; inversion FG; subst; [reflexivity|].
    f_equal; [|apply IH; auto; intros h J; apply SUB; now right].
    rename H1 into GA. destruct GA as (A1 & A2 & A3 & A4 & A5 & A6).
    assert (DK : a = k' \/ a <> k').
    { destruct (string_dec (gname a) (gname k')) as [X|X]; [left; apply (NoDup_gname n'); auto; [apply SUB; now left|apply Hk']|].
      right. intros ->. now apply X. }
    destruct DK as [->|DK].
    - destruct k', y. cbn in *. rewrite A1, A2, A3, (A4 eq_refl), CK. reflexivity.
    - apply (A6 DK). destruct (isin (gbus a) (buses_i s n')) eqn:X.
      + right. intros Y. apply DK. apply AA; auto. apply sub_gens_In. unfold sub_gens. apply filter_In. split; [apply SUB; now left|exact X].
      + left. intros Y. apply sub_gens_In in Y. unfold sub_gens in Y. apply filter_In in Y. destruct Y as [_ Y]. congruence. }
  split; [rewrite Sg, Kn, Ek; reflexivity|]. split.
  { exists k. split; [exact Hk|]. split; [exact (eq_sym Ek)|]. rewrite Sb. exact Kb. }
  split; [exact G2|].
  intros h Hh NS NF. destruct (IN h Hh) as (h' & Hh' & (Hn & Hb & _ & HS & HF & HN)).
  assert (NBal : ~ balances subs h).
  { intros [s' Is']. destruct (proj2 W s' _ Is') as (x & Hx & Ex). injection Ex as Ex.
    assert (h = x) by (apply (NoDup_gname n); auto; [apply Hh|apply Hx]). subst x.
    assert (s = s') by (exact (gen_in_one _ _ n h NB Hh Hx)). subst s'.
    assert (gname h' = g) by (apply US; auto; apply HS; exists s; exact Is').
    assert (h' = k') by (apply (NoDup_gname n'); auto; [apply Hh'|apply Hk'|congruence]). subst h'.
    apply NS. rewrite Sb. now symmetry. }
  pose proof (HN NBal NF) as CP.
  destruct Hh' as [Ih' (b & Ib & Eb & Sb')].
  destruct (controls_partition s n' n2 c NB' F) as (_ & PV & _). apply PV.
  pose proof (controls_buses s n' n2 c NB' F) as FB.
  assert (X : exists b', In b' (buses n2) /\ bus_after s n2 (slack_bus (ctl_slack c)) b b').
  { clear -FB Ib. induction FB as [|a a' l l' H FB IH]; [destruct Ib|]. destruct Ib as [<-|Ib].
    - exists a'. split; [now left|exact H].
    - destruct (IH Ib) as (x & Ix & Hx). exists x. split; [now right|exact Hx]. }
  destruct X as (b' & Ib' & (B1 & B2 & _ & _ & B5 & _)). exists b'. split; [exact Ib'|]. split; [congruence|].
  split; [congruence|]. apply B5; auto; [congruence|]. exists h'. split; [rewrite G2; exact Ih'|]. split; [congruence|exact CP].
Qed.
End R.

(* at most one bus with generators is not held at its voltage set point *)
Theorem one_uncontrolled subs n n' s g n2 c b1 b2 :
  NoDup (map gname (gens n)) -> NoDup (map bname (buses n)) -> with_slacks subs n -> set_controls subs n = Some n' ->
  In (s, Some g) subs -> find_bus_controls s n' = inl (n2, c) ->
  In b1 (pqs c) -> In b2 (pqs c) -> (exists h, gen_in s n h /\ gbus h = b1) -> (exists h, gen_in s n h /\ gbus h = b2) -> b1 = b2.
Proof.
  intros NG NB W E I F P1 P2 (h1 & H1 & E1) (h2 & H2 & E2).
  destruct (power_flow_controls subs n n' NG NB W E s g n2 c I F) as (_ & _ & _ & PV).
  destruct (controls_set subs n n' NG NB W E) as [_ B].
  assert (NB' : NoDup (map bname (buses n'))) by (rewrite B; exact NB).
  pose proof (find_bus_controls_eq s n' n2 c NB' F) as (n1 & _ & _ & _ & EB & EV & EQ & EO).
  destruct (controls_partition s n' n2 c NB' F) as (PM & V & Q0).
  assert (NDo : NoDup (buses_o c)).
  { apply (Permutation_NoDup (Permutation_sym PM)). unfold buses_i, sub_buses. clear -NB'.
    induction (buses n') as [|a l IH]; [constructor|]. cbn [map] in NB'. inversion NB' as [|? ? NI ND]; subst.
    cbn [filter]. destruct (String.eqb (bsub a) s); auto. cbn [map]. constructor; auto.
    intros X. apply in_map_iff in X. destruct X as (y & Ey & Hy). apply filter_In in Hy. destruct Hy as [Hy _].
    apply NI. rewrite <- Ey. now apply in_map. }
  rewrite EO in NDo. inversion NDo as [|? ? NI ND]; subst.
  assert (FO : forall h, gen_in s n h -> In (gbus h) (pqs c) -> follows subs n h).
  { intros h Hh Ph. destruct (in_dec string_dec (gname h) (marks subs n)) as [M|M].
    - now apply (in_marks subs n NG W h (proj1 Hh)).
    - rewrite (in_marks subs n NG W h (proj1 Hh)) in M. exfalso.
      assert (NS : gbus h <> slack_bus (ctl_slack c)).
      { intros X. apply NI. rewrite <- X. apply in_or_app. now right. }
      specialize (PV h Hh NS M). clear -ND PV Ph. induction (pvs c) as [|a l IH]; [destruct PV|].
      cbn [app] in ND. inversion ND as [|? ? N1 N2]; subst. destruct PV as [->|PV]; [|auto].
      apply N1. apply in_or_app. now right. }
  destruct (FO h1 H1 P1) as (s1 & g1 & I1 & G1 & N1 & M1). destruct (FO h2 H2 P2) as (s2 & g2 & I2 & G2 & N2 & M2).
  assert (s1 = s) by (exact (gen_in_one _ _ n h1 NB G1 H1)). assert (s2 = s) by (exact (gen_in_one _ _ n h2 NB G2 H2)). subst s1 s2.
  assert (g1 = g2).
  { destruct W as [NDs _]. clear -NDs I1 I2. induction subs as [|[a o] r IH]; [destruct I1|].
    cbn [map] in NDs. inversion NDs as [|? ? NI ND']; subst. cbn [fst] in NI.
    destruct I1 as [E1|I1], I2 as [E2|I2].
    - congruence.
    - injection E1 as -> ->. exfalso. apply NI. apply in_map_iff. exists (s, Some g2). auto.
    - injection E2 as -> ->. exfalso. apply NI. apply in_map_iff. exists (s, Some g1). auto.
    - auto. }
  subst g2. assert (h1 = h2) by (apply (NoDup_gname n); auto; [apply H1|apply H2|apply leb_antisym; auto]). now subst.
Qed.

Theorem controls_defined subs n : (exists n', set_controls subs n = Some n') <-> forall s, ~ In (s, None) subs.
Proof.
  rewrite <- (mark_slack_some subs (all_pv n)). unfold set_controls.
  destruct (mark_slack subs (all_pv n)) as [m|]; cbn [option_map]; split; intros [x X]; try discriminate; eauto.
Qed.

Theorem found_slacks subs n : NoDup (map gname (gens n)) -> NoDup (map bname (buses n)) -> found subs n ->
  ((exists n', set_controls subs n = Some n') <-> forall s o, In (s, o) subs -> has_generator n s) /\
  ((forall s o, In (s, o) subs -> has_generator n s) -> with_slacks subs n).
Proof.
  intros NG NB [ND FD].
  assert (D : forall s o, In (s, o) subs -> (o = None /\ ~ has_generator n s) \/ exists g, gen_in s n g /\ o = Some (gname g)).
  { intros s o I. destruct (FD s o I) as (n' & c & F & ->).
    destruct (controls_gens s n n' c NG NB F) as [(N & E & _)|(g & (Hg & _) & E & _)].
    - left. split; [exact E|]. intros [g Hg]. now apply (N g).
    - right. exists g. split; [exact Hg|exact E]. }
  split.
  - rewrite controls_defined. split.
    + intros H s o I. destruct (D s o I) as [[-> _]|(g & Hg & _)]; [exfalso; now apply (H s)|now exists g].
    + intros H s I. destruct (D s None I) as [[_ X]|(g & _ & X)]; [|discriminate]. apply X. exact (H s None I).
  - intros H. split; [exact ND|]. intros s o I. destruct (D s o I) as [[_ X]|X]; [|exact X]. destruct X. exact (H s o I).
Qed.
