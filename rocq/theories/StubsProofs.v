From Coq Require Import List String Bool Arith Lia.
From Verif Require Import StubsModel StubsSpec.
Import ListNotations.
Open Scope string_scope.
Open Scope list_scope.

Lemma alive_In alive b : alive_in alive b = true <-> In b alive.
Proof. unfold alive_in. rewrite existsb_exists. split; [intros [x [I E]]; apply String.eqb_eq in E; now subst|intros I; exists b; split; auto; apply String.eqb_refl]. Qed.
Lemma nbr_iff G alive u v : In v (neighbours G alive u) <-> adjacent G u v /\ In v alive.
Proof.
  unfold neighbours, adjacent. rewrite nodup_In, in_flat_map. split.
  - intros [[a b] [I J]]. cbn [fst snd] in J. apply in_app_or in J. destruct J as [J|J].
    + destruct (String.eqb_spec a u); [|destruct J]. destruct (alive_in alive b) eqn:E; [|destruct J]. cbn in J. destruct J as [<-|[]]. apply alive_In in E. subst. auto.
    + destruct (String.eqb_spec b u); [|destruct J]. destruct (alive_in alive a) eqn:E; [|destruct J]. cbn in J. destruct J as [<-|[]]. apply alive_In in E. subst. auto.
  - intros [[A|A] I]; apply alive_In in I; [exists (u, v)|exists (v, u)]; split; auto; cbn [fst snd]; apply in_or_app; [left|right]; rewrite String.eqb_refl, I; simpl; auto.
Qed.
Lemma connected_trans G a b c : connected G a b -> connected G b c -> connected G a c.
Proof. induction 1; auto. intros. econstructor; eauto. Qed.
Lemma adjacent_sym G a b : adjacent G a b -> adjacent G b a.
Proof. unfold adjacent. tauto. Qed.

Section M.
Variable matching : list string.
Variable value : string -> string -> option string.
Notation attrs_match := (attrs_match matching value).
Notation agree := (agree matching value).
Lemma match_iff u v : attrs_match u v = true <-> agree u v.
Proof.
  unfold StubsModel.attrs_match, StubsSpec.agree. rewrite forallb_forall. split; intros H a I; specialize (H a I).
  - destruct (value a u) as [x|]; [|discriminate]. destruct (value a v) as [y|]; [|discriminate]. apply String.eqb_eq in H. subst. eauto.
  - destruct H as [x [-> ->]]. apply String.eqb_refl.
Qed.
Lemma agree_trans u v w : agree u v -> agree v w -> agree u w.
Proof. intros A B a I. destruct (A a I) as [x [X Y]]. destruct (B a I) as [y [Z W]]. exists x. split; auto. congruence. Qed.

Section P.
Variable G : graph.
(* invariant during a pass *)
Definition inv (alive : list string) (bm : string -> string) (stubs : list string) : Prop :=
  (forall b, bm (bm b) = bm b) /\
  (forall w, In w alive -> bm w = w \/ (In w stubs /\ neighbours G alive w = [bm w])) /\
  (forall b, connected G b (bm b)) /\
  (forall b, bm b = b \/ agree b (bm b)) /\
  (forall s, In s stubs -> In s alive /\ exists v, neighbours G alive s = [v] /\ agree s v) /\
  (forall b, In b (nodes G) -> In (bm b) (nodes G)) /\
  (forall a b, adjacent G a b -> bm a = bm b \/ (In a alive /\ ~ In a stubs /\ In b alive /\ ~ In b stubs)).

Lemma visit_inv alive bm stubs u : closed G -> (forall b, In b alive -> In b (nodes G)) -> In u alive -> ~ In u stubs -> inv alive bm stubs -> inv alive (fst (visit matching value G alive (bm, stubs) u)) (snd (visit matching value G alive (bm, stubs) u)).
Proof.
  intros CL SUB U NS H. unfold visit. destruct (neighbours G alive u) as [|v [|v' r]] eqn:N; [exact H| |exact H]. destruct (attrs_match u v) eqn:M; [|exact H]. cbn [fst snd].
  destruct H as [I [P [C [A [S [N0 ED]]]]]]. assert (V : adjacent G u v /\ In v alive) by (apply nbr_iff; rewrite N; simpl; auto). destruct V as [V1 V2].
  assert (BU : bm u = u) by (destruct (P u U) as [E|[E _]]; [auto|contradiction]). apply match_iff in M.
  assert (BV : bm v = v \/ bm v = u).
  { destruct (P v V2) as [E|[_ E]]; [auto|right]. assert (K : In u (neighbours G alive v)) by (apply nbr_iff; split; auto; now apply adjacent_sym). rewrite E in K. destruct K as [K|[]]. auto. }
  assert (BV' : (if String.eqb (bm v) u then v else bm v) = v) by (destruct (String.eqb_spec (bm v) u); [reflexivity|destruct BV; [auto|contradiction]]).
  split; [|split; [|split; [|split; [|split; [|split]]]]].
  - intros b. destruct (String.eqb_spec (bm b) u) as [E|E].
    + destruct (String.eqb_spec (bm v) u); [reflexivity|]. destruct BV; [auto|contradiction].
    + rewrite I. destruct (String.eqb_spec (bm b) u); [contradiction|reflexivity].
  - intros w W. destruct (String.eqb_spec (bm w) u) as [E|E].
    + destruct (P w W) as [F|[F1 F2]].
      * right. assert (w = u) by congruence. subst w. split; [simpl; auto|exact N].
      * left. rewrite E in F2. assert (K : In u (neighbours G alive w)) by (rewrite F2; simpl; auto). apply nbr_iff in K. destruct K as [K _].
        assert (L : In w (neighbours G alive u)) by (apply nbr_iff; split; [now apply adjacent_sym|auto]). rewrite N in L. destruct L as [L|[]]. auto.
    + destruct (P w W) as [F|[F1 F2]]; [auto|right; split; simpl; auto].
  - intros b. destruct (String.eqb_spec (bm b) u) as [E|E]; [|auto]. eapply connected_trans; [apply C|]. rewrite E. econstructor; [exact V1|constructor].
  - intros b. destruct (String.eqb_spec (bm b) u) as [E|E]; [|auto]. right. destruct (A b) as [F|F]; [assert (b = u) by congruence; subst b; exact M|]. rewrite E in F. eapply agree_trans; eauto.
  - intros s [<-|J]; [|auto]. split; [auto|]. exists v. auto.
  - intros b J. destruct (String.eqb_spec (bm b) u) as [E|E]; auto.
  - intros a b J. destruct (ED a b J) as [E|[E1 [E2 [E3 E4]]]]; [left; now rewrite E|].
    destruct (string_dec a u) as [->|NA].
    + left. assert (b = v) by (assert (K : In b (neighbours G alive u)) by (apply nbr_iff; auto); rewrite N in K; destruct K as [K|[]]; auto). subst b. rewrite BU, String.eqb_refl. now rewrite BV'.
    + destruct (string_dec b u) as [->|NB].
      * left. assert (a = v) by (assert (K : In a (neighbours G alive u)) by (apply nbr_iff; split; [now apply adjacent_sym|auto]); rewrite N in K; destruct K as [K|[]]; auto). subst a. rewrite BU, String.eqb_refl. now rewrite BV'.
      * right. simpl. intuition.
Qed.
Lemma visit_stubs alive st u s : In s (snd (visit matching value G alive st u)) -> In s (snd st) \/ s = u.
Proof. unfold visit. destruct (neighbours G alive u) as [|v [|]]; auto. destruct (attrs_match u v); auto. cbn [snd]. intros [<-|]; auto. Qed.
Lemma pass_inv alive todo bm stubs : closed G -> (forall b, In b alive -> In b (nodes G)) -> NoDup todo -> (forall b, In b todo -> In b alive /\ ~ In b stubs) -> inv alive bm stubs ->
  inv alive (fst (fold_left (visit matching value G alive) todo (bm, stubs))) (snd (fold_left (visit matching value G alive) todo (bm, stubs))).
Proof.
  intros CL SUB. revert bm stubs. induction todo as [|u todo IH]; intros bm stubs ND T H; [exact H|]. inversion ND as [|? ? NI ND']; subst. cbn [fold_left].
  destruct (T u (or_introl eq_refl)) as [U1 U2]. pose proof (visit_inv alive bm stubs u CL SUB U1 U2 H) as H'.
  destruct (visit matching value G alive (bm, stubs) u) as [bm' stubs'] eqn:E. apply IH; auto.
  intros b J. destruct (T b (or_intror J)) as [T1 T2]. split; auto. intros K. pose proof (visit_stubs alive (bm, stubs) u b) as VS. rewrite E in VS. cbn [snd] in VS. destruct (VS K) as [X|X]; [contradiction|subst; contradiction].
Qed.
Lemma pass_none alive todo bm stubs : snd (fold_left (visit matching value G alive) todo (bm, stubs)) = [] ->
  stubs = [] /\ (forall u v, In u todo -> neighbours G alive u = [v] -> attrs_match u v = false).
Proof.
  assert (GR : forall todo st s, In s (snd st) -> In s (snd (fold_left (visit matching value G alive) todo st))).
  { induction todo0 as [|u t IH]; intros st s I; [exact I|]. cbn [fold_left]. apply IH. unfold visit. destruct (neighbours G alive u) as [|v [|]]; auto. destruct (attrs_match u v); auto. simpl; auto. }
  revert bm stubs. induction todo as [|u t IH]; intros bm stubs H; [split; [exact H|intros ? ? []]|]. cbn [fold_left] in H.
  unfold visit at 2 in H. cbn [fst snd] in H. destruct (neighbours G alive u) as [|v [|v' r]] eqn:N.
  - destruct (IH _ _ H) as [E F]. split; auto. intros a b [<-|I]; [congruence|eauto].
  - destruct (attrs_match u v) eqn:M.
    + exfalso. match type of H with snd (fold_left _ t ?st) = [] => pose proof (GR t st u (or_introl eq_refl)) as K end. rewrite H in K. destruct K.
    + destruct (IH _ _ H) as [E F]. split; auto. intros a b [<-|I]; [intros Z; assert (b = v) by congruence; subst; auto|eauto].
  - destruct (IH _ _ H) as [E F]. split; auto. intros a b [<-|I]; [congruence|eauto].
Qed.
Lemma filter_alive alive stubs b : In b (filter (fun b => negb (alive_in stubs b)) alive) <-> In b alive /\ ~ In b stubs.
Proof. rewrite filter_In, negb_true_iff. rewrite <- (alive_In stubs b). destruct (alive_in stubs b); intuition discriminate. Qed.

Definition good (alive : list string) (bm : string -> string) : Prop :=
  NoDup alive /\ (forall b, In b alive -> In b (nodes G) /\ bm b = b) /\ (forall b, bm (bm b) = bm b) /\ (forall b, connected G b (bm b)) /\ (forall b, bm b = b \/ agree b (bm b)) /\
  (forall b, In b (nodes G) -> In (bm b) (nodes G)) /\ (forall a b, adjacent G a b -> bm a = bm b \/ (In a alive /\ In b alive)).
Lemma reduce_good fuel alive bm bm' rest : closed G -> good alive bm -> reduce matching value fuel G alive bm = Some (bm', rest) ->
  good rest bm' /\ (forall u v, In u rest -> neighbours G rest u = [v] -> ~ agree u v).
Proof.
  intros CL. revert alive bm. induction fuel as [|f IH]; intros alive bm H E; [discriminate|]. cbn [reduce] in E.
  destruct H as [ND [A [I [C [M [N0 ED]]]]]].
  assert (PI : inv alive (fst (pass matching value G alive bm)) (snd (pass matching value G alive bm))).
  { unfold pass. apply pass_inv; auto; [intros b J; apply A; auto|].
    split; [|split; [|split; [|split; [|split; [|split]]]]]; auto. - intros w W. left. now apply A. - intros s []. - intros a b J. destruct (ED a b J) as [K|[K1 K2]]; [auto|right; auto]. }
  destruct (pass matching value G alive bm) as [bm1 stubs] eqn:EP. cbn [fst snd] in PI. destruct stubs as [|s stubs].
  - injection E as <- <-. destruct PI as [I1 [P1 [C1 [A1 [_ [N1 ED1]]]]]]. split.
    + split; [auto|]. split; [intros b J; split; [now apply A|]; destruct (P1 b J) as [K|[K _]]; [auto|destruct K]|].
      repeat (split; [assumption|]). intros a b J. destruct (ED1 a b J) as [K|[K1 [_ [K2 _]]]]; auto.
    + intros u v U N AG. unfold pass in EP. assert (Z : snd (fold_left (visit matching value G alive) alive (bm, [])) = []) by now rewrite EP.
      apply pass_none in Z. destruct Z as [_ Z]. specialize (Z u v U N). apply match_iff in AG. congruence.
  - eapply IH; [|exact E]. destruct PI as [I1 [P1 [C1 [A1 [_ [N1 ED1]]]]]]. split; [now apply NoDup_filter|]. split; [|repeat (split; [assumption|]); intros a b J; destruct (ED1 a b J) as [K|[K1 [K2 [K3 K4]]]]; [auto|right; rewrite !filter_alive; auto]].
    intros b J. apply filter_alive in J. destruct J as [J K]. split; [now apply A|]. destruct (P1 b J) as [|[L _]]; [auto|contradiction].
Qed.
Lemma start_good : closed G -> good (nodes G) (fun b => b).
Proof. intros [ND CL]. split; [auto|]. split; [auto|]. split; [auto|]. split; [intros; constructor|]. split; [auto|]. split; [auto|]. intros a b J. right. split; [apply (CL a b)|apply (CL b a); apply adjacent_sym]; auto. Qed.

Lemma filter_shorter {A} (f : A -> bool) l x : In x l -> f x = false -> List.length (filter f l) < List.length l.
Proof.
  induction l as [|a l IH]; [intros []|]. intros [->|I] F; cbn [filter].
  - rewrite F. cbn. assert (List.length (filter f l) <= List.length l); [|lia]. clear. induction l as [|a l IH]; [auto|]. cbn [filter]. destruct (f a); cbn; lia.
  - specialize (IH I F). destruct (f a); cbn; lia.
Qed.
Lemma reduce_terminates fuel alive bm : List.length alive < fuel -> closed G -> good alive bm -> reduce matching value fuel G alive bm <> None.
Proof.
  revert alive bm. induction fuel as [|f IH]; intros alive bm L CL H; [lia|]. cbn [reduce].
  destruct H as [ND [A [I [C [M [N0 ED]]]]]].
  assert (PI : inv alive (fst (pass matching value G alive bm)) (snd (pass matching value G alive bm))).
  { unfold pass. apply pass_inv; auto; [intros b J; apply A; auto|].
    split; [|split; [|split; [|split; [|split; [|split]]]]]; auto. - intros w W. left. now apply A. - intros s []. - intros a b J. destruct (ED a b J) as [K|[K1 K2]]; [auto|right; auto]. }
  destruct (pass matching value G alive bm) as [bm1 stubs] eqn:EP. cbn [fst snd] in PI. destruct stubs as [|s stubs]; [discriminate|].
  destruct PI as [I1 [P1 [C1 [A1 [S1 [N1 ED1]]]]]]. destruct (S1 s (or_introl eq_refl)) as [SA _]. apply IH; auto.
  - pose proof (filter_shorter (fun b => negb (alive_in (s :: stubs) b)) alive s SA) as K. rewrite negb_false_iff, alive_In in K. specialize (K (or_introl eq_refl)). lia.
  - split; [now apply NoDup_filter|]. split; [|repeat (split; [assumption|]); intros a b J; destruct (ED1 a b J) as [K|[K1 [K2 [K3 K4]]]]; [auto|right; rewrite !filter_alive; auto]]. intros b J. apply filter_alive in J. destruct J as [J K]. split; [now apply A|]. destruct (P1 b J) as [|[LL _]]; [auto|contradiction].
Qed.
Lemma reduce_core C fuel alive bm bm' rest : closed G -> meshed G C -> good alive bm -> (forall u, C u -> In u alive) -> reduce matching value fuel G alive bm = Some (bm', rest) -> forall u, C u -> In u rest.
Proof.
  intros CL ME. revert alive bm. induction fuel as [|f IH]; intros alive bm H CA E; [discriminate|]. cbn [reduce] in E.
  destruct H as [ND [A [I [CC [M [N0 ED]]]]]].
  assert (PI : inv alive (fst (pass matching value G alive bm)) (snd (pass matching value G alive bm))).
  { unfold pass. apply pass_inv; auto; [intros b J; apply A; auto|].
    split; [|split; [|split; [|split; [|split; [|split]]]]]; auto. - intros w W. left. now apply A. - intros s []. - intros a b J. destruct (ED a b J) as [K|[K1 K2]]; [auto|right; auto]. }
  destruct (pass matching value G alive bm) as [bm1 stubs] eqn:EP. cbn [fst snd] in PI. destruct stubs as [|s stubs].
  - injection E as <- <-. auto.
  - destruct PI as [I1 [P1 [C1 [A1 [S1 [N1 ED1]]]]]]. eapply IH; [| |exact E].
    + split; [now apply NoDup_filter|]. split; [|repeat (split; [assumption|]); intros a b J; destruct (ED1 a b J) as [K|[K1 [K2 [K3 K4]]]]; [auto|right; rewrite !filter_alive; auto]]. intros b J. apply filter_alive in J. destruct J as [J K]. split; [now apply A|]. destruct (P1 b J) as [|[LL _]]; [auto|contradiction].
    + intros u U. apply filter_alive. split; [auto|]. intros K. destruct (S1 u K) as [_ [v [N _]]]. destruct (ME u U) as [_ [x [y [NE [X [Y [XA YA]]]]]]].
      assert (K1 : In x (neighbours G alive u)) by (apply nbr_iff; auto). assert (K2 : In y (neighbours G alive u)) by (apply nbr_iff; auto). rewrite N in *. simpl in *. intuition congruence.
Qed.
Lemma bm_of fuel bm : busmap_by_stubs matching value fuel G = Some bm -> exists rest, reduce matching value fuel G (nodes G) (fun b => b) = Some (bm, rest).
Proof. unfold busmap_by_stubs. destruct (reduce _ _ _ _ _ _) as [[b r]|]; [|discriminate]. cbn. intros E. injection E as ->. eauto. Qed.
End P.

Lemma terminates G : closed G -> exists bm, busmap_by_stubs matching value (S (List.length (nodes G))) G = Some bm.
Proof.
  intros C. unfold busmap_by_stubs. destruct (reduce matching value (S (List.length (nodes G))) G (nodes G) (fun b => b)) as [[bm r]|] eqn:E; [cbn; eauto|].
  exfalso. eapply (reduce_terminates G (S (List.length (nodes G))) (nodes G)); eauto using start_good.
Qed.
Lemma idempotent fuel G bm : closed G -> busmap_by_stubs matching value fuel G = Some bm -> forall b, bm (bm b) = bm b.
Proof. intros C E. apply bm_of in E. destruct E as [r E]. apply (reduce_good G fuel _ _ _ _ C (start_good G C)) in E. apply E. Qed.
Lemma same_component fuel G bm : closed G -> busmap_by_stubs matching value fuel G = Some bm -> forall b, connected G b (bm b) /\ (In b (nodes G) -> In (bm b) (nodes G)).
Proof. intros C E b. apply bm_of in E. destruct E as [r E]. apply (reduce_good G fuel _ _ _ _ C (start_good G C)) in E. destruct E as [[_ [_ [_ [E1 [_ [E2 _]]]]]] _]. auto. Qed.
Lemma clusters_agree fuel G bm : closed G -> busmap_by_stubs matching value fuel G = Some bm -> forall b, bm b = b \/ agree b (bm b).
Proof. intros C E. apply bm_of in E. destruct E as [r E]. apply (reduce_good G fuel _ _ _ _ C (start_good G C)) in E. apply E. Qed.
Lemma mesh_kept fuel G bm C : closed G -> busmap_by_stubs matching value fuel G = Some bm -> meshed G C -> forall u, C u -> bm u = u.
Proof.
  intros CL E M u U. apply bm_of in E. destruct E as [r E]. pose proof (reduce_core G C fuel _ _ _ _ CL M (start_good G CL) (fun u U => proj1 (M u U)) E u U) as K.
  apply (reduce_good G fuel _ _ _ _ CL (start_good G CL)) in E. destruct E as [[_ [E _]] _]. now apply E.
Qed.
Lemma no_stub_left fuel G bm : closed G -> busmap_by_stubs matching value fuel G = Some bm ->
  forall u v, linked G bm u v -> (forall w, linked G bm u w -> w = v) -> ~ adjacent G u u -> ~ agree u v.
Proof.
  intros CL E u v L ONLY NS. apply bm_of in E. destruct E as [r E]. apply (reduce_good G fuel _ _ _ _ CL (start_good G CL)) in E.
  destruct E as [[_ [E1 [E2 [_ [_ [_ ED]]]]]] E3]. destruct L as [NE [a [b [J [BA BB]]]]].
  destruct (ED a b J) as [K|[K1 K2]]; [congruence|]. destruct (E1 a K1) as [_ Ea]. destruct (E1 b K2) as [_ Eb]. assert (a = u) by congruence. assert (b = v) by congruence. subst a b.
  apply E3; auto. assert (K : In v (neighbours G r u)) by (apply nbr_iff; auto).
  assert (LL : forall w, In w (neighbours G r u) -> w = v).
  { intros w W. apply nbr_iff in W. destruct W as [W1 W2]. apply ONLY. destruct (E1 w W2) as [_ Ew]. split; [intros Z; subst w; contradiction|]. exists u, w. auto. }
  assert (ND : NoDup (neighbours G r u)) by apply NoDup_nodup. destruct (neighbours G r u) as [|x [|y l]]; [destruct K|rewrite (LL x); simpl; auto|].
  exfalso. inversion ND as [|? ? NI _]. apply NI. rewrite (LL x), (LL y) by (simpl; auto). simpl. auto.
Qed.
Lemma trees_collapse fuel G bm : closed G -> busmap_by_stubs matching value fuel G = Some bm -> forest G -> (forall u v, In u (nodes G) -> In v (nodes G) -> agree u v) ->
  forall a b, connected G a b -> bm a = bm b.
Proof.
  intros CL E F AG. apply bm_of in E. destruct E as [r E]. apply (reduce_good G fuel _ _ _ _ CL (start_good G CL)) in E.
  destruct E as [[_ [E1 [E2 [_ [_ [_ ED]]]]]] E3].
  assert (M : meshed G (fun u => In u r /\ exists v, In v r /\ adjacent G u v)).
  { intros u [U [v [V A]]]. split; [now apply E1|]. assert (K : In v (neighbours G r u)) by (apply nbr_iff; auto).
    assert (ND : NoDup (neighbours G r u)) by apply NoDup_nodup. pose proof (E3 u) as E3u. destruct (neighbours G r u) as [|x [|y l]] eqn:N; [destruct K| |].
    - exfalso. apply (E3u x U eq_refl). apply AG; [now apply E1|]. destruct K as [->|[]]. now apply E1.
    - assert (X : adjacent G u x /\ In x r) by (apply nbr_iff; rewrite N; simpl; auto). assert (Y : adjacent G u y /\ In y r) by (apply nbr_iff; rewrite N; simpl; auto).
      exists x, y. split; [inversion ND as [|? ? NI _]; subst; intros ->; apply NI; simpl; auto|]. destruct X, Y. repeat split; auto; exists u; split; auto; now apply adjacent_sym. }
  intros a b C. induction C as [a|a b c A C IH]; [reflexivity|]. rewrite <- IH. destruct (ED a b A) as [K|[K1 K2]]; [auto|]. exfalso. apply (F _ M a). eauto.
Qed.
End M.
