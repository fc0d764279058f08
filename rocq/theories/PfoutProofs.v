From Coq Require Import List String Bool QArith Qabs Arith Lia Lqa Permutation Setoid Morphisms.
From Verif Require Import ControlModel ControlSpec ControlProofs BalanceSpec BalanceProofs PfoutModel PfoutSpec.
Import ListNotations.
Open Scope string_scope.
Open Scope list_scope.
Open Scope Q_scope.

(* ---------- sums ---------- *)
Lemma sumq_total {A} (f : A -> Q) l : sumq (map f l) == total f l.
Proof.
  induction l as [|a l IH]; [reflexivity|]. cbn [map sumq fold_right total]. fold (sumq (map f l)) (total f l).
  rewrite IH. reflexivity.
Qed.

Lemma total_cons {A} (f : A -> Q) a l : total f (a :: l) == f a + total f l.
Proof. reflexivity. Qed.

Lemma total_concat {A} (f : A -> Q) ls : total f (List.concat ls) == total (total f) ls.
Proof.
  induction ls as [|l ls IH]; [reflexivity|]. cbn [List.concat]. rewrite total_app, total_cons, IH. reflexivity.
Qed.

Lemma class_total f b l : class_at f b l == total (fed f b) l.
Proof.
  unfold class_at. rewrite sumq_total, !total_filter. apply total_ext. intros o _. unfold fed, at_bus.
  destruct (o_active o); [|reflexivity]. destruct (String.eqb (o_bus o) b); [ring|reflexivity].
Qed.

Lemma rows_total f b t : sumq (map (class_at f b) (t_gens t :: t_rest t)) == total (fed f b) (rows t).
Proof.
  rewrite sumq_total, total_cons. unfold rows. rewrite total_app, total_concat.
  rewrite (total_ext (class_at f b) (total (fed f b))); [rewrite class_total; reflexivity|].
  intros l _. apply class_total.
Qed.

Lemma links_total b t : b <> "" -> links_at b t == total (link_fed (t_ports t) b) (t_links t).
Proof.
  intros Hb. unfold links_at. rewrite sumq_total.
  rewrite (total_ext (port_at b (t_links t))
             (fun i => total (fun l => at_bus (l_bus l i) b (- link_p l i)) (t_links t))).
  - rewrite total_swap. apply total_ext. intros l _. cbn [seq]. rewrite total_cons. unfold link_fed.
    apply Qplus_comp; [reflexivity|]. apply total_ext. intros i Hi. apply in_seq in Hi.
    unfold at_bus. destruct (String.eqb_spec (l_bus l i) b) as [E|N]; [|reflexivity].
    destruct i as [|i]; [lia|]. cbn [link_p]. destruct (String.eqb_spec (l_bus l (S i)) "") as [E2|N2].
    + congruence.
    + ring.
  - intros i _. unfold port_at. rewrite sumq_total, total_filter.
    rewrite <- (Qmult_1_l (total _ (t_links t))) at 1.
    setoid_replace (- (1 * total (fun a => if String.eqb (l_bus a i) b then link_p a i else 0) (t_links t)))
      with ((-1#1) * total (fun a => if String.eqb (l_bus a i) b then link_p a i else 0) (t_links t)) by ring.
    rewrite <- total_scale. apply total_ext. intros l _. unfold at_bus.
    destruct (String.eqb (l_bus l i) b); ring.
Qed.

Lemma nodal_p_inj t b : b <> "" -> nodal_p t b == inj_p t b.
Proof. intros Hb. unfold nodal_p, inj_p. rewrite rows_total, links_total by exact Hb. reflexivity. Qed.
Lemma nodal_q_inj t b : nodal_q t b == inj_q t b.
Proof. unfold nodal_q, inj_q. apply rows_total. Qed.
Lemma lpf_nodal_inj t b : b <> "" -> lpf_nodal t b == inj_p_lin t b.
Proof.
  intros Hb. unfold lpf_nodal, inj_p_lin, inj_p. rewrite links_total by exact Hb.
  change (t_gens t :: t_rest t ++ [t_shunts t]) with ((t_gens t :: t_rest t) ++ [t_shunts t]).
  rewrite map_app.
  assert (E : forall l r, sumq (l ++ r) == sumq l + sumq r).
  { induction l as [|a l IH]; intros r; cbn [app sumq fold_right]; [unfold sumq; ring|].
    fold (sumq (l ++ r)) (sumq l). rewrite IH. ring. }
  rewrite E, rows_total. cbn [map sumq fold_right]. rewrite class_total. ring.
Qed.

Lemma fed_dispatch b o : fed o_p b (dispatch o) == fed o_pset b o.
Proof. unfold fed, dispatch. destruct (o_active o) eqn:E; cbn; rewrite ?E; reflexivity. Qed.
Lemma fed_dispatch_q b o : fed o_q b (dispatch o) == fed o_qset b o.
Proof. unfold fed, dispatch. destruct (o_active o) eqn:E; cbn; rewrite ?E; reflexivity. Qed.

Lemma rows_dispatch f g b t :
  (forall o, fed f b (dispatch o) == fed g b o) ->
  total (fed f b) (map dispatch (t_gens t) ++ List.concat (map (map dispatch) (t_rest t))) == total (fed g b) (rows t).
Proof.
  intros H. rewrite <- concat_map, <- map_app. unfold rows. rewrite total_map. apply total_ext. intros o _. apply H.
Qed.

Lemma set_points_p t b : inj_p (set_points t) b == set_p t b.
Proof.
  unfold inj_p, set_p, set_points, rows. cbn [t_gens t_rest t_links t_ports].
  rewrite (rows_dispatch _ o_pset); [reflexivity|]. intros o. apply fed_dispatch.
Qed.
Lemma set_points_q t b : inj_q (set_points t) b == set_q t b.
Proof.
  unfold inj_q, set_q, set_points, rows. cbn [t_gens t_rest].
  rewrite (rows_dispatch _ o_qset); [reflexivity|]. intros o. apply fed_dispatch_q.
Qed.
Lemma lpf_points_p t b : inj_p_lin (lpf_points t) b == set_p_lin t b.
Proof.
  unfold inj_p_lin, set_p_lin, inj_p, set_p, lpf_points, rows. cbn [t_gens t_rest t_links t_ports t_shunts].
  rewrite (rows_dispatch _ o_pset) by (intros o; apply fed_dispatch).
  rewrite total_map. apply Qplus_comp; [reflexivity|]. apply total_ext. intros o _. reflexivity.
Qed.

Theorem pf_injection t b : b <> "" ->
  nodal_p (set_points t) b == set_p t b /\ nodal_q (set_points t) b == set_q t b.
Proof.
  intros Hb. split.
  - rewrite nodal_p_inj by exact Hb. apply set_points_p.
  - rewrite nodal_q_inj. apply set_points_q.
Qed.
Theorem lpf_injection t b : b <> "" -> lpf_nodal (lpf_points t) b == set_p_lin t b.
Proof. intros Hb. rewrite lpf_nodal_inj by exact Hb. apply lpf_points_p. Qed.

(* ---------- changing generators ---------- *)
Lemma fed_add dp dq b o : fed o_p b (add_pq dp dq o) == fed o_p b o + fed dp b o.
Proof.
  unfold fed, at_bus. cbn. destruct (o_active o); [|ring]. destruct (String.eqb (o_bus o) b); ring.
Qed.
Lemma fed_add_q dp dq b o : fed o_q b (add_pq dp dq o) == fed o_q b o + fed dq b o.
Proof.
  unfold fed, at_bus. cbn. destruct (o_active o); [|ring]. destruct (String.eqb (o_bus o) b); ring.
Qed.
Lemma upd_p dp dq t b : inj_p (upd_gens dp dq t) b == inj_p t b + total (fed dp b) (t_gens t).
Proof.
  unfold inj_p, upd_gens, rows. cbn [t_gens t_rest t_links t_ports]. rewrite !total_app, total_map.
  rewrite (total_ext _ (fun o => fed o_p b o + fed dp b o)) by (intros o _; apply fed_add).
  rewrite total_plus. ring.
Qed.
Lemma upd_q dp dq t b : inj_q (upd_gens dp dq t) b == inj_q t b + total (fed dq b) (t_gens t).
Proof.
  unfold inj_q, upd_gens, rows. cbn [t_gens t_rest]. rewrite !total_app, total_map.
  rewrite (total_ext _ (fun o => fed o_q b o + fed dq b o)) by (intros o _; apply fed_add_q).
  rewrite total_plus. ring.
Qed.

(* a generator that can take up power at its bus *)
Definition can_take (gs : list one) (g b : string) : Prop :=
  exists o, In o gs /\ o_name o = g /\ o_bus o = b /\ o_active o = true /\ o_sign o == 1.

Lemma fed_one gs g b0 b x : NoDup (map o_name gs) -> can_take gs g b0 ->
  total (fed (fun o => if String.eqb (o_name o) g then x else 0) b) gs == at_bus b0 b x.
Proof.
  intros ND (o & Ho & Hn & Hb & Ha & Hs). revert ND. induction gs as [|h gs IH]; [destruct Ho|]. intros ND.
  cbn [map] in ND. inversion ND as [|? ? NI ND']; subst. rewrite total_cons. destruct Ho as [->|Ho].
  - rewrite (total_zero (fed _ b) gs).
    + unfold fed. rewrite Ha, String.eqb_refl. unfold at_bus.
      destruct (String.eqb (o_bus o) b); [rewrite Hs|]; ring.
    + intros h Hh. unfold fed. destruct (o_active h); [|reflexivity]. unfold at_bus.
      destruct (String.eqb_spec (o_name h) (o_name o)) as [E|E].
      * exfalso. apply NI. rewrite <- E. now apply in_map.
      * destruct (String.eqb (o_bus h) b); ring.
  - rewrite (IH Ho ND'). unfold fed.
    destruct (String.eqb_spec (o_name h) (o_name o)) as [E|E].
    + exfalso. apply NI. rewrite E. now apply in_map.
    + destruct (o_active h); unfold at_bus; [destruct (String.eqb (o_bus h) b)|]; ring.
Qed.

(* ---------- non-linear power flow ---------- *)
Section Pf.
Variable c : controls.
Variable n : cnet.
Notation sb := (slack_bus (ctl_slack c)).

Definition controlled (gs : list one) : Prop :=
  (exists g, slack_generator (ctl_slack c) = Some g /\ can_take gs g sb) /\
  (forall b, In b (pvs c) -> exists g, gen_of n b = Some g /\ can_take gs g b).

Lemma isin_In x l : isin x l = true <-> In x l.
Proof.
  unfold isin. rewrite existsb_exists. split.
  - intros (y & I & E). apply String.eqb_eq in E. now subst.
  - intros I. exists x. split; auto. apply String.eqb_refl.
Qed.

Lemma total_pick (l : list string) b (F : string -> Q) : NoDup l ->
  total (fun x => at_bus x b (F x)) l == if isin b l then F b else 0.
Proof.
  induction l as [|a l IH]; intros ND; [reflexivity|]. inversion ND as [|? ? NI ND']; subst.
  rewrite total_cons, (IH ND'). unfold at_bus. cbn [isin existsb]. fold (isin b l).
  rewrite (String.eqb_sym b a). destruct (String.eqb_spec a b) as [->|N]; cbn [orb]; [|ring].
  destruct (isin b l) eqn:E; [apply isin_In in E; contradiction|ring].
Qed.

Lemma fed_dq gs q q' b : NoDup (map o_name gs) -> NoDup (pvs c) -> ~ In sb (pvs c) -> controlled gs ->
  total (fed (dq c n q q') b) gs == if String.eqb b sb || isin b (pvs c) then q' b - q b else 0.
Proof.
  intros ND NDp Ns ((g & Hg & Tg) & HP). unfold dq. rewrite Hg.
  rewrite (total_ext _ (fun o => fed (fun o => if String.eqb (o_name o) g then q' sb - q sb else 0) b o +
     total (fun b' => fed (fun o => if is_gen (gen_of n b') o then q' b' - q b' else 0) b o) (pvs c))).
  - rewrite total_plus, (fed_one gs g sb b) by assumption. rewrite total_swap.
    rewrite (total_ext _ (fun b' => at_bus b' b (q' b' - q b'))).
    + rewrite total_pick by exact NDp. unfold at_bus. rewrite (String.eqb_sym b sb).
      destruct (String.eqb_spec sb b) as [<-|N]; cbn [orb].
      * destruct (isin sb (pvs c)) eqn:E; [apply isin_In in E; contradiction|ring].
      * destruct (isin b (pvs c)); ring.
    + intros b' Hb'. destruct (HP b' Hb') as (g' & Hg' & Tg'). rewrite Hg'. cbn [is_gen].
      now rewrite (fed_one gs g' b' b).
  - intros o _. unfold fed. cbn [is_gen]. destruct (o_active o).
    + unfold at_bus. destruct (String.eqb (o_bus o) b).
      * rewrite sumq_total. rewrite total_scale. ring.
      * rewrite total_zero by reflexivity. ring.
    + rewrite total_zero by reflexivity. ring.
Qed.

Lemma map_dispatch_name gs : map o_name (map dispatch gs) = map o_name gs.
Proof. rewrite map_map. apply map_ext. intros o. unfold dispatch. destruct (o_active o); reflexivity. Qed.
Lemma can_take_dispatch gs g b : can_take gs g b -> can_take (map dispatch gs) g b.
Proof.
  intros (o & H1 & H2 & H3 & H4 & H5). exists (dispatch o). split; [now apply in_map|].
  unfold dispatch. rewrite H4. cbn. auto.
Qed.
Lemma controlled_dispatch gs : controlled gs -> controlled (map dispatch gs).
Proof.
  intros ((g & Hg & T) & HP). split.
  - exists g. split; auto. now apply can_take_dispatch.
  - intros b Hb. destruct (HP b Hb) as (g' & E & T'). exists g'. split; auto. now apply can_take_dispatch.
Qed.

Theorem pf_balanced sp sq t r :
  NoDup (map o_name (t_gens t)) -> NoDup (pvs c) -> ~ In sb (pvs c) -> controlled (t_gens t) ->
  pf_out c n sp sq t = inl r ->
  forall b, b <> "" -> inj_p (r_tabs r) b == r_p r b /\ inj_q (r_tabs r) b == r_q r b.
Proof.
  intros ND NDp Ns HC E b Hb. unfold pf_out in E.
  pose proof (controlled_dispatch _ HC) as HC'. destruct HC as ((g & Hg & Tg) & HP). rewrite Hg in E.
  injection E as <-. cbn [r_tabs r_p r_q]. split.
  - rewrite upd_p. cbn [t_gens set_points].
    rewrite (fed_one (map dispatch (t_gens t)) g sb b);
      [|now rewrite map_dispatch_name|now apply can_take_dispatch].
    rewrite <- nodal_p_inj by exact Hb. unfold at_bus. rewrite (String.eqb_sym b sb).
    destruct (String.eqb_spec sb b) as [<-|N]; [|ring]. rewrite String.eqb_refl. ring.
  - rewrite upd_q. cbn [t_gens set_points].
    rewrite (fed_dq (map dispatch (t_gens t))); auto; [|now rewrite map_dispatch_name].
    rewrite <- nodal_q_inj. unfold new_q. destruct (String.eqb b sb || isin b (pvs c)); ring.
Qed.

Theorem pf_solution sp sq t r tol : 0 <= tol ->
  pf_out c n sp sq t = inl r ->
  (forall b, In b (pvs c ++ pqs c) -> close tol (sp b) (set_p t b)) ->
  (forall b, In b (pqs c) -> close tol (sq b) (set_q t b)) ->
  forall b, In b (sb :: pvs c ++ pqs c) -> b <> "" ->
    close tol (sp b) (r_p r b) /\ close tol (sq b) (r_q r b) /\
    (b = sb -> r_p r b == sp b) /\ (b = sb \/ In b (pvs c) -> r_q r b == sq b).
Proof.
  intros Ht E HP HQ b Hb Nb. unfold pf_out in E. destruct (slack_generator (ctl_slack c)); [|discriminate].
  injection E as <-. cbn [r_p r_q].
  assert (Z : forall x, close tol x x).
  { intros x. unfold close. setoid_replace (x - x) with 0 by ring. exact Ht. }
  destruct (pf_injection t b Nb) as [Ep Eq0].
  assert (EP : close tol (sp b) (nodal_p (set_points t) b) <-> close tol (sp b) (set_p t b))
    by (unfold close; rewrite Ep; tauto).
  assert (EQ : close tol (sq b) (nodal_q (set_points t) b) <-> close tol (sq b) (set_q t b))
    by (unfold close; rewrite Eq0; tauto).
  unfold new_q. destruct (String.eqb_spec b sb) as [->|N]; cbn [orb].
  { repeat split; auto; reflexivity. }
  destruct Hb as [X|Hb]; [exfalso; apply N; now symmetry|].
  split; [now apply EP, HP|].
  destruct (isin b (pvs c)) eqn:I.
  - split; [apply Z|]. split; [congruence|]. reflexivity.
  - assert (NI : ~ In b (pvs c)) by (intros X; apply isin_In in X; congruence).
    apply in_app_iff in Hb. destruct Hb as [Hb|Hb]; [contradiction|].
    split; [now apply EQ, HQ|]. split; [congruence|]. intros [X|X]; [congruence|contradiction].
Qed.

(* nothing but the slack generator changes its active power, nothing but the controlling ones their
   reactive power *)
Theorem pf_others sp sq t r :
  pf_out c n sp sq t = inl r ->
  t_rest (r_tabs r) = map (map dispatch) (t_rest t) /\ t_links (r_tabs r) = t_links t /\
  Forall2 (fun o o' =>
    o_name o' = o_name o /\ o_bus o' = o_bus o /\ o_active o' = o_active o /\
    (slack_generator (ctl_slack c) <> Some (o_name o) -> o_p o' == o_p (dispatch o)) /\
    (slack_generator (ctl_slack c) <> Some (o_name o) ->
     (forall b, In b (pvs c) -> gen_of n b <> Some (o_name o)) -> o_q o' == o_q (dispatch o)))
    (t_gens t) (t_gens (r_tabs r)).
Proof.
  unfold pf_out. destruct (slack_generator (ctl_slack c)) as [g|] eqn:Hg; [|discriminate]. intros E.
  injection E as <-. cbn [r_tabs t_rest t_links t_gens upd_gens set_points].
  split; [reflexivity|]. split; [reflexivity|]. rewrite map_map.
  generalize (nodal_q (set_points t)). intros q.
  induction (t_gens t) as [|o l IH]; cbn [map]; constructor; auto.
  assert (Nm : o_name (dispatch o) = o_name o) by (unfold dispatch; destruct (o_active o); reflexivity).
  assert (Bs : o_bus (dispatch o) = o_bus o) by (unfold dispatch; destruct (o_active o); reflexivity).
  assert (Ac : o_active (dispatch o) = o_active o) by (unfold dispatch; destruct (o_active o) eqn:X; auto).
  unfold add_pq at 1 2 3 4 5. cbn [o_name o_bus o_active o_p o_q]. rewrite Nm, Bs, Ac.
  repeat split; auto.
  - intros N. destruct (String.eqb_spec (o_name o) g); [congruence|ring].
  - intros N NP. unfold dq. rewrite Hg. cbn [is_gen]. rewrite Nm.
    destruct (String.eqb_spec (o_name o) g); [congruence|]. rewrite sumq_total, total_zero; [ring|].
    intros b Hb. destruct (gen_of n b) as [g'|] eqn:G; [|reflexivity]. cbn [is_gen]. rewrite Nm.
    destruct (String.eqb_spec (o_name o) g'); [|reflexivity]. subst g'. exfalso. now apply (NP b Hb).
Qed.
End Pf.

(* ---------- linear power flow ---------- *)
Theorem lpf_balanced c t g rest :
  buses_o c = slack_bus (ctl_slack c) :: rest ->
  slack_generator (ctl_slack c) = Some g -> NoDup (map o_name (t_gens t)) ->
  can_take (t_gens t) g (slack_bus (ctl_slack c)) ->
  forall b, b <> "" -> inj_p_lin (r_tabs (lpf_out c t)) b == r_p (lpf_out c t) b.
Proof.
  intros EO Hg ND T b Hb. unfold lpf_out. rewrite EO, Hg. cbn [hd tl r_tabs r_p].
  set (sb := slack_bus (ctl_slack c)) in *.
  set (adj := - sumq (map (lpf_nodal (lpf_points t)) rest) - lpf_nodal (lpf_points t) sb).
  assert (U : forall dp dq t, inj_p_lin (upd_gens dp dq t) b == inj_p_lin t b + total (fed dp b) (t_gens t)).
  { intros dp dq' t'. unfold inj_p_lin. rewrite upd_p. cbn [t_shunts upd_gens]. ring. }
  rewrite U. cbn [t_gens lpf_points].
  rewrite (fed_one (map dispatch (t_gens t)) g sb b);
    [|now rewrite map_dispatch_name|now apply can_take_dispatch].
  rewrite <- lpf_nodal_inj by exact Hb. unfold at_bus. rewrite (String.eqb_sym b sb).
  destruct (String.eqb_spec sb b) as [E|N]; ring.
Qed.

Theorem lpf_totals c t rest :
  buses_o c = slack_bus (ctl_slack c) :: rest -> NoDup (buses_o c) -> ~ In "" (buses_o c) ->
  total (r_p (lpf_out c t)) (buses_o c) == 0 /\
  forall b, In b rest -> r_p (lpf_out c t) b == set_p_lin t b.
Proof.
  intros EO ND NE. unfold lpf_out. rewrite EO in *. cbn [hd tl r_p].
  set (sb := slack_bus (ctl_slack c)) in *. inversion ND as [|? ? NI ND']; subst.
  split.
  - rewrite total_cons, String.eqb_refl, sumq_total.
    rewrite (total_ext (fun b => if String.eqb b sb then _ else _) (lpf_nodal (lpf_points t)) rest).
    + ring.
    + intros b Hb. destruct (String.eqb_spec b sb); [subst; contradiction|reflexivity].
  - intros b Hb. destruct (String.eqb_spec b sb); [subst; contradiction|].
    apply lpf_injection. intros ->. apply NE. now right.
Qed.

(* ---------- the controls found by find_bus_controls satisfy the conditions ---------- *)
Lemma Forall2_in_r {A B} (P : A -> B -> Prop) l r y : Forall2 P l r -> In y r -> exists x, In x l /\ P x y.
Proof.
  induction 1 as [|a b l r H F IH]; intros I; [destruct I|]. destruct I as [<-|I].
  - exists a. split; [now left|auto].
  - destruct (IH I) as (x & Hx & Px). exists x. split; [now right|auto].
Qed.

Definition gens_match (s : string) (n0 : cnet) (gs : list one) : Prop :=
  map (fun o => (o_name o, o_bus o)) gs = map (fun g => (gname g, gbus g)) (sub_gens s n0).

Lemma match_take s n0 gs g : gens_match s n0 gs -> (forall o, In o gs -> plain o) ->
  gen_in s n0 g -> can_take gs (gname g) (gbus g).
Proof.
  intros M P (Hg & bx & Hb & Hn & Hs).
  assert (I : In (gname g, gbus g) (map (fun o => (o_name o, o_bus o)) gs)).
  { rewrite M. apply in_map_iff. exists g. split; auto. unfold sub_gens. apply filter_In. split; auto.
    apply isin_In. unfold buses_i, sub_buses. rewrite <- Hn. apply in_map, filter_In. split; auto.
    now apply String.eqb_eq. }
  apply in_map_iff in I. destruct I as (o & E & Ho). injection E as E1 E2.
  destruct (P o Ho) as [Pa Ps]. exists o. auto.
Qed.

Lemma find_named (l : list bus) x : NoDup (map bname l) -> In x l ->
  find (fun y => String.eqb (bname y) (bname x)) l = Some x.
Proof.
  induction l as [|a l IH]; intros ND I; [destruct I|]. cbn [map] in ND. inversion ND as [|? ? NI ND']; subst.
  cbn [find]. destruct I as [<-|I]; [now rewrite String.eqb_refl|].
  destruct (String.eqb_spec (bname a) (bname x)) as [E|E]; [|auto].
  exfalso. apply NI. rewrite E. now apply in_map.
Qed.

Lemma buses_o_shape s n0 n c : find_bus_controls s n0 = inl (n, c) ->
  buses_o c = slack_bus (ctl_slack c) :: pvs c ++ pqs c.
Proof.
  unfold find_bus_controls. destruct (find_slack_bus s n0) as [[n1 sl]|]; [|discriminate].
  intros E. injection E as _ <-. reflexivity.
Qed.

Theorem controls_ok s n0 n c gs :
  NoDup (map gname (gens n0)) -> NoDup (map bname (buses n0)) -> find_bus_controls s n0 = inl (n, c) ->
  gs <> [] -> gens_match s n0 gs -> (forall o, In o gs -> plain o) ->
  NoDup (map o_name gs) /\ NoDup (buses_o c) /\ NoDup (pvs c) /\ ~ In (slack_bus (ctl_slack c)) (pvs c) /\
  controlled c n gs.
Proof.
  intros NDg NDb E NE M P.
  pose proof (buses_o_shape _ _ _ _ E) as SH.
  pose proof (controls_gens s n0 n c NDg NDb E) as G.
  pose proof (controls_buses s n0 n c NDb E) as FB.
  destruct (controls_partition s n0 n c NDb E) as (PM & HV & _).
  assert (NDo : NoDup (buses_o c)).
  { apply (Permutation_NoDup (Permutation_sym PM)). unfold buses_i, sub_buses.
    clear - NDb. induction (buses n0) as [|a l IH]; [constructor|]. cbn [map] in NDb. inversion NDb; subst.
    cbn [filter]. destruct (String.eqb (bsub a) s); auto. cbn [map]. constructor; auto.
    intros X. apply in_map_iff in X. destruct X as (y & Ey & Hy). apply filter_In in Hy. destruct Hy as [Hy _].
    apply H1. rewrite <- Ey. now apply in_map. }
  assert (NDn : NoDup (map o_name gs)).
  { assert (X : map o_name gs = map gname (sub_gens s n0)).
    { unfold gens_match in M. apply (f_equal (map fst)) in M. rewrite !map_map in M. exact M. }
    rewrite X. unfold sub_gens. clear - NDg. induction (gens n0) as [|a l IH]; [constructor|].
    cbn [map] in NDg. inversion NDg; subst. cbn [filter].
    destruct (isin (gbus a) (buses_i s n0)); auto. cbn [map]. constructor; auto.
    intros X. apply in_map_iff in X. destruct X as (y & Ey & Hy). apply filter_In in Hy. destruct Hy as [Hy _].
    apply H1. rewrite <- Ey. now apply in_map. }
  assert (NDp : NoDup (pvs c) /\ ~ In (slack_bus (ctl_slack c)) (pvs c)).
  { rewrite SH in NDo. inversion NDo as [|? ? NI ND']; subst. split.
    - clear - ND'. induction (pvs c) as [|a l IH]; [constructor|]. cbn [app] in ND'. inversion ND' as [|? ? N1 N2]; subst.
      constructor; auto. intros X. apply N1. apply in_app_iff. now left.
    - intros X. apply NI. apply in_app_iff. now left. }
  destruct NDp as [NDp NS]. repeat (split; [assumption|]).
  assert (NDb' : NoDup (map bname (buses n))).
  { assert (X : map bname (buses n) = map bname (buses n0)).
    { clear - FB. induction FB as [|a b l r H F IH]; [reflexivity|]. cbn [map]. rewrite IH.
      destruct H as [-> _]. reflexivity. }
    now rewrite X. }
  destruct G as [(NG & _)|(g & (Hin & _) & Hsg & Hsb & FG)].
  { exfalso. unfold gens_match in M. destruct (sub_gens s n0) as [|g l] eqn:SG.
    - destruct gs; [congruence|discriminate].
    - assert (I : In g (sub_gens s n0)) by (rewrite SG; now left). unfold sub_gens in I. apply filter_In in I.
      destruct I as [I1 I2]. apply isin_In in I2. unfold buses_i, sub_buses in I2. apply in_map_iff in I2.
      destruct I2 as (x & Ex & Hx). apply filter_In in Hx. destruct Hx as [Hx Hs]. apply String.eqb_eq in Hs.
      apply (NG g). split; auto. exists x. auto. }
  split.
  - exists (gname g). split; auto. rewrite Hsb. now apply (match_take s n0).
  - intros b Hb. apply HV in Hb. destruct Hb as (x & Hx & Hs & Hn & Hc).
    destruct (Forall2_in_r _ _ _ _ FB Hx) as (x0 & Hx0 & A1 & A2 & A3 & A4 & A5 & A6).
    assert (Hs0 : bsub x0 = s) by congruence.
    destruct (String.eqb_spec (bname x0) (slack_bus (ctl_slack c))) as [X|X].
    { rewrite (A4 Hs0 X) in Hc. discriminate. }
    destruct (existsb (fun h => String.eqb (gbus h) (bname x0) && String.eqb (gctrl h) "PV") (gens n)) eqn:EX.
    + apply existsb_exists in EX. destruct EX as (h & Hh & Eh). apply andb_true_iff in Eh.
      destruct Eh as [E1 E2]. apply String.eqb_eq in E1, E2.
      destruct (A5 Hs0 X (ex_intro _ h (conj Hh (conj E1 E2)))) as (_ & h' & Hh' & B1 & B2 & B3).
      exists (gname h'). split.
      * unfold gen_of. rewrite <- Hn. rewrite (find_named (buses n) x NDb' Hx). exact B3.
      * destruct (Forall2_in_r _ _ _ _ FG Hh') as (h0 & Hh0 & D1 & D2 & _).
        rewrite D1. replace b with (gbus h0) by congruence. apply (match_take s n0); auto.
        split; auto. exists x0. split; auto. split; [congruence|auto].
    + exfalso. rewrite (proj1 (A6 Hs0 X ltac:(
        intros (h & Hh & B1 & B2);
        assert (existsb (fun h => String.eqb (gbus h) (bname x0) && String.eqb (gctrl h) "PV") (gens n) = true)
          by (apply existsb_exists; exists h; split; auto; rewrite B1, B2, String.eqb_refl; reflexivity);
        congruence))) in Hc. discriminate.
Qed.

(* ---------- a single bus ---------- *)
Lemma all_opt_spec {A} (l : list (option A)) r : all_opt l = Some r -> l = map Some r.
Proof.
  revert r. induction l as [|o l IH]; intros r; cbn [all_opt fold_right].
  - intros E. injection E as <-. reflexivity.
  - fold (all_opt l). destruct o as [a|]; [|discriminate]. destruct (all_opt l) as [r'|]; [|discriminate].
    intros E. injection E as <-. cbn [map]. now rewrite (IH r' eq_refl).
Qed.
Lemma all_opt_in {A} (l : list (option A)) r o : all_opt l = Some r -> In o l -> exists a, o = Some a.
Proof.
  intros E I. rewrite (all_opt_spec l r E) in I. apply in_map_iff in I. destruct I as (a & <- & _). now exists a.
Qed.

Lemma all_opt_ok {A B} (f : A -> option B) l r x : all_opt (map f l) = Some r -> In x l -> exists y, f x = Some y.
Proof. intros E I. apply (all_opt_in _ _ _ E). now apply in_map. Qed.

(* ---------- sharing power among the generators of a bus ---------- *)
Definition share_of (S x : Q) : Q := if Qeq_bool S 0 then 0 else x / S.

Global Instance share_of_wd : Proper (Qeq ==> Qeq ==> Qeq) share_of.
Proof.
  intros x x' Ex y y' Ey. unfold share_of. rewrite <- Ex. destruct (Qeq_bool x 0); [reflexivity|].
  now rewrite Ex, Ey.
Qed.
Lemma assoc_at (group : list one) (sw : one -> Q) S o :
  NoDup (map o_name group) -> In o group ->
  assoc_share group (map (normed S) (map sw group)) o = normed S (sw o).
Proof.
  induction group as [|g group IH]; intros ND I; [destruct I|]. cbn [map] in ND. inversion ND as [|? ? NI ND']; subst.
  cbn [map assoc_share]. destruct I as [<-|I]; [now rewrite String.eqb_refl|].
  destruct (String.eqb_spec (o_name g) (o_name o)) as [E|E]; [|auto].
  exfalso. apply NI. rewrite E. now apply in_map.
Qed.
Lemma assoc_off (group : list one) l o : ~ In (o_name o) (map o_name group) -> assoc_share group l o = Some 0.
Proof.
  revert l. induction group as [|g group IH]; intros l NI; [reflexivity|]. destruct l as [|x l]; [reflexivity|].
  cbn [assoc_share map] in *. destruct (String.eqb_spec (o_name g) (o_name o)) as [E|E]; [exfalso; apply NI; now left|].
  apply IH. intros X. apply NI. now right.
Qed.
Lemma normed_share S x y : normed S x = Some y -> y == share_of S x /\ (S == 0 -> x == 0).
Proof.
  unfold normed, share_of. destruct (Qeq_bool S 0) eqn:Z.
  - destruct (Qeq_bool x 0) eqn:X; [|discriminate]. intros E. injection E as <-. split; [reflexivity|].
    intros _. now apply Qeq_bool_eq.
  - intros E. injection E as <-. split; [reflexivity|]. intros H. apply Qeq_bool_neq in Z. contradiction.
Qed.

Definition at_b (b : string) (o : one) : bool := String.eqb (o_bus o) b.
Lemma names_filter (f : one -> bool) gs : NoDup (map o_name gs) -> NoDup (map o_name (filter f gs)).
Proof.
  induction gs as [|g gs IH]; intros ND; [constructor|]. cbn [map] in ND. inversion ND as [|? ? NI ND']; subst.
  cbn [filter]. destruct (f g); [|auto]. cbn [map]. constructor; auto.
  intros X. apply in_map_iff in X. destruct X as (y & Ey & Hy). apply filter_In in Hy. destruct Hy as [Hy _].
  apply NI. rewrite <- Ey. now apply in_map.
Qed.
Lemma same_name gs o o' : NoDup (map o_name gs) -> In o gs -> In o' gs -> o_name o = o_name o' -> o = o'.
Proof.
  induction gs as [|g gs IH]; intros ND I I' E; [destruct I|]. cbn [map] in ND. inversion ND as [|? ? NI ND']; subst.
  destruct I as [<-|I], I' as [<-|I']; auto.
  - exfalso. apply NI. rewrite E. now apply in_map.
  - exfalso. apply NI. rewrite <- E. now apply in_map.
Qed.
Lemma off_group gs b o : NoDup (map o_name gs) -> In o gs -> o_bus o <> b ->
  ~ In (o_name o) (map o_name (filter (at_b b) gs)).
Proof.
  intros ND I N X. apply in_map_iff in X. destruct X as (y & Ey & Hy). apply filter_In in Hy. destruct Hy as [Hy Hb].
  apply String.eqb_eq in Hb. assert (y = o) by (apply (same_name gs); auto). subst. contradiction.
Qed.

(* the weights by which one bus shares its power *)
Definition sw (c : controls) (k : weighting) (gs : list one) (o : one) : Q :=
  match k with
  | PSet => o_pset o
  | Custom _ w => match custom_kind c gs w with
                  | inl true => match lookup w (o_name o) with Some x => x | None => 0 end
                  | _ => o_pnom o
                  end
  | _ => o_pnom o
  end.
Lemma lookups w (group : list one) r : all_opt (map (fun o => lookup w (o_name o)) group) = Some r ->
  r = map (fun o => match lookup w (o_name o) with Some x => x | None => 0 end) group.
Proof.
  revert r. induction group as [|g group IH]; intros r E.
  - cbn [map all_opt fold_right] in E. injection E as <-. reflexivity.
  - cbn [map all_opt fold_right] in E. fold (all_opt (map (fun o => lookup w (o_name o)) group)) in E.
    destruct (lookup w (o_name g)) as [x|] eqn:L; [|discriminate]. destruct (all_opt _) as [r'|] eqn:E'; [|discriminate].
    injection E as <-. cbn [map]. rewrite L. f_equal. now apply IH.
Qed.
Lemma shares_are c k gs group l : shares c k gs group = inl l ->
  l = map (normed (sumq (map (sw c k gs) group))) (map (sw c k gs) group).
Proof.
  unfold shares. cbv zeta.
  assert (P : forall l, (if negb (forallb (fun o => negb (Qeq_bool (o_pnom o) 0)) group) then inr AttributeError
     else inl (map (normed (sumq (map o_pnom group))) (map o_pnom group))) = inl l ->
     l = map (normed (sumq (map o_pnom group))) (map o_pnom group)).
  { intros l'. destruct (negb _); [discriminate|]. intros E. now injection E as <-. }
  destruct k as [| | |nm w]; try exact (P l).
  - intros E. injection E as <-. reflexivity.
  - unfold sw. destruct (custom_kind c gs w) as [[|]|e]; try exact (P l).
    destruct (all_opt _) as [r|] eqn:E; [|discriminate]. intros X. injection X as <-.
    rewrite (lookups w group r E). reflexivity.
Qed.

Section Share.
Variables (c : controls) (k : weighting) (gs : list one) (delta : string -> Q).
Hypothesis ND : NoDup (map o_name gs).
Let W b := sumq (map (sw c k gs) (filter (at_b b) gs)).

Lemma step_at b d o : slack_step c k delta gs b = inl d -> In o gs ->
  d o == (if String.eqb (o_bus o) b then share_of (W b) (sw c k gs o) * delta b else 0) /\
  (o_bus o = b -> W b == 0 -> sw c k gs o == 0).
Proof.
  unfold slack_step. fold (at_b b). change (fun o => String.eqb (o_bus o) b) with (at_b b).
  destruct (shares c k gs (filter (at_b b) gs)) as [l|] eqn:SH; [|discriminate].
  destruct (all_opt l) as [r|] eqn:A; [|discriminate]. intros E I. injection E as <-.
  pose proof (shares_are _ _ _ _ _ SH) as L. fold (W b) in L.
  destruct (String.eqb_spec (o_bus o) b) as [Eb|Nb].
  - assert (IG : In o (filter (at_b b) gs)) by (apply filter_In; split; auto; now apply String.eqb_eq).
    rewrite L, (assoc_at _ (sw c k gs)); auto; [|now apply names_filter].
    assert (N : exists y, normed (W b) (sw c k gs o) = Some y).
    { apply (all_opt_in _ _ _ A). rewrite L, map_map. apply in_map_iff. exists o. auto. }
    destruct N as (y & Ny). rewrite Ny. destruct (normed_share _ _ _ Ny) as [Y1 Y2]. rewrite Y1. split; [reflexivity|auto].
  - rewrite assoc_off by (now apply off_group). split; [ring|]. intros; contradiction.
Qed.

Lemma loop_at bs d o : NoDup bs -> slack_loop c k delta gs bs = inl d -> In o gs -> 
  d o == (if isin (o_bus o) bs then share_of (W (o_bus o)) (sw c k gs o) * delta (o_bus o) else 0) /\
  (In (o_bus o) bs -> W (o_bus o) == 0 -> sw c k gs o == 0).
Proof.
  revert d. induction bs as [|b bs IH]; intros d NB E I.
  - cbn [slack_loop] in E. injection E as <-. split; [reflexivity|]. intros [].
  - inversion NB as [|? ? NI NB']; subst. cbn [slack_loop] in E.
    destruct (slack_step c k delta gs b) as [d1|] eqn:E1; [|discriminate].
    destruct (slack_loop c k delta gs bs) as [d2|] eqn:E2; [|discriminate]. injection E as <-.
    destruct (step_at b d1 o E1 I) as [H1 H1']. destruct (IH d2 NB' eq_refl I) as [H2 H2'].
    rewrite H1, H2. cbn [isin existsb]. fold (isin (o_bus o) bs). split.
    + destruct (String.eqb_spec (o_bus o) b) as [Eb|Nb]; cbn [orb].
      * rewrite Eb. destruct (isin b bs) eqn:X; [apply isin_In in X; contradiction|ring].
      * ring.
    + intros [Eb|X]; [|now apply H2']. rewrite <- Eb. now apply H1'.
Qed.

Lemma dedup_spec l : NoDup (dedup l) /\ forall x, In x (dedup l) <-> In x l.
Proof.
  induction l as [|a l [IH1 IH2]]; [split; [constructor|reflexivity]|]. cbn [dedup].
  destruct (isin a l) eqn:E.
  - split; auto. intros x. rewrite IH2. split; [now right|]. intros [<-|H]; auto. now apply isin_In.
  - split.
    + constructor; auto. rewrite IH2. intros X. apply isin_In in X. congruence.
    + intros x. cbn [In]. rewrite IH2. reflexivity.
Qed.

Lemma loop_all d o : slack_loop c k delta gs (dedup (map o_bus gs)) = inl d -> In o gs ->
  d o == share_of (W (o_bus o)) (sw c k gs o) * delta (o_bus o) /\ (W (o_bus o) == 0 -> sw c k gs o == 0).
Proof.
  intros E I. destruct (dedup_spec (map o_bus gs)) as [D1 D2].
  assert (Ib : In (o_bus o) (dedup (map o_bus gs))) by (apply D2, in_map; auto).
  destruct (loop_at _ _ _ D1 E I) as [H1 H2]. split; [|auto].
  rewrite H1. apply isin_In in Ib. now rewrite Ib.
Qed.

Lemma loop_fed d b : slack_loop c k delta gs (dedup (map o_bus gs)) = inl d -> (forall o, In o gs -> plain o) ->
  total (fed d b) gs == if Qeq_bool (W b) 0 then 0 else delta b.
Proof.
  intros E P.
  rewrite (total_ext _ (fun o => (if at_b b o then sw c k gs o else 0) * (share_of (W b) 1 * delta b))).
  - rewrite (total_ext _ (fun o => (share_of (W b) 1 * delta b) * (if at_b b o then sw c k gs o else 0))) by (intros; ring).
    rewrite total_scale, <- total_filter, <- sumq_total. fold (W b).
    unfold share_of. destruct (Qeq_bool (W b) 0) eqn:Z; [ring|]. apply Qeq_bool_neq in Z. field. exact Z.
  - intros o I. destruct (P o I) as [Pa Ps]. unfold fed, at_bus. rewrite Pa. unfold at_b.
    destruct (String.eqb_spec (o_bus o) b) as [Eb|Nb]; [|ring].
    rewrite Ps, (proj1 (loop_all d o E I)), Eb. unfold share_of. destruct (Qeq_bool (W b) 0) eqn:Z; [ring|].
    apply Qeq_bool_neq in Z. field. exact Z.
Qed.
End Share.

Lemma loop_ok c k delta gs bs d b : slack_loop c k delta gs bs = inl d -> In b bs ->
  exists d', slack_step c k delta gs b = inl d'.
Proof.
  revert d. induction bs as [|a bs IH]; intros d E I; [destruct I|]. cbn [slack_loop] in E.
  destruct (slack_step c k delta gs a) as [d1|] eqn:E1; [|discriminate].
  destruct (slack_loop c k delta gs bs) as [d2|] eqn:E2; [|discriminate].
  destruct I as [<-|I]; [eauto|eauto].
Qed.

Definition uses_pnom (c : controls) (k : weighting) (gs : list one) : bool :=
  match k with
  | PSet => false
  | Custom _ w => match custom_kind c gs w with inl true => false | _ => true end
  | _ => true
  end.
Lemma pnom_nonzero c k delta gs d o : slack_loop c k delta gs (dedup (map o_bus gs)) = inl d ->
  uses_pnom c k gs = true -> In o gs -> ~ o_pnom o == 0.
Proof.
  intros E U I. destruct (dedup_spec (map o_bus gs)) as [D1 D2].
  destruct (loop_ok _ _ _ _ _ _ (o_bus o) E) as (d' & E'); [apply D2; now apply in_map|].
  unfold slack_step in E'. destruct (shares c k gs _) as [l|] eqn:SH; [|discriminate]. clear E'.
  assert (X : forallb (fun o => negb (Qeq_bool (o_pnom o) 0)) (filter (at_b (o_bus o)) gs) = true).
  { unfold shares in SH. cbv zeta in SH. change (fun x => String.eqb (o_bus x) (o_bus o)) with (at_b (o_bus o)) in SH.
    destruct (forallb (fun o => negb (Qeq_bool (o_pnom o) 0)) (filter (at_b (o_bus o)) gs)); [reflexivity|].
    cbn [negb] in SH. destruct k as [| | |nm w]; try discriminate. unfold uses_pnom in U.
    destruct (custom_kind c gs w) as [[|]|]; discriminate. }
  rewrite forallb_forall in X. specialize (X o). intros Z. apply Qeq_bool_iff in Z. rewrite Z in X.
  discriminate X. apply filter_In. split; auto. unfold at_b. apply String.eqb_refl.
Qed.

Lemma total_named (gs : list one) o0 (F : one -> Q) : NoDup (map o_name gs) -> In o0 gs ->
  total (fun o => if String.eqb (o_name o0) (o_name o) then F o else 0) gs == F o0.
Proof.
  induction gs as [|g gs IH]; intros ND I; [destruct I|]. cbn [map] in ND. inversion ND as [|? ? NI ND']; subst.
  rewrite total_cons. destruct I as [->|I].
  - rewrite String.eqb_refl. rewrite total_zero; [ring|]. intros o Ho.
    destruct (String.eqb_spec (o_name o0) (o_name o)) as [E|E]; [|reflexivity].
    exfalso. apply NI. rewrite E. now apply in_map.
  - rewrite IH by auto. destruct (String.eqb_spec (o_name o0) (o_name g)) as [E|E]; [|ring].
    exfalso. apply NI. rewrite <- E. now apply in_map.
Qed.

Lemma lookup_total (w : list (string * Q)) x : NoDup (map fst w) ->
  match lookup w x with Some y => y | None => 0 end == total (fun e => if String.eqb (fst e) x then snd e else 0) w.
Proof.
  unfold lookup. induction w as [|e w IH]; intros ND; [reflexivity|]. cbn [map] in ND. inversion ND as [|? ? NI ND']; subst.
  rewrite total_cons. cbn [find]. destruct (String.eqb_spec (fst e) x) as [E|E].
  - cbn [option_map]. rewrite total_zero; [ring|]. intros e' He'.
    destruct (String.eqb_spec (fst e') x) as [E'|E']; [|reflexivity].
    exfalso. apply NI. rewrite E, <- E'. now apply in_map.
  - rewrite IH by exact ND'. ring.
Qed.

Lemma at_b_dispatch b o : at_b b (dispatch o) = at_b b o.
Proof. unfold at_b, dispatch. destruct (o_active o); reflexivity. Qed.
Lemma dispatch_fields o : o_name (dispatch o) = o_name o /\ o_bus (dispatch o) = o_bus o /\
  o_pset (dispatch o) = o_pset o /\ o_pnom (dispatch o) = o_pnom o /\ o_popt (dispatch o) = o_popt o /\
  o_active (dispatch o) = o_active o /\ o_sign (dispatch o) = o_sign o.
Proof. unfold dispatch. destruct (o_active o) eqn:E; cbn; rewrite ?E; auto 10. Qed.
Lemma sw_dispatch c k gs o : sw c k gs (dispatch o) = sw c k gs o.
Proof. unfold sw. destruct (dispatch_fields o) as (-> & _ & -> & -> & _). reflexivity. Qed.

Section Dist.
Variables (c : controls) (k : weighting) (all gs0 : list one).
Hypothesis NDa : NoDup (map o_name all).
Hypothesis OWN : own_gens (buses_o c) all gs0.
Let gs := map dispatch gs0.
Let W b := sumq (map (sw c k gs) (filter (at_b b) gs)).

Lemma own_names : NoDup (map o_name gs0).
Proof. unfold own_gens in OWN. rewrite OWN. now apply names_filter. Qed.
Lemma own_in o : In o gs0 -> In o all /\ In (o_bus o) (buses_o c).
Proof.
  unfold own_gens in OWN. rewrite OWN. intros I. apply filter_In in I. destruct I as [I1 I2]. split; auto.
  destruct (in_dec string_dec (o_bus o) (buses_o c)); [auto|discriminate].
Qed.

Lemma W_total b : W b == total (fun o => if at_b b o then sw c k gs o else 0) gs0.
Proof.
  unfold W. rewrite sumq_total, total_filter. unfold gs at 2. rewrite total_map. apply total_ext. intros o _.
  rewrite at_b_dispatch, sw_dispatch. reflexivity.
Qed.

Lemma field_total (f : one -> Q) b : In b (buses_o c) ->
  sumq (map f (filter (at_b b) all)) == total (fun o => if at_b b o then f o else 0) gs0.
Proof.
  intros Hb. rewrite sumq_total, total_filter. unfold own_gens in OWN. rewrite OWN, total_filter.
  apply total_ext. intros o _. unfold at_b. destruct (String.eqb_spec (o_bus o) b) as [->|N].
  - destruct (in_dec string_dec b (buses_o c)); [reflexivity|contradiction].
  - destruct (in_dec string_dec (o_bus o) (buses_o c)); reflexivity.
Qed.

Lemma bus_of_own o : In o gs0 -> bus_of all (o_name o) = Some (o_bus o).
Proof.
  intros I. apply own_in in I. destruct I as [I _]. unfold bus_of.
  assert (F : find (fun x => String.eqb (o_name x) (o_name o)) all = Some o).
  { clear - NDa I. induction all as [|a l IH]; [destruct I|]. cbn [map] in NDa. inversion NDa as [|? ? NI ND']; subst.
    cbn [find]. destruct I as [->|I]; [now rewrite String.eqb_refl|].
    destruct (String.eqb_spec (o_name a) (o_name o)) as [E|E]; [|auto].
    exfalso. apply NI. rewrite E. now apply in_map. }
  now rewrite F.
Qed.

Lemma custom_gens w : custom_kind c gs w = inl true -> forall e, In e w -> exists o, In o gs0 /\ o_name o = fst e.
Proof.
  unfold custom_kind. destruct (forallb (fun e => isin (fst e) (map o_name gs)) w) eqn:E;
    [|destruct (forallb (fun e => isin (fst e) (buses_o c)) w); intros X; discriminate X].
  intros _ e He. rewrite forallb_forall in E. specialize (E e He). apply isin_In in E.
  unfold gs in E. rewrite map_dispatch_name in E. apply in_map_iff in E. destruct E as (o & H1 & H2). eauto.
Qed.

Lemma raw_is_W raw b : raw_weights c k all gs = inl raw -> In b (buses_o c) ->
  (k = PSet \/ k = PNom \/ exists nm w, k = Custom nm w /\ NoDup (map fst w) /\ custom_kind c gs w = inl true) ->
  raw b == W b.
Proof.
  intros R Hb K. rewrite W_total. clear W. destruct K as [EK|[EK|(nm & w & EK & NDw & CK)]]; rewrite EK in R |- *.
  - cbn [raw_weights] in R. injection R as <-. cbn [sw]. now apply (field_total o_pset).
  - cbn [raw_weights] in R. destruct (forallb _ all); [discriminate|]. injection R as <-.
    cbn [sw]. now apply (field_total o_pnom).
  - cbn [raw_weights] in R. rewrite CK in R. destruct nm; [|discriminate]. injection R as <-.
    rewrite sumq_total, total_filter.
    rewrite (total_ext (fun o => if at_b b o then sw c (Custom (Some s) w) gs o else 0)
       (fun o => total (fun e => if String.eqb (fst e) (o_name o) then (if at_b b o then snd e else 0) else 0) w)).
    + rewrite total_swap. apply total_ext. intros e He. destruct (custom_gens w CK e He) as (o & Ho & En).
      rewrite <- En. rewrite (total_named gs0 o (fun o => if at_b b o then snd e else 0) own_names Ho).
      rewrite (bus_of_own o Ho). unfold at_b. reflexivity.
    + intros o _. cbn [sw]. rewrite CK. destruct (at_b b o).
      * now apply lookup_total.
      * rewrite total_zero; [reflexivity|]. intros e _. destruct (String.eqb (fst e) (o_name o)); reflexivity.
Qed.

Lemma total_W (l : list string) (F : one -> Q) : NoDup l -> (forall o, In o gs0 -> In (o_bus o) l) ->
  total (fun b => total (fun o => if at_b b o then F o else 0) gs0) l == total F gs0.
Proof.
  intros NDl H. rewrite total_swap. apply total_ext. intros o Ho.
  rewrite (total_ext _ (fun b => at_bus b (o_bus o) (F o))).
  - rewrite total_pick by exact NDl. specialize (H o Ho). apply isin_In in H. now rewrite H.
  - intros b _. unfold at_b, at_bus. rewrite String.eqb_sym. reflexivity.
Qed.
End Dist.

Global Instance close_wd : Proper (Qeq ==> Qeq ==> Qeq ==> iff) close.
Proof. intros t t' Et x x' Ex y y' Ey. unfold close. rewrite Et, Ex, Ey. reflexivity. Qed.
Lemma close_refl tol x : 0 <= tol -> forall y, x == y -> close tol x y.
Proof.
  intros H y E. unfold close. setoid_replace (x - y) with 0 by (rewrite E; ring). exact H.
Qed.

Lemma wts_share c raw b ws : all_opt (map (bus_weight c raw) (buses_o c)) = Some ws -> In b (buses_o c) ->
  match bus_weight c raw b with Some x => x | None => 0 end == share_of (sumq (map raw (buses_o c))) (raw b).
Proof.
  intros A Hb. destruct (all_opt_ok _ _ _ _ A Hb) as (y & Hy). rewrite Hy. now apply (normed_share _ _ _ Hy).
Qed.
Lemma share_zero T x : x == 0 -> share_of T x == 0.
Proof.
  intros E. unfold share_of. destruct (Qeq_bool T 0) eqn:Z; [reflexivity|]. apply Qeq_bool_neq in Z.
  rewrite E. field. exact Z.
Qed.

Theorem dist_balanced c n k all solve t0 r tol :
  0 <= tol -> NoDup (map o_name all) -> own_gens (buses_o c) all (t_gens t0) ->
  (forall o, In o (t_gens t0) -> plain o) -> weights_ok k (t_gens t0) ->
  NoDup (pvs c) -> ~ In (slack_bus (ctl_slack c)) (pvs c) -> controlled c n (t_gens t0) ->
  (forall w, exists G, forall b, In b (buses_o c) -> close tol (fst (solve w) b) (set_p t0 b - w b * G)) ->
  pf_out_dist c n k all solve t0 = inl r ->
  forall b, In b (buses_o c) -> b <> "" ->
    close tol (inj_p (r_tabs r) b) (r_p r b) /\ inj_q (r_tabs r) b == r_q r b.
Proof.
  intros Ht NDa OWN P KO NDp Ns HC SOL E b Hb Nb. unfold pf_out_dist in E. cbv zeta in E.
  set (t := set_points t0) in *.
  assert (TG : t_gens t = map dispatch (t_gens t0)) by reflexivity.
  set (gs := t_gens t) in *.
  destruct (raw_weights c k all gs) as [raw|] eqn:R; [|discriminate].
  destruct (all_opt (map (bus_weight c raw) (buses_o c))) as [ws|] eqn:AW; [|discriminate].
  specialize (SOL (fun b => match bus_weight c raw b with Some x => x | None => 0 end)).
  destruct SOL as (G & SOL). destruct (solve _) as [sp sq]. cbn [fst] in SOL.
  destruct (slack_loop _ _ _ _ _) as [d|] eqn:L; [|discriminate].
  destruct (slack_generator (ctl_slack c)) as [g|] eqn:SG; [|discriminate]. injection E as <-.
  cbn [r_tabs r_p r_q].
  assert (NDg : NoDup (map o_name gs)) by (rewrite TG, map_dispatch_name; now apply (own_names c all)).
  assert (Pg : forall o, In o gs -> plain o).
  { intros o I. rewrite TG in I. apply in_map_iff in I. destruct I as (o0 & <- & I0).
    destruct (P o0 I0) as [Pa Ps]. destruct (dispatch_fields o0) as (_ & _ & _ & _ & _ & Ea & Es).
    split; [congruence|rewrite Es; exact Ps]. }
  split.
  - rewrite upd_p. fold gs. rewrite (loop_fed c k gs _ NDg d b L Pg).
    rewrite <- nodal_p_inj by exact Nb. fold t.
    assert (Hb' : isin b (buses_o c) = true) by now apply isin_In. rewrite Hb'.
    set (W := sumq (map (sw c k gs) (filter (at_b b) gs))).
    destruct (Qeq_bool W 0) eqn:Z; [|apply close_refl; [exact Ht|ring]].
    apply Qeq_bool_eq in Z.
    assert (RZ : raw b == 0).
    { destruct (uses_pnom c k gs) eqn:U.
      - (* no generators at b *)
        assert (NG : forall o, In o gs -> at_b b o = false).
        { intros o I. destruct (at_b b o) eqn:X; [|reflexivity]. exfalso. unfold at_b in X. apply String.eqb_eq in X.
          apply (pnom_nonzero _ _ _ _ _ o L U I). 
          destruct (loop_all c k gs _ NDg d o L I) as [_ H]. rewrite X in H. specialize (H Z).
          revert H. unfold sw. destruct k as [| | |nm w]; auto; [discriminate U|]. unfold uses_pnom in U.
          destruct (custom_kind c gs w) as [[|]|]; auto. discriminate U. }
        assert (NG0 : forall o, In o (t_gens t0) -> at_b b o = false).
        { intros o I. rewrite <- at_b_dispatch. apply NG. rewrite TG. now apply in_map. }
        assert (FZ : forall f, sumq (map f (filter (at_b b) all)) == 0).
        { intros f. rewrite (field_total c all (t_gens t0) OWN f b Hb). apply total_zero. intros o I.
          now rewrite (NG0 o I). }
        destruct k as [| | |nm w]; cbn [raw_weights] in R.
        + injection R as <-. apply FZ.
        + destruct (forallb _ all); [discriminate|]. injection R as <-. apply FZ.
        + destruct (forallb _ all); [discriminate|]. injection R as <-. apply FZ.
        + destruct KO as [NDw KO]. unfold uses_pnom in U. destruct (custom_kind c gs w) as [[|]|] eqn:CK; [discriminate| |discriminate].
          injection R as <-. rewrite lookup_total by exact NDw. apply total_zero. intros e He.
          destruct (String.eqb_spec (fst e) b) as [Ee|]; [|reflexivity]. exfalso.
          destruct KO as [KO|KO].
          * unfold custom_kind in CK.
            assert (FA : forallb (fun e => isin (fst e) (map o_name gs)) w = true).
            { apply forallb_forall. intros e' He'. apply isin_In. rewrite TG, map_dispatch_name. now apply KO. }
            rewrite FA in CK. discriminate CK.
          * apply KO in He. apply in_map_iff in He. destruct He as (o & Eo & Ho). specialize (NG0 o Ho).
            unfold at_b in NG0. rewrite Eo, Ee, String.eqb_refl in NG0. discriminate.
      - rewrite (raw_is_W c k all (t_gens t0) NDa OWN raw b R Hb); [exact Z|].
        destruct k as [| | |nm w]; cbn in U; try discriminate; auto. right. right. exists nm, w.
        destruct KO as [NDw _]. destruct (custom_kind c (map dispatch (t_gens t0)) w) as [[|]|] eqn:CK; try discriminate. auto. }
    specialize (SOL b Hb).
    assert (WZ : match bus_weight c raw b with Some x => x | None => 0 end == 0)
      by (rewrite (wts_share c raw b ws AW Hb); now apply share_zero).
    unfold close in *. rewrite Qplus_0_r. unfold t. rewrite (proj1 (pf_injection t0 b Nb)).
    rewrite Qabs_Qminus.
    setoid_replace (sp b - set_p t0 b) with
      (sp b - (set_p t0 b - match bus_weight c raw b with Some x => x | None => 0 end * G)) by (rewrite WZ; ring).
    exact SOL.
  - rewrite upd_q. fold gs.
    rewrite (fed_dq c n gs); auto; [|rewrite TG; now apply controlled_dispatch].
    rewrite <- nodal_q_inj. fold t. unfold new_q. destruct (String.eqb b _ || isin b (pvs c)); ring.
Qed.

Lemma custom_true c gs0 w : for_gens w gs0 -> custom_kind c (map dispatch gs0) w = inl true.
Proof.
  intros H. unfold custom_kind.
  assert (FA : forallb (fun e => isin (fst e) (map o_name (map dispatch gs0))) w = true).
  { apply forallb_forall. intros e He. apply isin_In. rewrite map_dispatch_name. now apply H. }
  now rewrite FA.
Qed.
Lemma sw_weight c k gs0 o : by_generator k gs0 -> sw c k (map dispatch gs0) o == weight_of k o.
Proof.
  intros B. unfold sw, weight_of. destruct k as [| | |nm w]; try reflexivity; [destruct B|].
  destruct B as [NDw FG]. rewrite (custom_true c gs0 w FG). now apply lookup_total.
Qed.

Theorem dist_proportional c n k all solve t0 r :
  NoDup (map o_name all) -> own_gens (buses_o c) all (t_gens t0) ->
  (forall o, In o (t_gens t0) -> plain o) -> by_generator k (t_gens t0) ->
  NoDup (buses_o c) -> ~ In "" (buses_o c) ->
  (forall w, exists G, forall b, In b (buses_o c) -> fst (solve w) b == set_p t0 b - w b * G) ->
  pf_out_dist c n k all solve t0 = inl r ->
  moved (t_gens t0) (t_gens (r_tabs r))
    (fun o => weight_of k o / total (weight_of k) (t_gens t0) *
              total (fun b => r_p r b - set_p t0 b) (buses_o c)).
Proof.
  intros NDa OWN P BG NDo NE SOL E. unfold pf_out_dist in E. cbv zeta in E.
  set (t := set_points t0) in *.
  assert (TG : t_gens t = map dispatch (t_gens t0)) by reflexivity.
  set (gs := t_gens t) in *.
  destruct (raw_weights c k all gs) as [raw|] eqn:R; [|discriminate].
  destruct (all_opt (map (bus_weight c raw) (buses_o c))) as [ws|] eqn:AW; [|discriminate].
  specialize (SOL (fun b => match bus_weight c raw b with Some x => x | None => 0 end)).
  destruct SOL as (G & SOL). destruct (solve _) as [sp sq]. cbn [fst] in SOL.
  destruct (slack_loop _ _ _ _ _) as [d|] eqn:L; [|discriminate].
  destruct (slack_generator (ctl_slack c)) as [g|] eqn:SG; [|discriminate]. injection E as <-.
  cbn [r_tabs r_p r_q].
  assert (NDg : NoDup (map o_name gs)) by (rewrite TG, map_dispatch_name; now apply (own_names c all)).
  set (W := fun b => sumq (map (sw c k gs) (filter (at_b b) gs))).
  set (T := total (weight_of k) (t_gens t0)).
  assert (WT : forall b, W b == total (fun o => if at_b b o then weight_of k o else 0) (t_gens t0)).
  { intros b. unfold W, gs, t. cbn [t_gens set_points]. rewrite W_total. apply total_ext. intros o _.
    destruct (at_b b o); [|reflexivity]. now apply sw_weight. }
  assert (RW : forall b, In b (buses_o c) -> raw b == W b).
  { intros b Hb. apply (raw_is_W c k all (t_gens t0) NDa OWN raw b R Hb).
    destruct k as [| | |nm w]; auto; [destruct BG|]. destruct BG as [NDw FG]. right. right. exists nm, w.
    split; auto. split; auto. now apply custom_true. }
  assert (RT : sumq (map raw (buses_o c)) == T).
  { rewrite sumq_total. rewrite (total_ext raw (fun b => total (fun o => if at_b b o then weight_of k o else 0) (t_gens t0))).
    - apply total_W; auto. intros o Ho. now apply (own_in c all (t_gens t0) OWN).
    - intros b Hb. rewrite RW by exact Hb. apply WT. }
  assert (DB : forall b, In b (buses_o c) ->
    (if isin b (buses_o c) then sp b else nodal_p t b) - nodal_p t b == - (share_of T (W b) * G)).
  { intros b Hb. assert (I : isin b (buses_o c) = true) by now apply isin_In. rewrite I, (SOL b Hb).
    unfold t. rewrite (proj1 (pf_injection t0 b ltac:(intros ->; contradiction))).
    rewrite (wts_share c raw b ws AW Hb), (RW b Hb), RT. ring. }
  assert (X : total (fun b => (if isin b (buses_o c) then sp b else nodal_p t b) - set_p t0 b) (buses_o c) ==
              if Qeq_bool T 0 then 0 else - G).
  { rewrite (total_ext _ (fun b => (- (share_of T 1 * G)) * W b)).
    - rewrite total_scale. rewrite (total_ext W raw) by (intros b Hb; rewrite RW by exact Hb; reflexivity).
      rewrite <- sumq_total, RT. unfold share_of. destruct (Qeq_bool T 0) eqn:Z; [ring|].
      apply Qeq_bool_neq in Z. field. exact Z.
    - intros b Hb. rewrite <- (proj1 (pf_injection t0 b ltac:(intros ->; contradiction))). fold t. rewrite (DB b Hb).
      unfold share_of. destruct (Qeq_bool T 0) eqn:Z; [ring|]. apply Qeq_bool_neq in Z. field. exact Z. }
  assert (MV : forall o, In o (t_gens t0) ->
     d (dispatch o) == weight_of k o / T * total (fun b => (if isin b (buses_o c) then sp b else nodal_p t b) - set_p t0 b) (buses_o c)).
  { intros o Ho. assert (Hg : In (dispatch o) gs) by (rewrite TG; now apply in_map).
    destruct (loop_all c k gs _ NDg d _ L Hg) as [D1 D2]. fold (W (o_bus (dispatch o))) in D1, D2.
    destruct (dispatch_fields o) as (_ & EB & _). rewrite EB in D1, D2.
    rewrite D1, X, (DB (o_bus o)) by (now apply (own_in c all (t_gens t0) OWN)).
    rewrite sw_dispatch in *.
    assert (SW : sw c k gs o == weight_of k o) by (rewrite TG; now apply sw_weight).
    unfold share_of. destruct (Qeq_bool (W (o_bus o)) 0) eqn:Z1.
    - apply Qeq_bool_eq in Z1. specialize (D2 Z1). rewrite <- SW, D2. unfold Qdiv. ring.
    - apply Qeq_bool_neq in Z1. destruct (Qeq_bool T 0) eqn:Z2; [ring|]. apply Qeq_bool_neq in Z2. rewrite SW.
      field. auto. }
  unfold moved, upd_gens. cbn [t_gens]. fold gs. rewrite TG. clear - MV P. fold T. clearbody T.
  revert MV P. induction (t_gens t0) as [|o l IH]; intros MV P; [constructor|]. cbn [map]. constructor.
  - cbn. destruct (dispatch_fields o) as (E1 & E2 & _). split; auto. split; auto.
    rewrite (MV o (or_introl eq_refl)). destruct (P o (or_introl eq_refl)) as [Pa _].
    unfold dispatch. rewrite Pa. cbn [o_p]. reflexivity.
  - apply IH; intros; [apply MV|apply P]; now right.
Qed.

(* ---------- a single bus ---------- *)
Lemma single_shares_are k all gs l : single_shares k all gs = inl l ->
  k = PSet /\ l = map (normed (sumq (map o_pset gs))) (map o_pset gs).
Proof.
  unfold single_shares. cbv zeta. destruct k as [| | |nm w]; try discriminate;
    (destruct (forallb _ all); [discriminate|]); intros E; [|discriminate E|discriminate E].
  injection E as <-. auto.
Qed.

Theorem single_balanced dist k c all t0 r :
  NoDup (map o_name (t_gens t0)) -> (forall o, In o (t_gens t0) -> plain o /\ o_bus o = slack_bus (ctl_slack c)) ->
  (forall g, slack_generator (ctl_slack c) = Some g -> In g (map o_name (t_gens t0))) ->
  (dist = true -> ~ total (weight_of k) (t_gens t0) == 0) ->
  slack_bus (ctl_slack c) <> "" ->
  pf_single dist k c all t0 = inl r ->
  inj_p (r_tabs r) (slack_bus (ctl_slack c)) == 0 /\ inj_q (r_tabs r) (slack_bus (ctl_slack c)) == 0 /\
  r_p r (slack_bus (ctl_slack c)) == 0 /\ r_q r (slack_bus (ctl_slack c)) == 0 /\
  (dist = true -> moved (t_gens t0) (t_gens (r_tabs r))
     (fun o => weight_of k o / total (weight_of k) (t_gens t0) * - set_p t0 (slack_bus (ctl_slack c)))).
Proof.
  intros ND P SI HW Nb E. unfold pf_single in E. cbv zeta in E.
  set (sb := slack_bus (ctl_slack c)) in *. set (t := set_points t0) in *.
  assert (TG : t_gens t = map dispatch (t_gens t0)) by reflexivity. set (gs := t_gens t) in *.
  assert (NDg : NoDup (map o_name gs)) by (rewrite TG, map_dispatch_name; exact ND).
  assert (Pg : forall o, In o gs -> plain o /\ o_bus o = sb).
  { intros o I. rewrite TG in I. apply in_map_iff in I. destruct I as (o0 & <- & I0).
    destruct (P o0 I0) as [[Pa Ps] Pb]. destruct (dispatch_fields o0) as (_ & Eb & _ & _ & _ & Ea & Es).
    split; [split; [congruence|rewrite Es; exact Ps]|congruence]. }
  destruct (slack_generator (ctl_slack c)) as [g|] eqn:SG.
  2:{ destruct (if dist then _ else _); discriminate. }
  assert (CT : can_take gs g sb).
  { specialize (SI g eq_refl). apply in_map_iff in SI. destruct SI as (o & Eo & Ho).
    assert (I : In (dispatch o) gs) by (rewrite TG; now apply in_map).
    destruct (Pg _ I) as [[Pa Ps] Pb]. exists (dispatch o). destruct (dispatch_fields o) as (En & _).
    repeat split; auto. congruence. }
  destruct (if dist then _ else _) as [d|] eqn:D; [|discriminate]. injection E as <-.
  cbn [r_tabs r_p r_q]. rewrite String.eqb_refl.
  assert (FD : total (fed d sb) gs == - nodal_p t sb /\
    (dist = true -> forall o, In o (t_gens t0) -> d (dispatch o) == weight_of k o / total (weight_of k) (t_gens t0) * - nodal_p t sb)).
  { destruct dist.
    - specialize (HW eq_refl). destruct gs as [|g0 gs'] eqn:GE.
      { destruct (t_gens t0); [|discriminate TG]. exfalso. apply HW. reflexivity. }
      rewrite <- GE in *. destruct (single_shares k all gs) as [l|] eqn:SH; [|discriminate].
      destruct (all_opt l) as [rr|] eqn:A; [|discriminate]. injection D as <-.
      destruct (single_shares_are _ _ _ _ SH) as [-> EL].
      assert (TW : sumq (map o_pset gs) == total (weight_of PSet) (t_gens t0)).
      { rewrite sumq_total, TG, total_map. apply total_ext. intros o _. cbn [weight_of].
        now rewrite (proj1 (proj2 (proj2 (dispatch_fields o)))). }
      assert (DV : forall o, In o gs -> match assoc_share gs l o with Some x => x * - nodal_p t sb | None => 0 end ==
                    weight_of PSet o / total (weight_of PSet) (t_gens t0) * - nodal_p t sb).
      { intros o Ho. rewrite EL, (assoc_at gs o_pset) by auto.
        unfold normed. destruct (Qeq_bool (sumq (map o_pset gs)) 0) eqn:Z.
        - apply Qeq_bool_eq in Z. exfalso. apply HW. now rewrite <- TW.
        - cbn [weight_of]. rewrite TW. reflexivity. }
      split.
      + rewrite (total_ext _ (fun o => (- nodal_p t sb / total (weight_of PSet) (t_gens t0)) * weight_of PSet o)).
        * rewrite total_scale. change (total (fun o => weight_of PSet o) gs) with (total o_pset gs).
          rewrite <- (sumq_total o_pset gs), TW. field. exact HW.
        * intros o Ho. destruct (Pg o Ho) as [[Pa Ps] Pb]. unfold fed, at_bus. rewrite Pa, Pb, String.eqb_refl, Ps.
          rewrite (DV o Ho). field. exact HW.
      + intros _ o Ho. rewrite (DV (dispatch o)) by (rewrite TG; now apply in_map).
        cbn [weight_of].
        now rewrite (proj1 (proj2 (proj2 (dispatch_fields o)))).
    - injection D as <-. split; [|discriminate]. rewrite (fed_one gs g sb sb) by assumption.
      unfold at_bus. now rewrite String.eqb_refl. }
  destruct FD as [FD MV].
  split; [|split; [|split; [reflexivity|split; [reflexivity|]]]].
  - rewrite upd_p. fold gs. rewrite FD, <- nodal_p_inj by exact Nb. ring.
  - rewrite upd_q. fold gs. rewrite (fed_one gs g sb sb) by assumption.
    unfold at_bus. rewrite String.eqb_refl, <- nodal_q_inj. ring.
  - intros Hd. specialize (MV Hd). unfold moved, upd_gens. cbn [t_gens]. fold gs. rewrite TG.
    assert (PI : nodal_p t sb == set_p t0 sb) by (unfold t; now apply pf_injection).
    clear - MV P PI. set (T := total (weight_of k) (t_gens t0)) in *. clearbody T.
    revert MV P. induction (t_gens t0) as [|o l IH]; intros MV P; [constructor|]. cbn [map]. constructor.
    + cbn. destruct (dispatch_fields o) as (E1 & E2 & _). split; auto. split; auto.
      rewrite (MV o (or_introl eq_refl)). destruct (P o (or_introl eq_refl)) as [[Pa _] _].
      unfold dispatch. rewrite Pa, PI. cbn [o_p]. reflexivity.
    + apply IH; intros; [apply MV|apply P]; now right.
Qed.

(* ---------- statements from find_bus_controls ---------- *)
Lemma gens_of_match s n gs : gens_of s n gs -> gens_match s n gs.
Proof.
  unfold gens_of, gens_match, sub_gens. intros ->. f_equal. apply filter_ext. intros g.
  apply eq_true_iff_eq. rewrite existsb_exists, isin_In. unfold buses_i, sub_buses. rewrite in_map_iff. split.
  - intros (x & Hx & E). apply andb_true_iff in E. destruct E as [E1 E2]. apply String.eqb_eq in E1.
    exists x. split; auto. apply filter_In. auto.
  - intros (x & E & Hx). apply filter_In in Hx. destruct Hx as [H1 H2]. exists x. split; auto.
    rewrite E, String.eqb_refl. exact H2.
Qed.

Theorem pf_from_controls s n0 n c sp sq t r tol :
  NoDup (map gname (gens n0)) -> NoDup (map bname (buses n0)) -> ~ In "" (map bname (buses n0)) ->
  find_bus_controls s n0 = inl (n, c) -> t_gens t <> [] -> gens_of s n0 (t_gens t) ->
  (forall o, In o (t_gens t) -> plain o) ->
  pf_out c n sp sq t = inl r ->
  (forall b, b <> "" -> inj_p (r_tabs r) b == r_p r b /\ inj_q (r_tabs r) b == r_q r b) /\
  (0 <= tol ->
   (forall b, In b (pvs c ++ pqs c) -> close tol (sp b) (set_p t b)) ->
   (forall b, In b (pqs c) -> close tol (sq b) (set_q t b)) ->
   forall x, In x (buses n0) -> bsub x = s ->
     close tol (sp (bname x)) (inj_p (r_tabs r) (bname x)) /\ close tol (sq (bname x)) (inj_q (r_tabs r) (bname x))).
Proof.
  intros N1 N2 N3 E NE M P O.
  destruct (controls_ok s n0 n c (t_gens t) N1 N2 E NE (gens_of_match _ _ _ M) P) as (H1 & H2 & H3 & H4 & H5).
  pose proof (pf_balanced c n sp sq t r H1 H3 H4 H5 O) as B. split; [exact B|].
  intros Ht SP SQ x Hx Hs.
  assert (Nb : bname x <> "") by (intros X; apply N3; rewrite <- X; now apply in_map).
  destruct (controls_partition s n0 n c N2 E) as (PM & _).
  assert (I : In (bname x) (buses_o c)).
  { apply (Permutation_in _ (Permutation_sym PM)). unfold buses_i, sub_buses. apply in_map, filter_In.
    split; auto. now apply String.eqb_eq. }
  rewrite (buses_o_shape s n0 n c E) in I.
  destruct (pf_solution c n sp sq t r tol Ht O SP SQ (bname x) I Nb) as (S1 & S2 & _).
  destruct (B (bname x) Nb) as [B1 B2]. rewrite B1, B2. auto.
Qed.

Theorem lpf_from_controls s n0 n c t :
  NoDup (map gname (gens n0)) -> NoDup (map bname (buses n0)) -> ~ In "" (map bname (buses n0)) ->
  find_bus_controls s n0 = inl (n, c) -> t_gens t <> [] -> gens_of s n0 (t_gens t) ->
  (forall o, In o (t_gens t) -> plain o) ->
  (forall b, b <> "" -> inj_p_lin (r_tabs (lpf_out c t)) b == r_p (lpf_out c t) b) /\
  total (r_p (lpf_out c t)) (buses_o c) == 0 /\
  forall b, In b (buses_o c) -> b <> slack_bus (ctl_slack c) -> r_p (lpf_out c t) b == set_p_lin t b.
Proof.
  intros N1 N2 N3 E NE M P.
  destruct (controls_ok s n0 n c (t_gens t) N1 N2 E NE (gens_of_match _ _ _ M) P) as (H1 & H2 & H3 & H4 & H5).
  destruct H5 as ((g & Hg & T) & _). pose proof (buses_o_shape s n0 n c E) as SH.
  split; [exact (lpf_balanced c t g _ SH Hg H1 T)|].
  destruct (lpf_totals c t _ SH H2) as [L1 L2].
  { destruct (controls_partition s n0 n c N2 E) as (PM & _). intros X. apply N3.
    apply (Permutation_in _ PM) in X. unfold buses_i, sub_buses in X. apply in_map_iff in X.
    destruct X as (y & Ey & Hy). apply filter_In in Hy. rewrite <- Ey. apply in_map. tauto. }
  split; [exact L1|]. intros b Hb Nb. apply L2. rewrite SH in Hb. destruct Hb as [X|Hb]; [congruence|exact Hb].
Qed.

Theorem pf_defined c n sp sq t :
  (exists g, slack_generator (ctl_slack c) = Some g) <-> exists r, pf_out c n sp sq t = inl r.
Proof.
  unfold pf_out. destruct (slack_generator (ctl_slack c)) as [g|].
  - split; intros _; eauto.
  - split; [intros (g & X); discriminate|intros (r & X); discriminate].
Qed.

Theorem pf_untouched c n sp sq t r :
  pf_out c n sp sq t = inl r ->
  Forall2 (fun l l' => Forall2 (fun o o' => o_name o' = o_name o /\ o_p o' == plain_p o /\ o_q o' == plain_q o) l l')
    (t_rest t) (t_rest (r_tabs r)) /\
  t_links (r_tabs r) = t_links t /\
  Forall2 (fun o o' =>
    o_name o' = o_name o /\ o_bus o' = o_bus o /\ o_active o' = o_active o /\
    (slack_generator (ctl_slack c) <> Some (o_name o) -> o_p o' == plain_p o) /\
    (slack_generator (ctl_slack c) <> Some (o_name o) ->
     (forall b, In b (pvs c) -> gen_of n b <> Some (o_name o)) -> o_q o' == plain_q o))
    (t_gens t) (t_gens (r_tabs r)).
Proof.
  intros E. destruct (pf_others c n sp sq t r E) as (H1 & H2 & H3).
  assert (D : forall o, o_p (dispatch o) = plain_p o /\ o_q (dispatch o) = plain_q o).
  { intros o. unfold dispatch, plain_p, plain_q. destruct (o_active o); auto. }
  split; [|split; [exact H2|]].
  - rewrite H1. clear - D. induction (t_rest t) as [|l ls IH]; cbn [map]; constructor; auto.
    induction l as [|o l IHl]; cbn [map]; constructor; auto. destruct (D o) as [-> ->].
    split; [apply dispatch_fields|split; reflexivity].
  - clear - H3 D. induction H3 as [|o o' l l' (A1 & A2 & A3 & A4 & A5) F IH]; constructor; auto.
    destruct (D o) as [<- <-]. auto.
Qed.

(* ---------- when sharing succeeds ---------- *)
Lemma normed_nonneg (S x : Q) (l : list Q) : S == sumq l -> In x l -> (forall y, In y l -> 0 <= y) ->
  exists y, normed S x = Some y.
Proof.
  intros ES I P. unfold normed. destruct (Qeq_bool S 0) eqn:Z; [|eauto].
  apply Qeq_bool_eq in Z. assert (X : x == 0).
  { assert (B : forall l, (forall y, In y l -> 0 <= y) -> 0 <= sumq l).
    { induction l0 as [|a l0 IH]; intros H; cbn [sumq fold_right]; [apply Qle_refl|]. fold (sumq l0).
      pose proof (H a (or_introl eq_refl)). pose proof (IH (fun y Hy => H y (or_intror Hy))). lra. }
    assert (C : forall l x, (forall y, In y l -> 0 <= y) -> In x l -> x <= sumq l).
    { induction l0 as [|a l0 IH]; intros x0 H I0; [destruct I0|]. cbn [sumq fold_right]. fold (sumq l0).
      pose proof (B l0 (fun y Hy => H y (or_intror Hy))) as B0. pose proof (H a (or_introl eq_refl)).
      destruct I0 as [->|I0]; [lra|]. pose proof (IH x0 (fun y Hy => H y (or_intror Hy)) I0). lra. }
    pose proof (C l x P I). pose proof (P x I). lra. }
  apply Qeq_bool_iff in X. rewrite X. eauto.
Qed.
Lemma all_opt_some {A B} (f : A -> option B) l : (forall x, In x l -> exists y, f x = Some y) ->
  exists r, all_opt (map f l) = Some r.
Proof.
  induction l as [|a l IH]; intros H; [exists []; reflexivity|]. cbn [map all_opt fold_right].
  fold (all_opt (map f l)). destruct (H a (or_introl eq_refl)) as (y & ->).
  destruct (IH (fun x Hx => H x (or_intror Hx))) as (r & ->). eauto.
Qed.

Lemma loop_defined c k delta gs bs :
  (forall b, In b bs -> exists d, slack_step c k delta gs b = inl d) -> exists d, slack_loop c k delta gs bs = inl d.
Proof.
  induction bs as [|b bs IH]; intros H; [eexists; reflexivity|]. cbn [slack_loop].
  destruct (H b (or_introl eq_refl)) as (d & ->). destruct (IH (fun x Hx => H x (or_intror Hx))) as (d' & ->). eauto.
Qed.

(* distribution by set points or by positive nominal powers always succeeds *)
Theorem dist_defined c n k all solve t0 :
  (k = PSet /\ (forall o, In o all \/ In o (t_gens t0) -> 0 <= o_pset o)) \/
  (k = PNom /\ all <> [] /\ (forall o, In o all \/ In o (t_gens t0) -> 0 < o_pnom o)) ->
  (exists g, slack_generator (ctl_slack c) = Some g) ->
  exists r, pf_out_dist c n k all solve t0 = inl r.
Proof.
  intros K (g & SG). unfold pf_out_dist. cbv zeta.
  assert (SN : forall l : list Q, (forall y, In y l -> 0 <= y) -> 0 <= sumq l).
  { induction l as [|a l IH]; intros H; cbn [sumq fold_right]; [apply Qle_refl|]. fold (sumq l).
    pose proof (H a (or_introl eq_refl)). pose proof (IH (fun y Hy => H y (or_intror Hy))). lra. }
  assert (R : exists raw, raw_weights c k all (t_gens (set_points t0)) = inl raw /\ forall b, 0 <= raw b).
  { destruct K as [[-> H]|(-> & NE & H)]; cbn [raw_weights].
    - eexists. split; [reflexivity|]. intros b. apply SN. intros y Hy. apply in_map_iff in Hy.
      destruct Hy as (o & <- & Ho). apply filter_In in Ho. apply H. left. tauto.
    - destruct all as [|o l]; [congruence|]. cbn [forallb].
      assert (Z : Qeq_bool (o_pnom o) 0 = false).
      { destruct (Qeq_bool (o_pnom o) 0) eqn:Z; [|reflexivity]. apply Qeq_bool_eq in Z.
        pose proof (H o (or_introl (or_introl eq_refl))). lra. }
      rewrite Z. cbn [andb]. eexists. split; [reflexivity|]. intros b. apply SN. intros y Hy. apply in_map_iff in Hy.
      destruct Hy as (o' & <- & Ho). apply filter_In in Ho. apply Qlt_le_weak, H. left. tauto. }
  destruct R as (raw & -> & Hraw).
  destruct (all_opt_some (bus_weight c raw) (buses_o c)) as (ws & ->).
  { intros b Hb. unfold bus_weight. apply (normed_nonneg _ _ (map raw (buses_o c))); [reflexivity|now apply in_map|].
    intros y Hy. apply in_map_iff in Hy. destruct Hy as (b' & <- & _). apply Hraw. }
  destruct (solve _) as [sp sq].
  match goal with |- context [slack_loop c k ?D ?G ?B] => set (bb := B); set (dd := D); set (gs := G) end.
  destruct (loop_defined c k dd gs bb) as (d & ->).
  - intros b _. unfold slack_step.
    set (group := filter (fun o => String.eqb (o_bus o) b) gs).
    assert (GI : forall o, In o group -> exists o0, In o0 (t_gens t0) /\ o_pset o = o_pset o0 /\ o_pnom o = o_pnom o0).
    { intros o Ho. apply filter_In in Ho. destruct Ho as [Ho _]. unfold gs in Ho. cbn [t_gens set_points] in Ho.
      apply in_map_iff in Ho. destruct Ho as (o0 & <- & I). exists o0.
      destruct (dispatch_fields o0) as (_ & _ & E1 & E2 & _). auto. }
    destruct K as [[-> H]|(-> & NE & H)]; cbn [shares].
    + destruct (all_opt_some (normed (sumq (map o_pset group))) (map o_pset group)) as (r & ->); [|eauto].
      intros x Hx. apply (normed_nonneg _ _ (map o_pset group)); [reflexivity|exact Hx|].
      intros y Hy. apply in_map_iff in Hy. destruct Hy as (o & <- & Ho). destruct (GI o Ho) as (o0 & I & -> & _). auto.
    + assert (NZ : forallb (fun o => negb (Qeq_bool (o_pnom o) 0)) group = true).
      { apply forallb_forall. intros o Ho. destruct (GI o Ho) as (o0 & I & _ & ->).
        destruct (Qeq_bool (o_pnom o0) 0) eqn:Z; [|reflexivity]. apply Qeq_bool_eq in Z.
        pose proof (H o0 (or_intror I)). lra. }
      rewrite NZ. cbn [negb].
      destruct (all_opt_some (normed (sumq (map o_pnom group))) (map o_pnom group)) as (r & ->); [|eauto].
      intros x Hx. apply (normed_nonneg _ _ (map o_pnom group)); [reflexivity|exact Hx|].
      intros y Hy. apply in_map_iff in Hy. destruct Hy as (o & <- & Ho). destruct (GI o Ho) as (o0 & I & _ & ->).
      apply Qlt_le_weak. auto.
  - rewrite SG. eauto.
Qed.

Theorem dist_from_controls s n0 n c k all solve t0 r tol :
  0 <= tol -> NoDup (map gname (gens n0)) -> NoDup (map bname (buses n0)) -> ~ In "" (map bname (buses n0)) ->
  find_bus_controls s n0 = inl (n, c) -> t_gens t0 <> [] -> gens_of s n0 (t_gens t0) ->
  (forall o, In o (t_gens t0) -> plain o) ->
  NoDup (map o_name all) -> own_gens (buses_o c) all (t_gens t0) -> weights_ok k (t_gens t0) ->
  (forall w, exists G, forall b, In b (buses_o c) -> close tol (fst (solve w) b) (set_p t0 b - w b * G)) ->
  pf_out_dist c n k all solve t0 = inl r ->
  forall b, In b (buses_o c) -> close tol (inj_p (r_tabs r) b) (r_p r b) /\ inj_q (r_tabs r) b == r_q r b.
Proof.
  intros Ht N1 N2 N3 E NE M P NDa OWN KO SOL O b Hb.
  destruct (controls_ok s n0 n c (t_gens t0) N1 N2 E NE (gens_of_match _ _ _ M) P) as (H1 & H2 & H3 & H4 & H5).
  apply (dist_balanced c n k all solve t0 r tol); auto.
  intros ->. apply N3. destruct (controls_partition s n0 n c N2 E) as (PM & _).
  apply (Permutation_in _ PM) in Hb. unfold buses_i, sub_buses in Hb. apply in_map_iff in Hb.
  destruct Hb as (y & Ey & Hy). apply filter_In in Hy. rewrite <- Ey. apply in_map. tauto.
Qed.
