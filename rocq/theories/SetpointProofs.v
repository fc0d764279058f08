From Coq Require Import List String Bool QArith Arith Lia Lqa Permutation.
From Verif Require Import LinModel BalanceModel BalanceSpec BalanceProofs AssignModel AssignSpec AssignProofs
  ControlModel ControlSpec ControlProofs PfoutModel PfoutSpec PfoutProofs SetpointModel SetpointSpec.
Import ListNotations.
Open Scope string_scope.
Open Scope list_scope.
Open Scope Q_scope.

Lemma Forall2_total {A B} (R : A -> B -> Prop) (f : A -> Q) (g : B -> Q) l r :
  Forall2 R l r -> (forall a b, In a l -> R a b -> g b == f a) -> total g r == total f l.
Proof.
  intros F. induction F as [|a b l r H F IH]; intros E; [reflexivity|].
  change (g b + total g r == f a + total f l). rewrite (E a b (or_introl eq_refl) H), IH; [reflexivity|].
  intros a' b' I. apply E. now right.
Qed.

Lemma at_filter {A} (bus : A -> string) (f : A -> Q) bs b l : In b bs ->
  total (fun c => at_bus (bus c) b (f c)) (filter (fun c => inb bs (bus c)) l) == total (fun c => at_bus (bus c) b (f c)) l.
Proof.
  intros I. rewrite total_filter. apply total_ext. intros c _. unfold inb, at_bus.
  destruct (in_dec string_dec (bus c) bs) as [J|J]; [reflexivity|].
  destruct (String.eqb_spec (bus c) b) as [E|E]; [|reflexivity]. exfalso. apply J. now rewrite E.
Qed.

Lemma at_bus_eq a b q r : q == r -> at_bus a b q == at_bus a b r.
Proof. unfold at_bus. destruct (String.eqb a b); auto. reflexivity. Qed.
Lemma at_bus_0 a b q : q == 0 -> at_bus a b q == 0.
Proof. unfold at_bus. destruct (String.eqb a b); auto. reflexivity. Qed.
Lemma at_bus_opp a b q : at_bus a b (- q) == - at_bus a b q.
Proof. unfold at_bus. destruct (String.eqb a b); ring. Qed.

Section R.
Variable n : net.
Variable x : sol.
Variable sns : nat -> bool.
Variable t : nat.
Hypothesis St : sns t = true.

(* a row whose reported power is the value of the component feeds in what the component does *)
Lemma fed_fix b c o v : row_of t c o -> o_p o == v -> (c_active c t = false -> v == 0) ->
  fed o_pset b (fix_row o) == at_bus (c_bus c) b (c_sign c * v).
Proof.
  intros (_ & Eb & Es & Ea) Ep Z. unfold fed, fix_row. cbn [o_active o_bus o_sign o_pset]. rewrite Eb.
  destruct (o_active o).
  - apply at_bus_eq. rewrite Es, Ep. reflexivity.
  - symmetry. apply at_bus_0. rewrite Z; [ring|]. destruct (c_active c t); auto. discriminate (Ea eq_refl).
Qed.
Lemma value_off v (c : comp) nm : c_active c t = false -> value x (c_active c) v nm t == 0.
Proof. intros E. unfold value. rewrite E. reflexivity. Qed.

Lemma gen_fed b c o : gen_row x sns t c o -> fed o_pset b (fix_row o) == at_bus (c_bus c) b (gen_p x t c).
Proof.
  intros [R [prev Ep]]. rewrite (num_reports _ _ _ (one_port_value x sns _ c prev t St)) in Ep.
  apply (fed_fix b c o _ R Ep). apply value_off.
Qed.
Lemma store_fed b c o : store_row x sns t c o -> fed o_pset b (fix_row o) == at_bus (c_bus c) b (store_p x t c).
Proof.
  intros [R [prev Ep]]. rewrite (num_reports _ _ _ (one_port_value x sns _ c prev t St)) in Ep.
  apply (fed_fix b c o _ R Ep). apply value_off.
Qed.
Lemma unit_fed b c o : unit_row x sns t c o -> fed o_pset b (fix_row o) == at_bus (c_bus c) b (unit_p x t c).
Proof.
  intros [R [pd [ps Ep]]]. rewrite (num_reports _ _ _ (unit_net x sns c pd ps t St)) in Ep.
  apply (fed_fix b c o _ R Ep). intros E. rewrite !value_off by exact E. ring.
Qed.
Lemma load_fed b d o : load_row sns t d o -> fed o_pset b (fix_row o) == at_bus (d_bus d) b (- demand_of t d).
Proof.
  intros (Eb & Es & Ea & prev & Ep). unfold fed, fix_row, demand_of. cbn [o_active o_bus o_sign o_pset].
  rewrite Ea, Eb. destruct (d_active d).
  - apply at_bus_eq. rewrite Es, Ep. unfold num, load_power, set_from_frame. rewrite St. ring.
  - symmetry. apply at_bus_0. ring.
Qed.
Lemma link_fed_fix ports b l k : b <> "" -> link_row x sns t ports l k ->
  link_fed ports b (fix_link k) ==
  total (fun pe => at_bus (fst pe) b (snd pe * BalanceSpec.link_p x t l)) (outputs t l) - at_bus (l_bus0 l) b (BalanceSpec.link_p x t l).
Proof.
  intros NE (E0 & F & prev & Ep). unfold link_fed, fix_link. cbn [PfoutModel.l_bus PfoutModel.l_eff l_pset].
  assert (Ev : l_old k 0 == BalanceSpec.link_p x t l).
  { rewrite Ep. unfold num, link_p0, set_from_frame, solution, BalanceSpec.link_p, value. rewrite St. cbn [andb].
    destruct (BalanceModel.l_active l t); reflexivity. }
  rewrite E0, at_bus_opp. rewrite (at_bus_eq (l_bus0 l) b _ _ Ev).
  rewrite (Forall2_total (fun pe i => PfoutModel.l_bus k i = fst pe /\ PfoutModel.l_eff k i == snd pe t)
             (fun pe => at_bus (fst pe) b (snd pe t * BalanceSpec.link_p x t l)) _ ((l_bus1 l, l_eff1 l) :: l_ports l)).
  - unfold outputs. rewrite !total_cons. cbn [fst snd]. rewrite total_map. cbn [fst snd]. rewrite total_filter.
    rewrite (total_ext (fun a => if negb (String.eqb (fst a) "") then _ else 0)
               (fun pe => at_bus (fst pe) b (snd pe t * BalanceSpec.link_p x t l)) (l_ports l)); [ring|].
    intros pe _. unfold at_bus. destruct (String.eqb_spec (fst pe) "") as [E|E]; cbn [negb]; [|reflexivity].
    rewrite E. destruct (String.eqb_spec "" b); [|reflexivity]. now subst.
  - clear -F. induction F; constructor; auto.
  - intros pe i _ [H1 H2]. rewrite H1. apply at_bus_eq. rewrite H2, Ev. reflexivity.
Qed.

Lemma taken_at losses b :
  total (branch_at losses x t "Line-s" "Line-loss" b) (lines n) + total (branch_at losses x t "Transformer-s" "Transformer-loss" b) (trafos n)
  == - (taken n x t b + lost_at n x t losses b).
Proof.
  assert (L : forall v lv l, total (branch_at losses x t v lv b) l ==
    - (total (leaving x t v b) l + if losses then total (half x t lv b) l else 0)).
  { intros v lv l. induction l as [|a l IH]; [destruct losses; reflexivity|].
    rewrite !total_cons, IH. unfold branch_at, leaving, half. destruct losses; rewrite ?total_cons; unfold half; ring. }
  rewrite !L. unfold taken, lost_at. destruct losses; ring.
Qed.

Theorem fixed_set_points bs tb losses b :
  reported n x sns t bs tb -> In b bs -> b <> "" ->
  net_power n losses x t b == demand n t b ->
  set_p (fix_optimal_dispatch tb) b == taken n x t b + lost_at n x t losses b.
Proof.
  intros (HG & (ls & us & ss & ER & HL & HU & HS) & HK) I NE HB.
  unfold net_power, demand in HB. unfold set_p, rows, fix_optimal_dispatch. cbn [t_gens t_rest t_links t_ports].
  rewrite ER. cbn [map List.concat]. rewrite app_nil_r, !total_app, !total_map.
  rewrite (Forall2_total _ _ _ _ _ HG (fun c o _ H => gen_fed b c o H)).
  rewrite (Forall2_total _ _ _ _ _ HL (fun c o _ H => load_fed b c o H)).
  rewrite (Forall2_total _ _ _ _ _ HU (fun c o _ H => unit_fed b c o H)).
  rewrite (Forall2_total _ _ _ _ _ HS (fun c o _ H => store_fed b c o H)).
  rewrite (Forall2_total _ _ _ _ _ HK (fun c o _ H => link_fed_fix _ b c o NE H)).
  rewrite !(at_filter c_bus) by exact I. rewrite (at_filter d_bus) by exact I.
  rewrite (total_ext (fun c => at_bus (d_bus c) b (- demand_of t c)) (fun c => -(1) * at_bus (d_bus c) b (demand_of t c)))
    by (intros d _; rewrite at_bus_opp; ring).
  rewrite total_scale. pose proof (taken_at losses b) as TA.
  rewrite <- HB in *. lra.
Qed.

(* over a sub-network the branches take nothing but their losses *)
Lemma total_at_inb b q bs : NoDup bs -> total (fun b' => at_bus b b' q) bs == if inb bs b then q else 0.
Proof.
  intros ND. unfold inb. destruct (in_dec string_dec b bs) as [I|I].
  - now apply total_at_In.
  - apply total_zero. intros b' J. unfold at_bus. destruct (String.eqb_spec b b'); [|reflexivity]. now subst.
Qed.
Lemma flow_off v (br : branch) : b_active br t = false -> flow x t v br == 0.
Proof. intros E. unfold flow, value. rewrite E. reflexivity. Qed.
Lemma inb_In bs b : inb bs b = true <-> In b bs.
Proof. unfold inb. destruct (in_dec string_dec b bs); split; intros H; auto; discriminate. Qed.

Lemma inb_ends bs br : In br (lines n ++ trafos n) -> closed n t bs -> b_active br t = true ->
  inb bs (b_bus0 br) = inb bs (b_bus1 br).
Proof.
  intros I C A. specialize (C br I A). rewrite <- !inb_In in C.
  destruct (inb bs (b_bus0 br)), (inb bs (b_bus1 br)); intuition congruence.
Qed.

Lemma leaving_none bs v l : NoDup bs -> closed n t bs -> (forall br, In br l -> In br (lines n ++ trafos n)) ->
  total (fun b => total (leaving x t v b) l) bs == 0.
Proof.
  intros ND C IL. rewrite total_swap. apply total_zero. intros br I. unfold leaving.
  rewrite total_minus, !total_at_inb by exact ND.
  destruct (b_active br t) eqn:A.
  - rewrite (inb_ends bs br (IL br I) C A). ring.
  - pose proof (flow_off v br A) as Z. destruct (inb bs (b_bus0 br)), (inb bs (b_bus1 br)); rewrite ?Z; ring.
Qed.
Lemma half_all bs v l : NoDup bs -> closed n t bs -> (forall br, In br l -> In br (lines n ++ trafos n)) ->
  total (fun b => total (half x t v b) l) bs == total (flow x t v) (filter (fun br => inb bs (b_bus0 br)) l).
Proof.
  intros ND C IL. rewrite total_swap, total_filter. apply total_ext. intros br I. unfold half.
  rewrite total_scale, total_plus, !total_at_inb by exact ND.
  destruct (b_active br t) eqn:A.
  - rewrite (inb_ends bs br (IL br I) C A). destruct (inb bs (b_bus1 br)); ring.
  - pose proof (flow_off v br A) as Z. destruct (inb bs (b_bus0 br)), (inb bs (b_bus1 br)); rewrite ?Z; ring.
Qed.

Lemma taken_total bs losses : NoDup bs -> closed n t bs ->
  total (fun b => taken n x t b + lost_at n x t losses b) bs == loss_in n x t bs losses.
Proof.
  intros ND C. rewrite total_plus. unfold taken. rewrite total_plus.
  rewrite !leaving_none; auto; try (intros br I; apply in_or_app; tauto).
  unfold lost_at, loss_in. destruct losses; [|rewrite total_zero; [ring|reflexivity]].
  rewrite total_plus, !half_all; auto; try (intros br I; apply in_or_app; tauto). ring.
Qed.
End R.

Lemma fixed_gens_of s n0 tb : gens_of s n0 (t_gens tb) -> gens_of s n0 (t_gens (fix_optimal_dispatch tb)).
Proof. unfold gens_of, fix_optimal_dispatch. cbn [t_gens]. rewrite map_map. auto. Qed.
Lemma fixed_plain tb : (forall o, In o (t_gens tb) -> plain o) -> forall o, In o (t_gens (fix_optimal_dispatch tb)) -> plain o.
Proof.
  intros P o I. cbn [t_gens fix_optimal_dispatch] in I. apply in_map_iff in I. destruct I as (o' & <- & I).
  exact (P o' I).
Qed.
Lemma fixed_lin tb b : no_conductance tb -> set_p_lin (fix_optimal_dispatch tb) b == set_p (fix_optimal_dispatch tb) b.
Proof.
  intros N. unfold set_p_lin. cbn [t_shunts fix_optimal_dispatch]. rewrite (total_zero (fed o_pset b)); [ring|].
  intros o I. unfold fed. destruct (o_active o); [|reflexivity]. apply at_bus_0. rewrite (N o I). ring.
Qed.

Lemma controls_in s n0 n c b : NoDup (map bname (ControlModel.buses n0)) ->
  find_bus_controls s n0 = inl (n, c) -> In b (buses_o c) -> In b (map bname (ControlModel.buses n0)).
Proof.
  intros N2 E X. destruct (controls_partition s n0 n c N2 E) as (PM & _).
  apply (Permutation_in _ PM) in X. unfold buses_i, sub_buses in X. apply in_map_iff in X.
  destruct X as (y & Ey & Hy). apply filter_In in Hy. rewrite <- Ey. apply in_map. tauto.
Qed.

Section L.
Variables (s : string) (n0 nc : cnet) (c : controls) (n : net) (x : sol) (sns : nat -> bool) (t : nat) (tb : tabs) (losses : bool).
Hypothesis N1 : NoDup (map gname (ControlModel.gens n0)).
Hypothesis N2 : NoDup (map bname (ControlModel.buses n0)).
Hypothesis N3 : ~ In "" (map bname (ControlModel.buses n0)).
Hypothesis E : find_bus_controls s n0 = inl (nc, c).
Hypothesis NG : t_gens tb <> [].
Hypothesis M : gens_of s n0 (t_gens tb).
Hypothesis P : forall o, In o (t_gens tb) -> plain o.
Hypothesis St : sns t = true.
Hypothesis R : reported n x sns t (buses_o c) tb.
Hypothesis C : closed n t (buses_o c).
Hypothesis HB : forall b, In b (buses_o c) -> net_power n losses x t b == demand n t b.
Hypothesis NS : no_conductance tb.

Local Notation sb := (slack_bus (ctl_slack c)).
Local Notation fx := (fix_optimal_dispatch tb).

Lemma NGx : t_gens fx <> [].
Proof. cbn [fix_optimal_dispatch t_gens]. destruct (t_gens tb); [congruence|discriminate]. Qed.

Lemma NEo b : In b (buses_o c) -> b <> "".
Proof. intros I ->. apply N3. eapply controls_in; eauto. Qed.
Lemma NDo : NoDup (buses_o c).
Proof. exact (proj1 (proj2 (controls_ok s n0 nc c (t_gens tb) N1 N2 E NG (gens_of_match _ _ _ M) P))). Qed.

Lemma lpf_at b : In b (buses_o c) ->
  r_p (lpf_out c fx) b == taken n x t b + lost_at n x t losses b - (if String.eqb b sb then loss_in n x t (buses_o c) losses else 0).
Proof.
  destruct (lpf_from_controls s n0 nc c fx N1 N2 N3 E NGx (fixed_gens_of _ _ _ M) (fixed_plain _ P)) as (_ & Z & O).
  pose proof (buses_o_shape s n0 nc c E) as SH.
  assert (F : forall b, In b (buses_o c) -> b <> sb -> r_p (lpf_out c fx) b == taken n x t b + lost_at n x t losses b).
  { intros b' I' N'. rewrite (O b' I' N'), fixed_lin by exact NS.
    apply (fixed_set_points n x sns t St (buses_o c) tb losses b' R I' (NEo _ I') (HB _ I')). }
  intros I. destruct (String.eqb_spec b sb) as [->|N]; [|rewrite (F b I N); ring].
  pose proof (taken_total n x t (buses_o c) losses NDo C) as T.
  pose proof NDo as ND. rewrite SH in Z, T, ND |- *. rewrite total_cons in Z, T. inversion ND as [|? ? NI ND']; subst.
  rewrite (total_ext (r_p (lpf_out c fx)) (fun b => taken n x t b + lost_at n x t losses b) (pvs c ++ pqs c)) in Z.
  - lra.
  - intros b' I'. apply F; [rewrite SH; now right|]. intros ->. contradiction.
Qed.

(* the adjustment of the slack generator is minus the losses *)
Lemma lpf_rows :
  Forall2 (fun o o' => o_name o' = o_name o /\ o_bus o' = o_bus o /\
     o_p o' == o_p o - (match slack_generator (ctl_slack c) with
                        | Some g => if String.eqb (o_name o) g then loss_in n x t (buses_o c) losses else 0
                        | None => 0 end))
    (t_gens tb) (t_gens (r_tabs (lpf_out c fx))).
Proof.
  pose proof (buses_o_shape s n0 nc c E) as SH.
  assert (A : - sumq (map (lpf_nodal (lpf_points fx)) (tl (buses_o c))) - lpf_nodal (lpf_points fx) (hd "" (buses_o c))
              == - loss_in n x t (buses_o c) losses).
  { rewrite sumq_total. rewrite <- (taken_total n x t (buses_o c) losses NDo C).
    assert (T : total (lpf_nodal (lpf_points fx)) (buses_o c) == total (fun b => taken n x t b + lost_at n x t losses b) (buses_o c)).
    { apply total_ext. intros b I. rewrite (lpf_injection fx b (NEo b I)), fixed_lin by exact NS.
      apply (fixed_set_points n x sns t St (buses_o c) tb losses b R I (NEo _ I) (HB _ I)). }
    rewrite <- T. rewrite SH. cbn [tl hd]. rewrite total_cons. ring. }
  unfold lpf_out. cbn [r_tabs]. destruct (slack_generator (ctl_slack c)) as [g|] eqn:Hg.
  - cbn [upd_gens t_gens lpf_points fix_optimal_dispatch]. rewrite !map_map.
    remember (- sumq (map (lpf_nodal (lpf_points fx)) (tl (buses_o c))) - lpf_nodal (lpf_points fx) (hd "" (buses_o c))) as adj eqn:EA.
    clear EA. clear R M NG. revert P. induction (t_gens tb) as [|o l IH]; intros P'; cbn [map]; constructor.
    + destruct (P' o (or_introl eq_refl)) as [Pa _]. unfold add_pq, dispatch, fix_row. cbn [o_active]. rewrite Pa. cbn.
      split; [reflexivity|]. split; [reflexivity|]. destruct (String.eqb (o_name o) g); [rewrite A; ring|ring].
    + apply IH. intros o' I. apply P'. now right.
  - exfalso. destruct (controls_ok s n0 nc c (t_gens tb) N1 N2 E NG (gens_of_match _ _ _ M) P) as (_ & _ & _ & _ & (g & Hg' & _) & _).
    congruence.
Qed.
End L.

Lemma taken_sub n x t bs b : closed n t bs -> In b bs ->
  taken n x t b == total (fun vb => leaving x t (fst vb) b (snd vb)) (sub_branches n bs).
Proof.
  intros C I. unfold sub_branches. rewrite total_filter.
  assert (G : forall v l, (forall br, In br l -> In br (lines n ++ trafos n)) ->
    total (fun a => if inb bs (b_bus0 (snd a)) then leaving x t (fst a) b (snd a) else 0) (map (pair v) l)
    == total (leaving x t v b) l).
  { intros v l IL. rewrite total_map. apply total_ext. intros br J. cbn [fst snd].
    destruct (inb bs (b_bus0 br)) eqn:B; [reflexivity|]. symmetry. unfold leaving.
    destruct (b_active br t) eqn:A.
    - pose proof (inb_ends n t bs br (IL br J) C A) as B1. rewrite B in B1.
      assert (X : forall a, inb bs a = false -> forall q, at_bus a b q == 0).
      { intros a H q. unfold at_bus. destruct (String.eqb_spec a b); [|reflexivity]. subst.
        apply inb_In in I. congruence. }
      rewrite !X; auto. ring.
    - rewrite !(at_bus_0 _ b) by (apply flow_off; exact A). ring. }
  rewrite total_app, !G; [reflexivity| |]; intros br J; apply in_or_app; tauto.
Qed.

Theorem fixed_lpf s n0 nc c n losses x sns t tb :
  optimised s n0 nc c n losses x sns t tb -> no_conductance tb ->
  let r := lpf_out c (fix_optimal_dispatch tb) in
  (forall b, In b (buses_o c) -> r_p r b == taken n x t b + lost_at n x t losses b -
     (if String.eqb b (slack_bus (ctl_slack c)) then loss_in n x t (buses_o c) losses else 0)) /\
  slack_lowered c (loss_in n x t (buses_o c) losses) (t_gens tb) (t_gens (r_tabs r)) /\
  Forall2 same_p (t_rest tb) (t_rest (r_tabs r)).
Proof.
  intros (N1 & N2 & N3 & E & NG & M & P & St & R & C & HB) NS r. split; [|split].
  - intros b I. exact (lpf_at s n0 nc c n x sns t tb losses N1 N2 N3 E NG M P St R C HB NS b I).
  - exact (lpf_rows s n0 nc c n x sns t tb losses N1 N2 N3 E NG M P St R C HB NS).
  - assert (X : t_rest (r_tabs r) = map (map dispatch) (map (map fix_row) (t_rest tb))).
    { unfold r, lpf_out. cbn [r_tabs]. destruct (slack_generator (ctl_slack c)); reflexivity. }
    rewrite X. clear. induction (t_rest tb) as [|l ls IH]; cbn [map]; constructor; auto.
    unfold same_p. clear. induction l as [|o l IH]; cbn [map]; constructor; auto.
    unfold dispatch, fix_row. cbn [o_active]. destruct (o_active o); cbn; repeat split; reflexivity.
Qed.

Lemma lost_lossless n x t bs b : lost_at n x t false b == 0 /\ loss_in n x t bs false == 0.
Proof. split; reflexivity. Qed.

Theorem fixed_lpf_lossless s n0 nc c n x sns t tb :
  optimised s n0 nc c n false x sns t tb -> no_conductance tb ->
  let r := lpf_out c (fix_optimal_dispatch tb) in
  (forall b, In b (buses_o c) -> r_p r b == taken n x t b) /\
  same_p (t_gens tb) (t_gens (r_tabs r)) /\ Forall2 same_p (t_rest tb) (t_rest (r_tabs r)).
Proof.
  intros O NS r. destruct (fixed_lpf s n0 nc c n false x sns t tb O NS) as (A & B & D). fold r in A, B, D.
  split; [|split; [|exact D]].
  - intros b I. rewrite (A b I). cbn [lost_at loss_in]. destruct (String.eqb b (slack_bus (ctl_slack c))); ring.
  - unfold slack_lowered in B. unfold same_p. clear -B. induction B as [|o o' l r' H B IH]; constructor; auto.
    destruct H as (H1 & H2 & H3). repeat split; auto. rewrite H3. cbn [loss_in].
    destruct (slack_generator (ctl_slack c)) as [g|]; [destruct (String.eqb (o_name o) g)|]; ring.
Qed.

Theorem fixed_pf s n0 nc c n losses x sns t tb sp sq tol :
  optimised s n0 nc c n losses x sns t tb -> 0 <= tol ->
  (forall b, In b (pvs c ++ pqs c) -> close tol (sp b) (set_p (fix_optimal_dispatch tb) b)) ->
  exists r, pf_out c nc sp sq (fix_optimal_dispatch tb) = inl r /\
    (forall b, In b (buses_o c) -> b <> slack_bus (ctl_slack c) ->
       r_p r b == taken n x t b + lost_at n x t losses b /\ close tol (sp b) (taken n x t b + lost_at n x t losses b)) /\
    Forall2 (fun o o' => o_name o' = o_name o /\ (slack_generator (ctl_slack c) <> Some (o_name o) -> o_p o' == o_p o))
      (t_gens tb) (t_gens (r_tabs r)).
Proof.
  intros (N1 & N2 & N3 & E & NG & M & P & St & R & C & HB) HT SP.
  destruct (controls_ok s n0 nc c (t_gens tb) N1 N2 E NG (gens_of_match _ _ _ M) P) as (_ & _ & _ & _ & (g & Hg & _) & _).
  destruct (proj1 (pf_defined c nc sp sq (fix_optimal_dispatch tb)) (ex_intro _ g Hg)) as [r Er]. exists r.
  split; [exact Er|]. pose proof (buses_o_shape s n0 nc c E) as SH. split.
  - intros b I NB.
    assert (NE : b <> "") by (intros ->; apply N3; eapply controls_in; eauto).
    pose proof (fixed_set_points n x sns t St (buses_o c) tb losses b R I NE (HB b I)) as S0.
    split.
    + unfold pf_out in Er. rewrite Hg in Er. injection Er as <-. cbn [r_p].
      destruct (String.eqb_spec b (slack_bus (ctl_slack c))) as [X|X]; [contradiction|].
      rewrite (proj1 (pf_injection (fix_optimal_dispatch tb) b NE)). exact S0.
    + assert (I' : In b (pvs c ++ pqs c)) by (rewrite SH in I; destruct I as [I|I]; [congruence|exact I]).
      specialize (SP b I'). unfold close in *. rewrite S0 in SP. exact SP.
  - destruct (pf_untouched c nc sp sq _ _ Er) as (_ & _ & F). cbn [t_gens fix_optimal_dispatch] in F.
    clear -F P. revert F P. generalize (t_gens (r_tabs r)) as l'. induction (t_gens tb) as [|o l IH]; intros l' F P; inversion F; subst; constructor.
    + destruct H1 as (A & _ & _ & B & _). split; [exact A|]. intros NS. rewrite (B NS). unfold plain_p. cbn [fix_row o_active o_pset].
      destruct (o_active o); reflexivity.
    + apply IH; auto. intros o' I. apply P. now right.
Qed.

(* the constraints of the optimisation give the balance assumed above *)
Theorem balance_of n losses x T cols thr cs t bs :
  nodal_balance n losses T cols thr = Some cs -> (forall b, In b (meshed cols thr) -> In b (BalanceModel.buses n)) ->
  sat x cs -> (t < T)%nat -> (forall b, In b bs -> In b (BalanceModel.buses n)) ->
  forall b, In b bs -> net_power n losses x t b == demand n t b.
Proof. intros B MM SA LT IB b I. apply (nodal_iff n losses x T cols thr cs B MM); auto. Qed.

Lemma optimised_nodup s n0 nc c n losses x sns t tb : optimised s n0 nc c n losses x sns t tb -> NoDup (buses_o c).
Proof.
  intros (N1 & N2 & N3 & E & NG & M & P & _). exact (NDo s n0 nc c tb N1 N2 E NG M P).
Qed.
Lemma optimised_closed s n0 nc c n losses x sns t tb : optimised s n0 nc c n losses x sns t tb -> closed n t (buses_o c).
Proof. intros (_ & _ & _ & _ & _ & _ & _ & _ & _ & C & _). exact C. Qed.

Lemma Forall2_map {A} (P : A -> A -> Prop) (f : A -> A) l : (forall a, P a (f a)) -> Forall2 P l (map f l).
Proof. intros H. induction l; cbn [map]; constructor; auto. Qed.
Lemma fixed_tables tb : let tb' := fix_optimal_dispatch tb in
  Forall2 fixed_one (t_gens tb) (t_gens tb') /\ Forall2 (Forall2 fixed_one) (t_rest tb) (t_rest tb') /\ Forall2 fixed_link (t_links tb) (t_links tb') /\
  t_shunts tb' = t_shunts tb /\ t_ports tb' = t_ports tb.
Proof.
  cbv zeta. unfold fix_optimal_dispatch. cbn [t_gens t_rest t_links t_shunts t_ports].
  split; [apply Forall2_map; intros o; repeat split|]. split; [apply Forall2_map; intros l; apply Forall2_map; intros o; repeat split|].
  split; [apply Forall2_map; intros l; repeat split|]. split; reflexivity.
Qed.
