From Coq Require Import List String Bool QArith ZArith Arith Lia Lqa.
From Verif Require Import LinModel WholeModel IdleSpec OrderSpec StretchSpec StretchProofs.
From Verif Require DispatchModel RampModel CommitModel BalanceModel StorageModel LimitModel CapModel LossModel ObjectiveModel OrderProofs.
Import ListNotations.
Open Scope string_scope.
Open Scope list_scope.
Open Scope Q_scope.

Lemma at_nil s : at_time s [].
Proof. intros c a u i []. Qed.
Lemma at_cons s q v l : (forall a u i, v = Some (a, u, i) -> timed a = true -> u = s) -> at_time s l -> at_time s ((q, v) :: l).
Proof. intros H K c a u i [J|J]; [injection J as -> ->; now apply (H a u i)|now apply (K c a u i)]. Qed.
Lemma un_nil : untimed [].
Proof. intros c a u i []. Qed.
Lemma un_cons q a u i l : timed a = false -> untimed l -> untimed ((q, Some (a, u, i)) :: l).
Proof. intros H K c a' u' i' [J|J]; [injection J as _ <- _ _; exact H|now apply (K c a' u' i')]. Qed.
Lemma static_add {A B} (L : list A) (u w : A -> B) p mk f : (forall a, p (u a) = p (w a)) -> (forall a, mk O (u a) = mk O (w a)) -> (forall a, f O (u a) = f O (w a)) ->
  add_constraints [O] (filter p (map u L)) mk f = add_constraints [O] (filter p (map w L)) mk f.
Proof.
  intros P M F. unfold add_constraints. cbn [flat_map]. f_equal. rewrite !filter_maps. rewrite (filter_ext _ (fun a => p (w a))) by exact P.
  induction (filter (fun a => p (w a)) L) as [|a r IH]; [reflexivity|]. cbn [map flat_map]. now rewrite M, F, IH.
Qed.
Lemma untimed_add {A} ts (L : list A) mk f : (forall t a, In a L -> untimed (lhs (f t a))) -> forall c, In c (add_constraints ts L mk f) -> untimed (lhs c).
Proof.
  intros H c J. unfold add_constraints in J. apply in_flat_map in J. destruct J as (t & _ & J). apply in_flat_map in J. destruct J as (a & Ja & J). destruct (mk t a); [|destruct J]. destruct J as [<-|[]]. now apply H.
Qed.

Section P.
Variables (rep : nat -> nat) (T : nat) (wo wg ws : nat -> Q) (n : net).
Hypothesis G : groups rep T wo wg n.
Hypothesis D : decoupled n.
Notation N := (nsnaps n).
Notation fine := (stretched rep T wo wg ws n).
Notation st := (stretch rep).
Notation inst := (inst rep T n).

Lemma class_fine c : of_class fine c = map st (of_class n c).
Proof. unfold of_class. cbn [stretched assets]. rewrite filter_maps. reflexivity. Qed.
Lemma class_in c a : In a (of_class n c) -> In a (assets n) /\ cls a = c.
Proof. intros J. apply filter_In in J. split; [apply J|]. now apply String.eqb_eq. Qed.
Lemma no_class c : existsb (String.eqb c) ["Generator"; "Line"; "Transformer"; "Link"] = false -> of_class n c = [].
Proof.
  intros E. destruct (of_class n c) as [|a r] eqn:F; [reflexivity|]. assert (J : In a (of_class n c)) by (rewrite F; now left). apply class_in in J. destruct J as [J C].
  pose proof (dc_classes _ D a J) as K. rewrite C in K. enough (existsb (String.eqb c) ["Generator"; "Line"; "Transformer"; "Link"] = true) by congruence.
  apply existsb_exists. exists c. split; [exact K|apply String.eqb_refl].
Qed.
Lemma com_off a : In a (assets n) -> com a = false.
Proof. intros J. unfold com. now rewrite (dc_uc _ D a J). Qed.

Lemma capacity_of_same c nattr : capacity_of fine c nattr = capacity_of n c nattr.
Proof.
  unfold capacity_of. rewrite class_fine, map_map. unfold DispatchModel.nominal, DispatchModel.fixed_nominal, DispatchModel.modular, DispatchModel.ext_assets, DispatchModel.mod_assets.
  f_equal; [f_equal|f_equal]; apply (static_add _ (fun a => d_view "" (st a)) (d_view "")); reflexivity.
Qed.
Lemma capacity_inst : inst (capacity fine) (capacity n).
Proof.
  assert (E : capacity fine = capacity n) by (unfold capacity; apply flat_map_ext; intros; apply capacity_of_same). rewrite E. apply inst_static.
  intros c J. unfold capacity in J. apply in_flat_map in J. destruct J as ([k at_] & Jk & J). cbn [fst snd] in J.
  assert (X : timed (k ++ "-" ++ at_) = false /\ timed (k ++ "-" ++ "n_mod") = false).
  { cbn [nominal_attrs In] in Jk. repeat (destruct Jk as [Jk|Jk]; [injection Jk as <- <-; split; reflexivity|]). destruct Jk. }
  destruct X as [X Y]. unfold capacity_of, DispatchModel.nominal, DispatchModel.fixed_nominal, DispatchModel.modular in J. rewrite !in_app_iff in J.
  destruct J as [[J|J]|[J|J]]; revert J; apply untimed_add; intros t a _; cbn [DispatchModel.mk lhs]; unfold DispatchModel.cap, DispatchModel.n_mod, DispatchModel.vname;
    repeat (apply un_cons; [assumption|]); apply un_nil.
Qed.

Lemma op_stamp c attr v a t : timed (c ++ "-" ++ v) = true -> DispatchModel.op c v (d_view attr (st a)) t = stamp t (DispatchModel.op c v (d_view attr a) (rep t)).
Proof.
  intros H. unfold DispatchModel.op. cbn [d_view DispatchModel.active on stretch flag DispatchModel.name nm]. unfold on. cbn [stretch flag]. destruct (flag a); [|reflexivity].
  cbn [stamp]. unfold DispatchModel.vname. now rewrite H.
Qed.
Lemma op_at c attr v a s : forall x u i, DispatchModel.op c v (d_view attr a) s = Some (x, u, i) -> timed x = true -> u = s.
Proof. intros x u i. unfold DispatchModel.op. destruct (DispatchModel.active _ _); [|discriminate]. intros H _. now injection H. Qed.
Lemma cap_at c nattr a s : timed (c ++ "-" ++ nattr) = false -> forall x u i, DispatchModel.cap c nattr a = Some (x, u, i) -> timed x = true -> u = s.
Proof. intros H x u i E K. injection E as <- _ _. unfold DispatchModel.vname in K. congruence. Qed.
Lemma cap_stamp c nattr a t : timed (c ++ "-" ++ nattr) = false -> stamp t (DispatchModel.cap c nattr (d_view "" a)) = DispatchModel.cap c nattr (d_view "" a).
Proof. intros H. unfold DispatchModel.cap, stamp, DispatchModel.vname. now rewrite H. Qed.

Section Op.
Variables (c attr nattr : string) (k : DispatchModel.kind).
Hypothesis TA : of_class n c <> [] -> timed (c ++ "-" ++ attr) = true /\ timed (c ++ "-" ++ nattr) = false /\ (k = DispatchModel.Passive -> timed (c ++ "-" ++ "loss") = true).
Hypothesis KS : of_class n c <> [] -> k = DispatchModel.Passive \/ k = DispatchModel.Other.
Lemma ta p a : In a (filter p (of_class n c)) -> timed (c ++ "-" ++ attr) = true /\ timed (c ++ "-" ++ nattr) = false /\ (k = DispatchModel.Passive -> timed (c ++ "-" ++ "loss") = true).
Proof. intros J. apply TA. apply filter_In in J. intros E. rewrite E in J. now destruct J. Qed.
Lemma ks p a : In a (filter p (of_class n c)) -> k = DispatchModel.Passive \/ k = DispatchModel.Other.
Proof. intros J. apply KS. apply filter_In in J. intros E. rewrite E in J. now destruct J. Qed.
Lemma bounds_stretch p a t : In a (filter p (of_class n c)) -> DispatchModel.bounds_pu k (d_view attr (st a)) t = DispatchModel.bounds_pu k (d_view attr a) (rep t).
Proof. intros J. destruct (ks p a J) as [-> | ->]; reflexivity. Qed.
Lemma loss_stamp p lo q a t : In a (filter p (of_class n c)) ->
  DispatchModel.loss_term c k lo q (d_view attr (st a)) t = stamps t (DispatchModel.loss_term c k lo q (d_view attr a) (rep t)).
Proof.
  intros J. destruct (ta p a J) as (_ & _ & H). unfold DispatchModel.loss_term, DispatchModel.is_passive. destruct k; try reflexivity. cbn [andb]. destruct lo; [|reflexivity].
  cbn [stamps map fst snd]. now rewrite op_stamp by now apply H.
Qed.
Lemma loss_at lo q a s : at_time s (DispatchModel.loss_term c k lo q (d_view attr a) s).
Proof. unfold DispatchModel.loss_term. destruct (_ && _); [|apply at_nil]. apply at_cons; [apply op_at|apply at_nil]. Qed.
Lemma views_filter p (u : asset -> DispatchModel.asset) : filter p (map u (map st (of_class n c))) = map (fun a => u (st a)) (filter (fun a => p (u (st a))) (of_class n c)).
Proof. rewrite map_map. apply filter_maps. Qed.
Ltac fam := rewrite views_filter, filter_maps; apply (inst_add rep T wo wg n G);
  [intros; reflexivity
  |intros t a J; unfold stamp_con; cbn [DispatchModel.mk lhs sns rhs]
  |intros s a J; cbn [DispatchModel.mk lhs]].
Lemma fixed_inst lo : inst (DispatchModel.non_extendables c attr k lo T (map (d_view attr) (of_class fine c))) (DispatchModel.non_extendables c attr k lo N (map (d_view attr) (of_class n c))).
Proof.
  rewrite class_fine. unfold DispatchModel.non_extendables, DispatchModel.fixed_assets, DispatchModel.snaps. apply inst_app; fam.
  1,3: cbn [stamps map fst snd]; rewrite (bounds_stretch _ a t J), (loss_stamp _ lo _ a t J), op_stamp by apply (ta _ a J); reflexivity.
  1,2: apply at_cons; [apply op_at|apply loss_at].
Qed.
Lemma ext_inst lo : inst (DispatchModel.extendables c attr nattr k lo T (map (d_view attr) (of_class fine c))) (DispatchModel.extendables c attr nattr k lo N (map (d_view attr) (of_class n c))).
Proof.
  rewrite class_fine. unfold DispatchModel.extendables, DispatchModel.ext_assets, DispatchModel.snaps. apply inst_app; fam.
  1,3: cbn [stamps map fst snd]; rewrite (bounds_stretch _ a t J), (loss_stamp _ lo _ a t J), op_stamp by apply (ta _ a J);
    change (DispatchModel.cap c nattr (d_view attr (st a))) with (DispatchModel.cap c nattr (d_view "" a)); change (DispatchModel.cap c nattr (d_view attr a)) with (DispatchModel.cap c nattr (d_view "" a));
    rewrite cap_stamp by apply (ta _ a J); reflexivity.
  1,2: apply at_cons; [apply op_at|]; apply at_cons; [apply cap_at, (ta _ a J)|apply loss_at].
Qed.
Lemma com_inst : inst (DispatchModel.committables c T (map (d_view attr) (of_class fine c))) (DispatchModel.committables c N (map (d_view attr) (of_class n c))).
Proof.
  rewrite class_fine. unfold DispatchModel.committables, DispatchModel.com_assets, DispatchModel.snaps.
  apply inst_app; fam; exfalso; apply filter_In in J; destruct J as [J E]; apply class_in in J; cbn in E; rewrite (com_off a (proj1 J)) in E; discriminate.
Qed.
Lemma set_inst : inst (DispatchModel.fixed_operation c attr T (map (d_view attr) (of_class fine c))) (DispatchModel.fixed_operation c attr N (map (d_view attr) (of_class n c))).
Proof.
  rewrite class_fine, map_map. unfold DispatchModel.fixed_operation, DispatchModel.snaps. apply (inst_add rep T wo wg n G).
  - reflexivity.
  - intros t a J. unfold stamp_con. cbn [DispatchModel.mk lhs sns rhs stamps map fst snd]. rewrite op_stamp; [reflexivity|]. apply TA. intros E. rewrite E in J. destruct J.
  - intros s a J. cbn [DispatchModel.mk lhs]. apply at_cons; [apply op_at|apply at_nil].
Qed.
Lemma no_com m : (forall a, In a (assets m) -> com a = false) -> filter com (of_class m c) = [].
Proof.
  intros H. destruct (filter com (of_class m c)) as [|a r] eqn:E; [reflexivity|]. assert (J : In a (filter com (of_class m c))) by (rewrite E; now left).
  apply filter_In in J. destruct J as [J F]. apply filter_In in J. rewrite (H a) in F by tauto. discriminate.
Qed.
Lemma fine_com a : In a (assets fine) -> com a = false.
Proof. cbn [stretched assets]. intros J. apply in_map_iff in J. destruct J as (b & <- & J). exact (com_off b J). Qed.
Lemma no_ramp m T' : (forall a t, In a (assets m) -> up a t = None /\ down a t = None) -> RampModel.ramps c nattr T' false (map r_view (of_class m c)) = [].
Proof.
  intros H. unfold RampModel.ramps. assert (E : RampModel.early_return T' (map r_view (of_class m c)) = true).
  { unfold RampModel.early_return. apply orb_true_iff. left. unfold RampModel.everywhere. apply forallb_forall. intros r J. apply in_map_iff in J. destruct J as (a & <- & J).
    apply forallb_forall. intros t _. apply filter_In in J. destruct (H a t (proj1 J)) as [E1 E2]. cbn [r_view RampModel.up RampModel.down]. now rewrite E1, E2. }
  now rewrite E.
Qed.
Lemma operation_of_inst : inst (operation_of fine (c, attr, nattr, k)) (operation_of n (c, attr, nattr, k)).
Proof.
  unfold operation_of. change (nsnaps fine) with T. change (lossy fine) with (lossy n).
  apply inst_app; [apply fixed_inst|]. apply inst_app; [apply ext_inst|]. apply inst_app; [apply com_inst|].
  apply inst_app; [|apply inst_app; [|apply set_inst]].
  - unfold commitment_of. rewrite (no_com fine fine_com), (no_com n com_off). apply inst_static. intros d [].
  - destruct (has_uc c); [|apply inst_static; intros d []]. rewrite (no_ramp fine T), (no_ramp n N).
    + apply inst_static. intros d [].
    + apply (dc_ramps _ D).
    + intros a t J. cbn [stretched assets] in J. apply in_map_iff in J. destruct J as (b & <- & J). exact (dc_ramps _ D b (rep t) J).
Qed.
End Op.
Lemma operation_inst : inst (operation fine) (operation n).
Proof.
  unfold operation. apply inst_flat. intros [[[c attr] nattr] k] J. apply operation_of_inst; cbn [operations In] in J;
    repeat (destruct J as [J|J]; [injection J as <- <- <- <-; first [intros _; repeat split; (reflexivity || intros X; discriminate X) | intros _; (now left) || (now right) | intros E; exfalso; apply E; apply no_class; reflexivity]|]); destruct J.
Qed.

(* nodal balance *)
Definition stamp_entry (t : nat) (e : BalanceModel.entry) : BalanceModel.entry := (fst e, (fst (snd e), stamp t (snd (snd e)))).
Lemma lab_stamp v a t : timed v = true -> BalanceModel.lab (on (st a)) v (nm a) t = stamp t (BalanceModel.lab (on a) v (nm a) (rep t)).
Proof. intros H. unfold BalanceModel.lab, on. cbn [stretch flag]. destruct (flag a); [|reflexivity]. cbn [stamp]. now rewrite H. Qed.
Lemma one_stamp sg v c t : timed v = true -> BalanceModel.one sg v (map c_view (map st (of_class n c))) t = map (stamp_entry t) (BalanceModel.one sg v (map c_view (of_class n c)) (rep t)).
Proof. intros H. unfold BalanceModel.one. rewrite !map_map. apply map_ext. intros a. unfold stamp_entry. cbn [fst snd c_view BalanceModel.c_bus BalanceModel.c_sign BalanceModel.c_active BalanceModel.c_name]. now rewrite <- lab_stamp. Qed.
Lemma br_stamp s0 s1 v c t : timed v = true -> BalanceModel.br s0 s1 v (map br_view (map st (of_class n c))) t = map (stamp_entry t) (BalanceModel.br s0 s1 v (map br_view (of_class n c)) (rep t)).
Proof.
  intros H. unfold BalanceModel.br. rewrite map_app, !map_map. f_equal; apply map_ext; intros a; unfold stamp_entry; cbn [fst snd br_view BalanceModel.b_bus0 BalanceModel.b_bus1 BalanceModel.b_active BalanceModel.b_name]; now rewrite <- lab_stamp.
Qed.
Lemma entries_stamp t : BalanceModel.entries (b_net fine) (lossy fine) t = map (stamp_entry t) (BalanceModel.entries (b_net n) (lossy n) (rep t)).
Proof.
  unfold BalanceModel.entries. change (lossy fine) with (lossy n).
  cbn [b_net BalanceModel.gens BalanceModel.stores BalanceModel.units BalanceModel.lines BalanceModel.trafos BalanceModel.links].
  rewrite !class_fine, (no_class "Store"), (no_class "StorageUnit") by reflexivity. rewrite !map_app.
  rewrite !one_stamp, !br_stamp by reflexivity. cbn [map].
  f_equal. f_equal. f_equal. f_equal. f_equal. f_equal. f_equal; [|f_equal; [|f_equal]].
  - rewrite !map_map. apply map_ext. intros a. unfold stamp_entry. cbn [fst snd l_view BalanceModel.l_bus0 BalanceModel.l_active BalanceModel.l_name]. now rewrite <- lab_stamp.
  - rewrite !map_map. apply map_ext. intros a. unfold stamp_entry. cbn [fst snd l_view BalanceModel.l_bus1 BalanceModel.l_eff1 BalanceModel.l_active BalanceModel.l_name]. now rewrite <- lab_stamp.
  - rewrite map_map. induction (of_class n "Link") as [|a r IH]; [reflexivity|]. cbn [map flat_map]. rewrite map_app, <- IH. f_equal. clear IH.
    cbn [l_view BalanceModel.l_ports BalanceModel.l_active BalanceModel.l_name stretch ports]. induction (ports a) as [|[b e] ps IH]; [reflexivity|]. cbn [map filter fst].
    destruct (negb (String.eqb b "")); [|exact IH]. cbn [map fst snd]. rewrite IH. f_equal. unfold stamp_entry. cbn [fst snd]. unfold again. now rewrite <- lab_stamp.
  - destruct (lossy n); [|reflexivity]. now rewrite map_app.
Qed.
Lemma bal_lhs b t : BalanceModel.balance_lhs (b_net fine) (lossy fine) b t = stamps t (BalanceModel.balance_lhs (b_net n) (lossy n) b (rep t)).
Proof.
  unfold BalanceModel.balance_lhs. rewrite entries_stamp, filter_maps. unfold stamps. rewrite !map_map. apply map_ext. intros e. reflexivity.
Qed.
Lemma bal_rhs b t : BalanceModel.balance_rhs (b_net fine) b t = BalanceModel.balance_rhs (b_net n) b (rep t).
Proof. unfold BalanceModel.balance_rhs. cbn [b_net BalanceModel.loads stretched loads]. rewrite filter_maps, map_map. reflexivity. Qed.
Lemma stamps_empty t l : BalanceModel.is_empty (stamps t l) = BalanceModel.is_empty l.
Proof. unfold BalanceModel.is_empty. induction l as [|[q [[[a u] i]|]] r IH]; cbn; auto. Qed.
Lemma entries_at s e a u i : In e (BalanceModel.entries (b_net n) (lossy n) s) -> snd (snd e) = Some (a, u, i) -> u = s.
Proof.
  assert (L : forall f v m, BalanceModel.lab f v m s = Some (a, u, i) -> u = s) by (intros f v m; unfold BalanceModel.lab; destruct (f s); [|discriminate]; intros H; now injection H).
  unfold BalanceModel.entries, BalanceModel.one, BalanceModel.br. intros J E. rewrite !in_app_iff in J.
  assert (K : forall X (l : list X) (g : X -> BalanceModel.entry), (forall y, exists f v m, snd (snd (g y)) = BalanceModel.lab f v m s) -> In e (map g l) -> u = s).
  { intros X l g H J'. apply in_map_iff in J'. destruct J' as (y & <- & _). destruct (H y) as (f & v & m & F). rewrite F in E. now apply L in E. }
  assert (K' : In e (flat_map (fun l => map (fun pe => (fst pe, (snd pe s, BalanceModel.lab (BalanceModel.l_active l) "Link-p" (BalanceModel.l_name l) s))) (filter (fun pe => negb (String.eqb (fst pe) "")) (BalanceModel.l_ports l))) (BalanceModel.links (b_net n))) -> u = s).
  { intros J'. apply in_flat_map in J'. destruct J' as (l & _ & J'). revert J'. apply K. intros y. cbn. eauto. }
  destruct (lossy n); [rewrite !in_app_iff in J|cbn [In] in J];
  repeat match type of J with _ \/ _ => destruct J as [J|J] | (_ \/ _) \/ _ => destruct J as [J|J] end;
  solve [now apply K' in J|revert J; apply K; intros y; cbn; eauto|destruct J].
Qed.
Lemma bal_at s b : at_time s (BalanceModel.balance_lhs (b_net n) (lossy n) b s).
Proof.
  intros q a u i J _. unfold BalanceModel.balance_lhs in J. apply in_map_iff in J. destruct J as (e & E & J). apply filter_In in J.
  apply (entries_at s e a u i (proj1 J)). now rewrite E.
Qed.
Lemma exists_stretch (f : nat -> bool) : existsb (fun t => f (rep t)) (seq 0 T) = existsb f (seq 0 N).
Proof.
  apply eq_true_iff_eq. rewrite !existsb_exists. split.
  - intros (t & J & H). apply in_seq in J. exists (rep t). split; [|exact H]. apply in_seq. split; [lia|]. apply (gr_in _ _ _ _ _ G). lia.
  - intros (s & J & H). apply in_seq in J. destruct (gr_onto _ _ _ _ _ G s ltac:(lia)) as (t & L & E). exists t. split; [apply in_seq; lia|]. now rewrite E.
Qed.
Lemma balances_good : ogood rep T wo (balances fine) (balances n).
Proof.
  unfold balances, BalanceModel.balance. change (buses fine) with (buses n). change (nsnaps fine) with T.
  assert (E1 : BalanceModel.no_terms (b_net fine) (lossy fine) (buses n) = BalanceModel.no_terms (b_net n) (lossy n) (buses n)).
  { assert (K : forall m lo s s', existsb (fun e => existsb (String.eqb (fst e)) (buses n)) (BalanceModel.entries m lo s) = existsb (fun e => existsb (String.eqb (fst e)) (buses n)) (BalanceModel.entries m lo s')).
    { intros m lo s s'. assert (F : map fst (BalanceModel.entries m lo s) = map fst (BalanceModel.entries m lo s')).
      { unfold BalanceModel.entries, BalanceModel.one, BalanceModel.br. rewrite !map_app, !map_map. cbn [fst]. repeat match goal with |- (_ ++ _)%list = (_ ++ _)%list => apply f_equal2 end; try reflexivity.
        - induction (BalanceModel.links m) as [|l r IH]; [reflexivity|]. cbn [flat_map]. now rewrite !map_app, !map_map, IH.
        - destruct lo; [|reflexivity]. rewrite !map_app, !map_map. reflexivity. }
      assert (X : forall l, existsb (fun e : BalanceModel.entry => existsb (String.eqb (fst e)) (buses n)) l = existsb (fun b => existsb (String.eqb b) (buses n)) (map fst l)) by (induction l as [|e r IH]; cbn; [reflexivity|now rewrite IH]).
      now rewrite !X, F. }
    unfold BalanceModel.no_terms. f_equal. rewrite entries_stamp, (K _ _ 0%nat (rep 0)). induction (BalanceModel.entries (b_net n) (lossy n) (rep 0)) as [|e r IH]; [reflexivity|]. cbn. now rewrite IH. }
  assert (E2 : BalanceModel.empty_demand (b_net fine) (lossy fine) (buses n) T = BalanceModel.empty_demand (b_net n) (lossy n) (buses n) N).
  { unfold BalanceModel.empty_demand. rewrite <- exists_stretch. apply OrderProofs.existsb_cong. intros t. apply OrderProofs.existsb_cong. intros b. now rewrite bal_lhs, bal_rhs, stamps_empty. }
  rewrite E1, E2. destruct (_ || _); [exact Logic.I|]. cbn [ogood]. apply (good_inst rep T wo wg n G).
  rewrite <- (map_id (buses n)). apply (inst_add rep T wo wg n G).
  - intros t b _. now rewrite bal_lhs, stamps_empty.
  - intros t b _. unfold stamp_con. cbn [lhs sns rhs]. now rewrite bal_lhs, bal_rhs.
  - intros s b _. cbn [lhs]. apply bal_at.
Qed.

(* Kirchhoff's voltage law *)
Lemma kvl_good cycles : cycles_ok rep cycles ->
  good rep T wo (kirchhoff cycles T (filter passive (assets fine))) (kirchhoff cycles N (filter passive (assets n))).
Proof.
  intros C. cbn [stretched assets]. rewrite filter_maps. change (fun a => passive (st a)) with passive. unfold kirchhoff. destruct (C (filter passive (assets n))) as [-> F].
  apply (good_inst rep T wo wg n G). set (cs := cycles (filter passive (assets n))) in *.
  assert (TM : forall cy e, In cy cs -> In e cy -> timed (fst (snd e)) = true) by (intros cy e J K; destruct (F cy e J K) as [-> | ->]; reflexivity).
  assert (ST : forall cy t s, In cy cs -> stamps t (map (fun e : Q * (string * string) => (fst e, Some (fst (snd e), s, snd (snd e)))) cy) = map (fun e : Q * (string * string) => (fst e, Some (fst (snd e), t, snd (snd e)))) cy).
  { intros cy t s J. unfold stamps. rewrite map_map. apply map_ext_in. intros e K. cbn [fst snd stamp]. now rewrite (TM cy e J K). }
  assert (AT : forall cy s, at_time s (map (fun e : Q * (string * string) => (fst e, Some (fst (snd e), s, snd (snd e)))) cy)).
  { intros cy s q a u i J _. apply in_map_iff in J. destruct J as (e & E & _). now injection E. }
  split.
  - intros c J. apply in_flat_map in J. destruct J as (t & Jt & J). apply in_seq in Jt. apply in_map_iff in J. destruct J as (cy & <- & J). right. exists t.
    eexists. split; [lia|]. split; [apply in_flat_map; exists (rep t); split; [apply in_seq; split; [lia|]; apply (gr_in _ _ _ _ _ G); lia|apply in_map_iff; exists cy; split; [reflexivity|exact J]]|].
    split; [apply AT|]. unfold stamp_con. cbn [lhs sns rhs]. now rewrite ST.
  - intros d J. apply in_flat_map in J. destruct J as (s & Js & J). apply in_seq in Js. apply in_map_iff in J. destruct J as (cy & <- & J). right. exists s. split; [lia|]. split; [apply AT|].
    intros t L _. apply in_flat_map. exists t. split; [apply in_seq; lia|]. apply in_map_iff. exists cy. split; [|exact J]. unfold stamp_con. cbn [lhs sns rhs]. now rewrite ST.
Qed.

(* storage: none *)
Lemma no_storage : storage_units fine = [] /\ storage_units n = [] /\ stores fine = [] /\ stores n = [].
Proof. unfold storage_units, stores. rewrite !class_fine, (no_class "StorageUnit"), (no_class "Store") by reflexivity. repeat split. Qed.

(* losses *)
Lemma losses_good c : c = "Line" \/ c = "Transformer" -> ogood rep T wo (losses fine c) (losses n c).
Proof.
  intros C. unfold losses. change (lossy fine) with (lossy n). destruct (lossy n); [|apply good_nil]. change (tangents fine) with (tangents n). change (nsnaps fine) with T.
  rewrite class_fine, map_map. unfold LossModel.loss_constraints.
  assert (TS : timed (c ++ "-s") = true /\ timed (c ++ "-loss") = true) by (destruct C as [-> | ->]; split; reflexivity). destruct TS as [T1 T2].
  assert (FA : forallb (fun b => match LossModel.limit b with Some _ => true | None => false end) (map (fun a => lo_view (st a)) (of_class n c)) = forallb (fun b => match LossModel.limit b with Some _ => true | None => false end) (map lo_view (of_class n c))).
  { induction (of_class n c) as [|a r IH]; [reflexivity|]. cbn [map forallb]. now rewrite IH. }
  assert (LS : forall a t, LossModel.loss c (lo_view (st a)) t = stamp t (LossModel.loss c (lo_view a) (rep t))).
  { intros a t. unfold LossModel.loss. cbn [lo_view LossModel.b_active LossModel.b_name]. unfold on. cbn [stretch flag nm]. destruct (flag a); [|reflexivity]. cbn [stamp]. now rewrite T2. }
  assert (FS : forall a t, LossModel.flow c (lo_view (st a)) t = stamp t (LossModel.flow c (lo_view a) (rep t))).
  { intros a t. unfold LossModel.flow. cbn [lo_view LossModel.b_active LossModel.b_name]. unfold on. cbn [stretch flag nm]. destruct (flag a); [|reflexivity]. cbn [stamp]. now rewrite T1. }
  assert (LA : forall b s a u i, LossModel.loss c b s = Some (a, u, i) -> timed a = true -> u = s) by (intros b s a u i; unfold LossModel.loss; destruct (LossModel.b_active b s); [|discriminate]; intros H _; now injection H).
  assert (FL : forall b s a u i, LossModel.flow c b s = Some (a, u, i) -> timed a = true -> u = s) by (intros b s a u i; unfold LossModel.flow; destruct (LossModel.b_active b s); [|discriminate]; intros H _; now injection H).
  destruct (of_class n c) as [|a0 l0] eqn:EL; [apply good_nil|]. rewrite <- EL in *. 
  destruct (map (fun a => lo_view (st a)) (of_class n c)) as [|b1 l1] eqn:E1; [rewrite EL in E1; discriminate|]. rewrite <- E1 in *.
  destruct (map lo_view (of_class n c)) as [|b2 l2] eqn:E2; [rewrite EL in E2; discriminate|]. rewrite <- E2 in *.
  rewrite FA. clear FA. destruct (forallb _ _); [|exact Logic.I]. cbn [ogood]. apply (good_inst rep T wo wg n G). apply inst_app.
  - unfold LossModel.upper. apply (inst_add rep T wo wg n G); [reflexivity| |].
    + intros t a _. unfold stamp_con. cbn [lhs sns rhs stamps map fst snd]. rewrite LS. reflexivity.
    + intros s a _. cbn [lhs]. apply at_cons; [apply LA|apply at_nil].
  - apply inst_flat. intros k _. apply inst_flat. intros sg _. unfold LossModel.tangent. apply (inst_add rep T wo wg n G); [reflexivity| |].
    + intros t a _. unfold stamp_con. cbn [lhs sns rhs stamps map fst snd]. rewrite LS, FS. reflexivity.
    + intros s a _. cbn [lhs]. apply at_cons; [apply LA|]. apply at_cons; [apply FL|apply at_nil].
Qed.

(* sums over snapshots *)
Lemma horizon : existsb (fun _ => true) (seq 0 T) = existsb (fun _ => true) (seq 0 N).
Proof. exact (exists_stretch (fun _ => true)). Qed.
Lemma series_row y x (k C C' : nat -> Q) arr i (f : bool) v V : adds_up rep T wo n v V -> timed arr = true ->
  (forall t, (t < T)%nat -> C t == k (rep t) * v t) -> (forall s, (s < N)%nat -> C' s == k s * V s) ->
  eval (repeated rep y) (map (fun t => (C t, if f then Some (arr, t, i) else None)) (seq 0 T)) == eval y (map (fun s => (C' s, if f then Some (arr, s, i) else None)) (seq 0 N)) /\
  eval (averaged rep T wo x) (map (fun s => (C' s, if f then Some (arr, s, i) else None)) (seq 0 N)) == eval x (map (fun t => (C t, if f then Some (arr, t, i) else None)) (seq 0 T)).
Proof.
  intros A TM H H'. destruct f.
  - split; rewrite !eval_series; cbn [val].
    + rewrite (sum_ext (fun t => C t * repeated rep y (arr, t, i)) (fun t => k (rep t) * v t * y (arr, rep t, i))).
      * rewrite (series_rep rep T wo wg n G v V A k (fun s => y (arr, s, i))). apply sum_ext. intros s J. apply in_seq in J. rewrite H' by lia. reflexivity.
      * intros t J. apply in_seq in J. rewrite H by lia. cbn [repeated]. now rewrite TM.
    + rewrite (sum_ext (fun t => C t * x (arr, t, i)) (fun t => k (rep t) * v t * x (arr, t, i))).
      * rewrite <- (series_avg rep T wo wg n G v V A k (fun t => x (arr, t, i))). apply sum_ext. intros s J. apply in_seq in J. rewrite H' by lia. cbn [averaged]. now rewrite TM.
      * intros t J. apply in_seq in J. rewrite H by lia. reflexivity.
  - assert (Z : forall z (F : nat -> Q) l, eval z (map (fun t => (F t, @None var)) l) == 0).
    { intros z F l. induction l as [|t r IH]; [reflexivity|]. cbn [map eval val]. rewrite IH. ring. }
    now rewrite !Z.
Qed.
Lemma series_term (C C' : nat -> Q) arr i (f : bool) :
  existsb (fun cv : Q * label => match snd cv with Some _ => true | None => false end) (map (fun t => (C t, if f then Some (arr, t, i) else None)) (seq 0 T)) =
  existsb (fun cv : Q * label => match snd cv with Some _ => true | None => false end) (map (fun t => (C' t, if f then Some (arr, t, i) else None)) (seq 0 N)).
Proof.
  assert (E : forall (F : nat -> Q) l, existsb (fun cv : Q * label => match snd cv with Some _ => true | None => false end) (map (fun t => (F t, if f then Some (arr, t, i) else None)) l) = f && existsb (fun _ => true) l).
  { intros F l. induction l as [|t r IH]; cbn [map existsb snd]; [now rewrite andb_false_r|]. rewrite IH. now destruct f. }
  now rewrite !E, horizon.
Qed.
Lemma F2_maps {A B C} (P : B -> C -> Prop) (u : A -> list B) (w : A -> list C) l : (forall a, In a l -> Forall2 P (u a) (w a)) -> Forall2 P (flat_map u l) (flat_map w l).
Proof. induction l as [|a r IH]; intros H; [constructor|]. cbn. apply Forall2_app; [apply H; now left|apply IH; intros b J; apply H; now right]. Qed.
Lemma flat_map_map {A B C} (f : A -> B) (g : B -> list C) l : flat_map g (map f l) = flat_map (fun a => g (f a)) l.
Proof. induction l as [|a r IH]; cbn; [reflexivity|]. now rewrite IH. Qed.
Lemma supply_row a s q : sumrow rep T wo {| lhs := CapModel.supply_terms wg (seq 0 T) (sup_view (st a)); sns := s; rhs := q |}
  {| lhs := CapModel.supply_terms (w_gen n) (seq 0 N) (sup_view a); sns := s; rhs := q |}.
Proof.
  unfold sumrow, CapModel.has_term, CapModel.supply_terms. cbn [lhs sns rhs]. split; [|split; [reflexivity|split; [reflexivity|split]]].
  - exact (series_term wg (w_gen n) "Generator-p" (nm a) (flag a)).
  - intros y. apply (series_row y y (fun _ => 1) wg (w_gen n) "Generator-p" (nm a) (flag a) wg (w_gen n)); [apply adds_gen; exact G|reflexivity|intros; ring|intros; ring].
  - intros x. apply (series_row x x (fun _ => 1) wg (w_gen n) "Generator-p" (nm a) (flag a) wg (w_gen n)); [apply adds_gen; exact G|reflexivity|intros; ring|intros; ring].
Qed.
Lemma supplies_good : good rep T wo (supplies fine) (supplies n).
Proof.
  apply good_sum. unfold supplies, CapModel.total_supply. rewrite class_fine, map_map. change (nsnaps fine) with T. change (w_gen fine) with wg.
  apply Forall2_app; rewrite !flat_map_map; apply F2_maps; intros a _; cbn [sup_view CapModel.u_min CapModel.u_max stretch e_min e_max].
  - destruct (e_min a); [|constructor]. constructor; [|constructor]. apply supply_row.
  - destruct (e_max a); [|constructor]. constructor; [|constructor]. apply supply_row.
Qed.
End P.
