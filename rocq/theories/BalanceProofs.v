From Coq Require Import List String Bool QArith Arith Lqa Lia.
From Verif Require Import LinModel LinProofs BalanceModel BalanceSpec.
Import ListNotations.
Open Scope string_scope.
Open Scope list_scope.
Open Scope Q_scope.

Lemma total_app {A} (f : A -> Q) l r : total f (l ++ r) == total f l + total f r.
Proof. induction l as [|a l IH]; cbn [total fold_right app]; [unfold total; ring|]. fold (total f (l ++ r)) (total f l). rewrite IH. ring. Qed.
Lemma total_map {A B} (f : B -> Q) (g : A -> B) l : total f (map g l) = total (fun a => f (g a)) l.
Proof. induction l as [|a l IH]; [reflexivity|]. cbn [map total fold_right]. fold (total f (map g l)). now rewrite IH. Qed.
Lemma total_flat {A B} (f : B -> Q) (g : A -> list B) l : total f (flat_map g l) == total (fun a => total f (g a)) l.
Proof.
  induction l as [|a l IH]; [reflexivity|]. cbn [flat_map]. rewrite total_app, IH. reflexivity.
Qed.
Lemma total_ext {A} (f g : A -> Q) l : (forall a, In a l -> f a == g a) -> total f l == total g l.
Proof.
  induction l as [|a l IH]; intros H; [reflexivity|]. cbn [total fold_right]. fold (total f l) (total g l).
  rewrite (H a) by (simpl; auto). rewrite IH; [reflexivity|]. intros b I. apply H. simpl. auto.
Qed.
Lemma total_plus {A} (f g : A -> Q) l : total (fun a => f a + g a) l == total f l + total g l.
Proof. induction l as [|a l IH]; [unfold total; simpl; ring|]. cbn [total fold_right]. fold (total f l) (total g l) (total (fun a => f a + g a) l). rewrite IH. ring. Qed.
Lemma total_minus {A} (f g : A -> Q) l : total (fun a => f a - g a) l == total f l - total g l.
Proof. induction l as [|a l IH]; [unfold total; simpl; ring|]. cbn [total fold_right]. fold (total f l) (total g l) (total (fun a => f a - g a) l). rewrite IH. ring. Qed.
Lemma total_scale {A} (f : A -> Q) c l : total (fun a => c * f a) l == c * total f l.
Proof. induction l as [|a l IH]; [unfold total; simpl; ring|]. cbn [total fold_right]. fold (total f l) (total (fun a => c * f a) l). rewrite IH. ring. Qed.
Lemma total_zero {A} (f : A -> Q) l : (forall a, In a l -> f a == 0) -> total f l == 0.
Proof. intros H. rewrite (total_ext f (fun a => 0 * f a)); [rewrite total_scale; ring|]. intros a I. rewrite (H a I). ring. Qed.
Lemma total_swap {A B} (f : A -> B -> Q) l r : total (fun a => total (f a) r) l == total (fun b => total (fun a => f a b) l) r.
Proof.
  induction l as [|a l IH].
  - symmetry. apply total_zero. reflexivity.
  - change (total (fun a => total (f a) r) (a :: l)) with (total (f a) r + total (fun a => total (f a) r) l).
    rewrite IH, <- total_plus. apply total_ext. intros b _. reflexivity.
Qed.
Lemma total_filter {A} (f : A -> Q) (g : A -> bool) l : total f (filter g l) == total (fun a => if g a then f a else 0) l.
Proof.
  induction l as [|a l IH]; [reflexivity|]. cbn [filter]. change (total (fun a => if g a then f a else 0) (a :: l)) with ((if g a then f a else 0) + total (fun a => if g a then f a else 0) l).
  destruct (g a); [change (total f (a :: filter g l)) with (f a + total f (filter g l))|]; rewrite IH; ring.
Qed.

Lemma at_bus_lin b b' c q : at_bus b b' (c * q) == c * at_bus b b' q.
Proof. unfold at_bus. destruct (String.eqb b b'); ring. Qed.

Lemma eqb_iff a b : String.eqb a b = true <-> a = b.
Proof. apply String.eqb_eq. Qed.

Lemma total_at b q l : NoDup l -> total (fun b' => at_bus b b' q) l == if existsb (String.eqb b) l then q else 0.
Proof.
  induction l as [|a l IH]; intros ND; [reflexivity|]. inversion ND as [|? ? NI ND']; subst.
  change (total (fun b' => at_bus b b' q) (a :: l)) with (at_bus b a q + total (fun b' => at_bus b b' q) l). rewrite (IH ND').
  cbn [existsb]. unfold at_bus. destruct (String.eqb_spec b a) as [->|N]; cbn [orb]; [|ring].
  destruct (existsb (String.eqb a) l) eqn:E; [|ring]. apply existsb_exists in E. destruct E as [c [I E]]. apply eqb_iff in E. subst c. contradiction.
Qed.
Lemma total_at_In b q l : NoDup l -> In b l -> total (fun b' => at_bus b b' q) l == q.
Proof.
  intros ND I. rewrite total_at by auto.
  assert (E : existsb (String.eqb b) l = true) by (apply existsb_exists; exists b; split; auto; apply String.eqb_refl).
  now rewrite E.
Qed.

Section P.
Variable n : net.
Variable losses : bool.
Variable x : sol.

Lemma val_lab act v nm t : val x (lab act v nm t) = value x act v nm t.
Proof. unfold lab, value. now destruct (act t). Qed.

Definition ev (b : string) (e : entry) : Q := at_bus (fst e) b (fst (snd e) * val x (snd (snd e))).
Lemma eval_filter b (l : list entry) : eval x (map snd (filter (fun e => String.eqb (fst e) b) l)) == total (ev b) l.
Proof.
  induction l as [|[b' [c v]] l IH]; [reflexivity|]. cbn [filter fst].
  change (total (ev b) ((b', (c, v)) :: l)) with (ev b (b', (c, v)) + total (ev b) l).
  unfold ev at 1. cbn [fst snd]. unfold at_bus. destruct (String.eqb b' b); cbn [map snd eval]; rewrite IH; ring.
Qed.

Ltac tot := apply total_ext; intros ? _; unfold ev; cbn [fst snd]; rewrite ?val_lab.

Lemma lhs_net b t : eval x (balance_lhs n losses b t) == net_power n losses x t b.
Proof.
  unfold balance_lhs. rewrite eval_filter. unfold entries, net_power. rewrite !total_app. unfold one, br. rewrite !total_app, !total_map.
  rewrite (total_ext (fun a => ev b (c_bus a, (1 * c_sign a, lab (c_active a) "Generator-p" (c_name a) t)))
                     (fun c => at_bus (c_bus c) b (gen_p x t c)));
    [|intros c _; unfold ev, gen_p; cbn [fst snd]; rewrite val_lab; unfold at_bus; destruct (String.eqb (c_bus c) b); ring].
  rewrite (total_ext (fun a => ev b (c_bus a, (1 * c_sign a, lab (c_active a) "Store-p" (c_name a) t)))
                     (fun c => at_bus (c_bus c) b (store_p x t c)));
    [|intros c _; unfold ev, store_p; cbn [fst snd]; rewrite val_lab; unfold at_bus; destruct (String.eqb (c_bus c) b); ring].
  assert (EU : total (fun a => ev b (c_bus a, (1 * c_sign a, lab (c_active a) "StorageUnit-p_dispatch" (c_name a) t))) (units n) +
               total (fun a => ev b (c_bus a, (-(1) * c_sign a, lab (c_active a) "StorageUnit-p_store" (c_name a) t))) (units n) ==
               total (fun c => at_bus (c_bus c) b (unit_p x t c)) (units n)).
  { rewrite <- total_plus. apply total_ext. intros c _. unfold ev, unit_p; cbn [fst snd]; rewrite !val_lab; unfold at_bus; destruct (String.eqb (c_bus c) b); ring. }
  assert (EL : total (fun a => ev b (l_bus0 a, (-(1), lab (l_active a) "Link-p" (l_name a) t))) (links n) +
               (total (fun a => ev b (l_bus1 a, (l_eff1 a t, lab (l_active a) "Link-p" (l_name a) t))) (links n) +
               total (ev b) (flat_map (fun l => map (fun pe => (fst pe, (snd pe t, lab (l_active l) "Link-p" (l_name l) t)))
                         (filter (fun pe => negb (String.eqb (fst pe) "")) (l_ports l))) (links n))) ==
     total (fun l => total (fun pe => at_bus (fst pe) b (snd pe * link_p x t l)) (outputs t l) - at_bus (l_bus0 l) b (link_p x t l)) (links n)).
  { rewrite total_flat, <- !total_plus. apply total_ext. intros l _. rewrite total_map.
    unfold outputs.
    match goal with |- context [total ?f (?a :: ?r)] => change (total f (a :: r)) with (f a + total f r) end.
    rewrite total_map. cbn [fst snd]. unfold ev. cbn [fst snd]. rewrite !val_lab. fold (link_p x t l).
    unfold at_bus. destruct (String.eqb (l_bus0 l) b), (String.eqb (l_bus1 l) b); ring. }
  assert (EB : forall v lv (bs : list branch),
     total (fun a => ev b (b_bus0 a, (-(1), lab (b_active a) v (b_name a) t))) bs +
     total (fun a => ev b (b_bus1 a, (1, lab (b_active a) v (b_name a) t))) bs +
     (if losses then total (fun a => ev b (b_bus0 a, (-(1#2), lab (b_active a) lv (b_name a) t))) bs +
        total (fun a => ev b (b_bus1 a, (-(1#2), lab (b_active a) lv (b_name a) t))) bs else 0) == total (branch_at losses x t v lv b) bs).
  { intros v lv bs. unfold branch_at, flow. destruct losses; rewrite <- !total_plus.
    - apply total_ext. intros c _. unfold ev; cbn [fst snd]; rewrite !val_lab; unfold at_bus.
      destruct (String.eqb (b_bus0 c) b), (String.eqb (b_bus1 c) b); ring.
    - rewrite Qplus_0_r. apply total_ext. intros c _. unfold ev; cbn [fst snd]; rewrite !val_lab; unfold at_bus.
      destruct (String.eqb (b_bus0 c) b), (String.eqb (b_bus1 c) b); ring. }
  rewrite <- EU, <- EL, <- (EB "Line-s" "Line-loss"), <- (EB "Transformer-s" "Transformer-loss").
  destruct losses.
  - rewrite !total_app, !total_map. ring.
  - change (total (ev b) []) with 0. ring.
Qed.

Lemma rhs_demand b t : balance_rhs n b t == demand n t b.
Proof.
  unfold balance_rhs, demand. induction (loads n) as [|d l IH]; [reflexivity|].
  change (total (fun d => at_bus (d_bus d) b (demand_of t d)) (d :: l)) with (at_bus (d_bus d) b (demand_of t d) + total (fun d => at_bus (d_bus d) b (demand_of t d)) l).
  cbn [filter]. unfold at_bus at 1, demand_of at 1. destruct (d_active d), (String.eqb (d_bus d) b); cbn [andb map fold_right]; rewrite IH; ring.
Qed.

Lemma empty_zero l : is_empty l = true -> eval x l == 0.
Proof.
  induction l as [|[c v] l IH]; [reflexivity|]. cbn [is_empty forallb snd eval]. intros H. apply andb_true_iff in H. destruct H as [H1 H2].
  destruct v; [discriminate|]. rewrite (IH H2). cbn [val]. ring.
Qed.

Lemma balance_iff bs T cs : balance n losses bs T = Some cs ->
  (sat x cs <-> forall b t, In b bs -> (t < T)%nat -> net_power n losses x t b == demand n t b).
Proof.
  unfold balance. destruct (no_terms n losses bs); cbn [orb]; [discriminate|]. destruct (empty_demand n losses bs T) eqn:ED; [discriminate|].
  intros E. injection E as <-. rewrite sat_add. split.
  - intros H b t Ib Lt. assert (It : In t (seq 0 T)) by (apply in_seq; lia).
    destruct (is_empty (balance_lhs n losses b t)) eqn:EM.
    + rewrite <- lhs_net, <- rhs_demand, (empty_zero _ EM). 
      destruct (Qeq_bool (balance_rhs n b t) 0) eqn:Z; [apply Qeq_bool_iff in Z; now rewrite Z|].
      exfalso. assert (F : empty_demand n losses bs T = true); [|congruence].
      apply existsb_exists. exists t. split; auto. apply existsb_exists. exists b. split; auto. now rewrite EM, Z.
    + specialize (H t b It Ib). rewrite EM in H. specialize (H eq_refl). unfold holds in H. cbn [lhs sns rhs] in H.
      now rewrite lhs_net, rhs_demand in H.
  - intros H t b It Ib _. apply in_seq in It. unfold holds. cbn [lhs sns rhs]. rewrite lhs_net, rhs_demand. apply H; auto. lia.
Qed.

Lemma nodal_iff T cols thr cs : nodal_balance n losses T cols thr = Some cs ->
  (forall b, In b (meshed cols thr) -> In b (buses n)) ->
  (sat x cs <-> forall b t, In b (buses n) -> (t < T)%nat -> net_power n losses x t b == demand n t b).
Proof.
  unfold nodal_balance. intros E M. destruct (negb (emptyb (meshed cols thr)) && negb (emptyb (difference (buses n) (meshed cols thr)))).
  - destruct (balance n losses (difference (buses n) (meshed cols thr)) T) as [c1|] eqn:E1; [|discriminate].
    destruct (balance n losses (meshed cols thr) T) as [c2|] eqn:E2; [|discriminate]. injection E as <-.
    rewrite sat_app, (balance_iff _ _ _ E1), (balance_iff _ _ _ E2). split.
    + intros [H1 H2] b t I L. destruct (existsb (String.eqb b) (meshed cols thr)) eqn:X.
      * apply H2; auto. apply existsb_exists in X. destruct X as [c [Ic Q]]. apply eqb_iff in Q. now subst.
      * apply H1; auto. unfold difference. apply filter_In. now rewrite X.
    + intros H. split; intros b t I L; apply H; auto. unfold difference in I. apply filter_In in I. tauto.
  - exact (balance_iff _ _ _ E).
Qed.

(* summing over all buses *)
Lemma sum_demand t : NoDup (buses n) -> connected n -> total (demand n t) (buses n) == total_demand n t.
Proof.
  intros ND C. unfold demand, total_demand. rewrite total_swap. apply total_ext. intros d I. apply total_at_In; auto. now apply C.
Qed.

Lemma sum_branch t v lv bs : NoDup (buses n) -> (forall b, In b bs -> In (b_bus0 b) (buses n) /\ In (b_bus1 b) (buses n)) ->
  total (fun b => total (branch_at losses x t v lv b) bs) (buses n) == - (if losses then total (flow x t lv) bs else 0).
Proof.
  intros ND C. rewrite total_swap. unfold branch_at.
  assert (E : forall c, In c bs -> total (fun b => at_bus (b_bus1 c) b (flow x t v c) - at_bus (b_bus0 c) b (flow x t v c) -
     (if losses then (1#2) * (at_bus (b_bus0 c) b (flow x t lv c) + at_bus (b_bus1 c) b (flow x t lv c)) else 0)) (buses n) ==
     - (if losses then flow x t lv c else 0)).
  { intros c I. destruct (C c I) as [C0 C1]. rewrite !total_minus, !total_at_In by auto. destruct losses.
    - rewrite total_scale, total_plus, !total_at_In by auto. ring.
    - rewrite total_zero by reflexivity. ring. }
  rewrite (total_ext _ _ _ E). destruct losses.
  - rewrite (total_ext (fun a => - flow x t lv a) (fun a => (-(1)) * flow x t lv a)) by (intros; ring). rewrite total_scale. ring.
  - rewrite total_zero by reflexivity. ring.
Qed.

Lemma sum_net t : NoDup (buses n) -> connected n ->
  total (net_power n losses x t) (buses n) == generation n x t - conversion_loss n x t - branch_loss n losses x t.
Proof.
  intros ND C. destruct C as [CC [CB [CL _]]]. unfold net_power, generation. rewrite !total_plus.
  rewrite (sum_branch t "Line-s" "Line-loss" (lines n)) by (auto; intros b I; apply CB; apply in_or_app; auto).
  rewrite (sum_branch t "Transformer-s" "Transformer-loss" (trafos n)) by (auto; intros b I; apply CB; apply in_or_app; auto).
  rewrite (total_swap (fun b c => at_bus (c_bus c) b (gen_p x t c))), (total_swap (fun b c => at_bus (c_bus c) b (store_p x t c))),
    (total_swap (fun b c => at_bus (c_bus c) b (unit_p x t c))).
  rewrite (total_ext _ (gen_p x t) (gens n)) by (intros c I; apply total_at_In; auto; apply CC; rewrite !in_app_iff; auto).
  rewrite (total_ext _ (store_p x t) (stores n)) by (intros c I; apply total_at_In; auto; apply CC; rewrite !in_app_iff; auto).
  rewrite (total_ext _ (unit_p x t) (units n)) by (intros c I; apply total_at_In; auto; apply CC; rewrite !in_app_iff; auto).
  rewrite (total_swap (fun b l => total (fun pe => at_bus (fst pe) b (snd pe * link_p x t l)) (outputs t l) - at_bus (l_bus0 l) b (link_p x t l))).
  assert (E : total (fun l => total (fun b => total (fun pe => at_bus (fst pe) b (snd pe * link_p x t l)) (outputs t l) - at_bus (l_bus0 l) b (link_p x t l)) (buses n)) (links n)
     == - conversion_loss n x t).
  { unfold conversion_loss. rewrite (total_ext _ (fun l => (-(1)) * (link_p x t l * (1 - total snd (outputs t l))))).
    - rewrite total_scale. ring.
    - intros l I. destruct (CL l I) as [C0 [C1 CP]]. rewrite total_minus, total_at_In by auto. rewrite total_swap.
      rewrite (total_ext _ (fun pe : string * Q => link_p x t l * snd pe)).
      + rewrite total_scale. ring.
      + intros pe Ip. rewrite total_at_In; auto; [ring|]. unfold outputs in Ip. destruct Ip as [<-|Ip]; [exact C1|].
        apply in_map_iff in Ip. destruct Ip as [q [<- Iq]]. apply filter_In in Iq. destruct Iq as [Iq N]. cbn [fst].
        destruct (CP q Iq) as [Z|Z]; [rewrite Z in N; discriminate|exact Z]. }
  rewrite E. unfold branch_loss. destruct losses; ring.
Qed.

Lemma conservation T cols thr cs : nodal_balance n losses T cols thr = Some cs ->
  (forall b, In b (meshed cols thr) -> In b (buses n)) -> NoDup (buses n) -> connected n ->
  sat x cs -> forall t, (t < T)%nat ->
  generation n x t == total_demand n t + conversion_loss n x t + branch_loss n losses x t.
Proof.
  intros E M ND C S t L. pose proof (proj1 (nodal_iff T cols thr cs E M) S) as H.
  assert (Q : total (net_power n losses x t) (buses n) == total (demand n t) (buses n)) by (apply total_ext; intros b I; apply H; auto).
  rewrite sum_net, sum_demand in Q by auto. lra.
Qed.
End P.

(* when the balance cannot be built *)
Lemma is_empty_false l : is_empty l = false <-> exists c v, In (c, Some v) l.
Proof.
  unfold is_empty. split.
  - induction l as [|[c [v|]] l IH]; cbn [forallb snd]; intros H; [discriminate| |].
    + exists c, v. simpl. auto.
    + destruct IH as [c' [v' I]]; [exact H|]. exists c', v'. simpl. auto.
  - intros [c [v I]]. apply not_true_is_false. intros F. rewrite forallb_forall in F. specialize (F _ I). discriminate.
Qed.

Lemma lab_some act v nm t w : lab act v nm t = Some w -> act t = true.
Proof. unfold lab. destruct (act t); [reflexivity|discriminate]. Qed.

Lemma attached_iff n losses b t : is_empty (balance_lhs n losses b t) = false <-> attached n b t.
Proof.
  rewrite is_empty_false. unfold balance_lhs. split.
  - intros [c [v I]]. apply in_map_iff in I. destruct I as [[b' e] [E I]]. cbn [snd] in E. subst e.
    apply filter_In in I. destruct I as [I Q]. cbn [fst] in Q. apply eqb_iff in Q. subst b'.
    unfold entries, one, br in I. destruct losses; rewrite ?in_app_iff in I; repeat (destruct I as [I|I]);
      try (apply in_map_iff in I; destruct I as [k [E I]]; injection E as E1 E2 E3; apply lab_some in E3; unfold attached; rewrite ?in_app_iff;
           first [ left; exists k; rewrite ?in_app_iff; tauto
                 | right; left; exists k; rewrite ?in_app_iff; tauto
                 | right; right; exists k; tauto ]); try (destruct I);
      apply in_flat_map in I; destruct I as [l [Il I]]; apply in_map_iff in I; destruct I as [pe [E I]]; injection E as E1 E2 E3;
      apply lab_some in E3; apply filter_In in I; destruct I as [I N]; right; right; exists l; split; auto; split; auto; right; right;
      (split; [intros ->; rewrite E1 in N; discriminate|]; exists (snd pe); rewrite <- E1; destruct pe; exact I).
  - assert (K : forall c v, In (b, (c, Some v)) (entries n losses t) -> exists c v, In (c, Some v) (map snd (filter (fun e => String.eqb (fst e) b) (entries n losses t)))).
    { intros c v I. exists c, v. apply in_map_iff. exists (b, (c, Some v)). split; auto. apply filter_In. split; auto. apply String.eqb_refl. }
    assert (L : forall act v nm, act t = true -> lab act v nm t = Some (v, t, nm)) by (intros act v nm H; unfold lab; now rewrite H).
    intros [[c [I [B A]]]|[[c [I [B A]]]|[l [I [A B]]]]].
    + rewrite !in_app_iff in I. destruct I as [I|[I|I]].
      * apply (K (1 * c_sign c) ("Generator-p", t, c_name c)). unfold entries. rewrite !in_app_iff. left. apply in_map_iff. exists c. now rewrite L, B.
      * apply (K (1 * c_sign c) ("Store-p", t, c_name c)). unfold entries. rewrite !in_app_iff. right; left. apply in_map_iff. exists c. now rewrite L, B.
      * apply (K (1 * c_sign c) ("StorageUnit-p_dispatch", t, c_name c)). unfold entries. rewrite !in_app_iff. right; right; left. apply in_map_iff. exists c. now rewrite L, B.
    + rewrite in_app_iff in I. destruct I as [I|I], B as [B|B].
      * apply (K (-(1)) ("Line-s", t, b_name c)). unfold entries, br. rewrite !in_app_iff. do 4 right; left; left. apply in_map_iff. exists c. now rewrite L, B.
      * apply (K 1 ("Line-s", t, b_name c)). unfold entries, br. rewrite !in_app_iff. do 4 right; left; right. apply in_map_iff. exists c. now rewrite L, B.
      * apply (K (-(1)) ("Transformer-s", t, b_name c)). unfold entries, br. rewrite !in_app_iff. do 5 right; left; left. apply in_map_iff. exists c. now rewrite L, B.
      * apply (K 1 ("Transformer-s", t, b_name c)). unfold entries, br. rewrite !in_app_iff. do 5 right; left; right. apply in_map_iff. exists c. now rewrite L, B.
    + destruct B as [B|[B|[N [e B]]]].
      * apply (K (-(1)) ("Link-p", t, l_name l)). unfold entries. rewrite !in_app_iff. do 6 right; left. apply in_map_iff. exists l. now rewrite L, B.
      * apply (K (l_eff1 l t) ("Link-p", t, l_name l)). unfold entries. rewrite !in_app_iff. do 7 right; left. apply in_map_iff. exists l. now rewrite L, B.
      * apply (K (e t) ("Link-p", t, l_name l)). unfold entries. rewrite !in_app_iff. do 8 right; left. apply in_flat_map. exists l. split; auto.
        apply in_map_iff. exists (b, e). cbn [fst snd]. rewrite L by auto. split; auto. apply filter_In. split; auto. cbn [fst].
        destruct (String.eqb_spec b ""); auto.
Qed.

(* some component has one of its ends at one of the buses *)
Lemma balance_raises n losses bs T b t : In b bs -> (t < T)%nat -> ~ attached n b t -> ~ demand n t b == 0 ->
  balance n losses bs T = None.
Proof.
  intros Ib Lt NA D. unfold balance.
  assert (E : empty_demand n losses bs T = true).
  { apply existsb_exists. exists t. split; [apply in_seq; lia|]. apply existsb_exists. exists b. split; auto.
    rewrite <- (attached_iff n losses) in NA. destruct (is_empty (balance_lhs n losses b t)); [|congruence]. cbn [andb].
    rewrite <- rhs_demand in D. destruct (Qeq_bool (balance_rhs n b t) 0) eqn:Z; auto. apply Qeq_bool_iff in Z. contradiction. }
  rewrite E, orb_true_r. reflexivity.
Qed.

Lemma balance_builds n losses bs T : (exists b, In b bs /\ attached n b 0) ->
  (forall b t, In b bs -> (t < T)%nat -> attached n b t \/ demand n t b == 0) -> balance n losses bs T <> None.
Proof.
  intros [b0 [I0 A0]] H. unfold balance.
  assert (E1 : no_terms n losses bs = false).
  { unfold no_terms. apply negb_false_iff. apply existsb_exists. rewrite <- (attached_iff n losses), is_empty_false in A0.
    destruct A0 as [c [v I]]. apply in_map_iff in I. destruct I as [e [_ I]]. apply filter_In in I. destruct I as [I Q].
    exists e. split; auto. apply existsb_exists. exists b0. split; auto. }
  assert (E2 : empty_demand n losses bs T = false).
  { apply not_true_is_false. intros F. apply existsb_exists in F. destruct F as [t [It F]]. apply existsb_exists in F. destruct F as [b [Ib F]].
    apply andb_true_iff in F. destruct F as [F1 F2]. apply in_seq in It. destruct (H b t Ib ltac:(lia)) as [A|D].
    - rewrite <- (attached_iff n losses) in A. congruence.
    - rewrite <- rhs_demand in D. apply Qeq_bool_iff in D. rewrite D in F2. discriminate. }
  rewrite E1, E2. discriminate.
Qed.

Lemma lossless n x T cols thr cs :
  nodal_balance n false T cols thr = Some cs -> (forall b, In b (meshed cols thr) -> In b (buses n)) ->
  NoDup (buses n) -> connected n -> (forall l t, In l (links n) -> total snd (outputs t l) == 1) ->
  sat x cs -> forall t, (t < T)%nat -> generation n x t == total_demand n t.
Proof.
  intros E M ND C H S t L. rewrite (conservation n false x T cols thr cs E M ND C S t L). unfold branch_loss, conversion_loss.
  rewrite (total_zero (fun l => link_p x t l * (1 - total snd (outputs t l))) (links n)); [ring|]. intros l I. rewrite (H l t I). ring.
Qed.

Ltac conn := split; [|split; [|split]]; intros ? I; cbn in I;
  repeat match goal with H : _ \/ _ |- _ => destruct H as [<-|H] | H : False |- _ => destruct H end; cbn; auto;
  try (split; [auto|split; [auto|]]; intros ? J; repeat match goal with H : _ \/ _ |- _ => destruct H as [<-|H] | H : False |- _ => destruct H end; cbn; auto).
Definition on : nat -> bool := fun _ => true.
Definition ex_net : net :=
  {| buses := ["A"; "B"; "C"];
     gens := [ {| c_name := "g"; c_bus := "A"; c_sign := 1; c_active := on |}; {| c_name := "old"; c_bus := "B"; c_sign := 1; c_active := fun _ => false |} ];
     stores := [ {| c_name := "st"; c_bus := "C"; c_sign := 1; c_active := on |} ];
     units := [ {| c_name := "su"; c_bus := "B"; c_sign := 1; c_active := on |} ];
     lines := [ {| b_name := "ab"; b_bus0 := "A"; b_bus1 := "B"; b_active := on |} ]; trafos := [];
     links := [ {| l_name := "chp"; l_bus0 := "A"; l_bus1 := "B"; l_eff1 := fun _ => 1#2; l_ports := [("C", fun _ => 3#10); ("", fun _ => 5)]; l_active := on |} ];
     loads := [ {| d_bus := "B"; d_sign := -(1); d_p := fun _ => 80; d_active := true |}; {| d_bus := "C"; d_sign := -(1); d_p := fun _ => 14; d_active := true |};
                {| d_bus := "C"; d_sign := -(1); d_p := fun _ => 1000; d_active := false |} ] |}.
Definition ex_sol : sol := fun v =>
  let '(w, _, nm) := v in
  if String.eqb nm "g" then 91 else if String.eqb nm "old" then 55 else if String.eqb nm "st" then 5 else
  if String.eqb w "StorageUnit-p_dispatch" then 6 else if String.eqb w "Line-s" then 60 else if String.eqb w "Line-loss" then 2 else
  if String.eqb w "Link-p" then 30 else 0.
Lemma ex_ok : exists cs, nodal_balance ex_net true 1 ["A"; "A"; "A"; "B"; "B"; "C"] 2 = Some cs /\ meshed ["A"; "A"; "A"; "B"; "B"; "C"] 2 = ["A"] /\
  sat ex_sol cs /\ NoDup (buses ex_net) /\ connected ex_net /\
  generation ex_net ex_sol 0 == 102 /\ total_demand ex_net 0 == 94 /\ conversion_loss ex_net ex_sol 0 == 6 /\ branch_loss ex_net true ex_sol 0 == 2.
Proof.
  eexists. split; [vm_compute; reflexivity|]. split; [reflexivity|]. split; [apply satb_iff; vm_compute; reflexivity|].
  split; [repeat constructor; simpl; intuition discriminate|].
  split; [conn|].
  split; [reflexivity|]. split; [reflexivity|]. split; reflexivity.
Qed.

Definition ex_net2 : net :=
  {| buses := ["A"; "B"]; gens := [ {| c_name := "g"; c_bus := "A"; c_sign := 1; c_active := on |} ]; stores := []; units := []; lines := [];
     trafos := [ {| b_name := "ab"; b_bus0 := "B"; b_bus1 := "A"; b_active := on |} ];
     links := [ {| l_name := "l"; l_bus0 := "A"; l_bus1 := "B"; l_eff1 := fun _ => 1; l_ports := []; l_active := on |} ];
     loads := [ {| d_bus := "B"; d_sign := -(1); d_p := fun _ => 30; d_active := true |} ] |}.
Definition ex_sol2 : sol := fun v => let '(w, _, _) := v in
  if String.eqb w "Generator-p" then 30 else if String.eqb w "Link-p" then 40 else 10.
Lemma ex_ok2 : exists cs, nodal_balance ex_net2 false 1 [] 45 = Some cs /\ sat ex_sol2 cs /\ connected ex_net2 /\
  (forall l t, In l (links ex_net2) -> total snd (outputs t l) == 1) /\ generation ex_net2 ex_sol2 0 == 30.
Proof.
  eexists. split; [vm_compute; reflexivity|]. split; [apply satb_iff; vm_compute; reflexivity|].
  split; [conn|].
  split; [|reflexivity]. intros l t [<-|[]]. reflexivity.
Qed.

Definition lone (b : string) : net :=
  {| buses := ["A"; "B"]; gens := [ {| c_name := "g"; c_bus := "A"; c_sign := 1; c_active := on |} ]; stores := []; units := []; lines := [];
     trafos := []; links := []; loads := [ {| d_bus := b; d_sign := -(1); d_p := fun _ => 10; d_active := true |} ] |}.
Lemma unknown_bus :
  exists n x cs, nodal_balance n false 1 [] 45 = Some cs /\ sat x cs /\ NoDup (buses n) /\
    total_demand n 0 == 10 /\ generation n x 0 == 0.
Proof.
  exists (lone "Z"), (fun _ => 0). eexists. split; [vm_compute; reflexivity|]. split; [apply satb_iff; vm_compute; reflexivity|].
  split; [repeat constructor; simpl; intuition discriminate|]. split; reflexivity.
Qed.
Lemma ex_rejected : exists n, ~ attached n "B" 0 /\ ~ demand n 0 "B" == 0 /\ In "B" (buses n) /\ (exists b, In b (buses n) /\ attached n b 0).
Proof.
  exists (lone "B"). split; [|split; [|split]].
  - intros [[c [I [B _]]]|[[c [[] _]]|[c [[] _]]]]. simpl in I. destruct I as [<-|[]]. discriminate.
  - vm_compute. discriminate.
  - simpl. auto.
  - exists "A". split; [simpl; auto|]. left. exists {| c_name := "g"; c_bus := "A"; c_sign := 1; c_active := on |}. simpl. auto.
Qed.
