From Coq Require Import List String Bool QArith ZArith Arith Lia Lqa.
From Verif Require Import LinModel WholeModel IdleSpec DearSpec.
From Verif Require BalanceSpec BalanceProofs ObjectiveModel ObjectiveSpec ObjectiveProofs NamingProofs IdleProofs CapModel.
Import ListNotations.
Open Scope string_scope.
Open Scope list_scope.
Open Scope Q_scope.
Notation total := BalanceSpec.total.

Section D.
Variable m : asset -> nat -> Q.
Variable n : net.
Notation n' := (repriced m n).
Notation s := (reprice m).
Lemma keep {V} (v : asset -> V) : (forall a, passive a = false -> v (s a) = v a) -> forall a, v (s a) = v a.
Proof. intros H a. unfold reprice at 1. destruct (passive a) eqn:P; [reflexivity|]. specialize (H a P). unfold reprice in H. rewrite P in H. exact H. Qed.
Ltac same := apply keep; intros ? P; unfold reprice; rewrite P; reflexivity.
Lemma cls_s a : cls (s a) = cls a. Proof. revert a; same. Qed.
Lemma of_class_s c : of_class n' c = map s (of_class n c).
Proof. unfold of_class. cbn [repriced assets]. rewrite NamingProofs.filter_map. f_equal. apply filter_ext. intros a. now rewrite cls_s. Qed.
Lemma view_s {V} (v : asset -> V) c : (forall a, v (s a) = v a) -> map v (of_class n' c) = map v (of_class n c).
Proof. intros H. rewrite of_class_s, map_map. apply map_ext. exact H. Qed.
Lemma flat_s {V} (f : asset -> list V) c : (forall a, f (s a) = f a) -> flat_map f (of_class n' c) = flat_map f (of_class n c).
Proof. intros H. rewrite of_class_s, NamingProofs.flat_map_map. apply NamingProofs.flat_map_eq. intros a _. apply H. Qed.
Lemma d_s attr a : d_view attr (s a) = d_view attr a. Proof. revert a; same. Qed.
Lemma r_s a : r_view (s a) = r_view a. Proof. revert a; same. Qed.
Lemma u_s a : u_view (s a) = u_view a. Proof. revert a; same. Qed.
Lemma c_s a : c_view (s a) = c_view a. Proof. revert a; same. Qed.
Lemma br_s a : br_view (s a) = br_view a. Proof. revert a; same. Qed.
Lemma l_s a : l_view (s a) = l_view a. Proof. revert a; same. Qed.
Lemma s_s a : s_view (s a) = s_view a. Proof. revert a; same. Qed.
Lemma g_s a : g_view (s a) = g_view a. Proof. revert a; same. Qed.
Lemma st_s a : st_view (s a) = st_view a. Proof. revert a; same. Qed.
Lemma k_s a : k_view (s a) = k_view a. Proof. revert a; same. Qed.
Lemma sup_s a : sup_view (s a) = sup_view a. Proof. revert a; same. Qed.
Lemma lo_s a : lo_view (s a) = lo_view a. Proof. revert a; same. Qed.
Lemma com_s a : com (s a) = com a. Proof. revert a; same. Qed.
Lemma ud_s a : unit_data n' (s a) = unit_data n a.
Proof. revert a. intros a. change (unit_data n' (s a)) with (unit_data n (s a)). revert a; same. Qed.
Lemma tight_s a : tightened n' (s a) = tightened n a.
Proof. change (tightened n' (s a)) with (tightened n (s a)). revert a; same. Qed.
Lemma pass_s a : passive (s a) = passive a. Proof. unfold passive. now rewrite cls_s. Qed.
Lemma passive_s : filter passive (assets n') = filter passive (assets n).
Proof.
  cbn [repriced assets]. induction (assets n) as [|a l IH]; [reflexivity|]. cbn [map filter]. rewrite pass_s, IH. destruct (passive a) eqn:P; [|reflexivity]. f_equal. unfold reprice. now rewrite P.
Qed.
Lemma capacity_s : capacity n' = capacity n.
Proof. unfold capacity. apply NamingProofs.flat_map_eq. intros ca _. unfold capacity_of. cbv zeta. rewrite (view_s (d_view "")) by apply d_s. reflexivity. Qed.
Lemma commit_s c : commitment_of n' c = commitment_of n c.
Proof.
  unfold commitment_of. rewrite of_class_s, NamingProofs.filter_map, !NamingProofs.flat_map_map. cbn [repriced nsnaps].
  rewrite (filter_ext (fun a => com (s a)) com) by apply com_s. f_equal; apply NamingProofs.flat_map_eq; intros a _; rewrite ?tight_s, u_s; reflexivity.
Qed.
Lemma operation_s : operation n' = operation n.
Proof.
  unfold operation. apply NamingProofs.flat_map_eq. intros [[[c attr] na] k] _. unfold operation_of. cbv zeta. rewrite (view_s (d_view attr)) by apply d_s. rewrite commit_s, (view_s r_view) by apply r_s. reflexivity.
Qed.
Lemma b_net_s : b_net n' = b_net n.
Proof. unfold b_net. rewrite !(view_s c_view), !(view_s br_view), (view_s l_view) by (apply c_s || apply br_s || apply l_s). reflexivity. Qed.
Lemma lim_s attr : lim_net n' attr = lim_net n attr.
Proof. unfold lim_net. rewrite (view_s g_view), !(view_s st_view) by (apply g_s || apply st_s). reflexivity. Qed.
Lemma k_net_s : k_net n' = k_net n.
Proof. unfold k_net. cbn [repriced assets]. rewrite map_map, (map_ext _ k_view) by apply k_s. reflexivity. Qed.
Lemma create_s kvl : create_model kvl n' = create_model kvl n.
Proof.
  unfold create_model, parts. rewrite capacity_s, operation_s, passive_s.
  assert (B : balances n' = balances n) by (unfold balances; rewrite b_net_s; reflexivity). rewrite B.
  assert (U : storage_units n' = storage_units n) by (exact (flat_s (fun a => StorageModel.unit_balance (nsnaps n) None (s_view a) (unit_data n a)) "StorageUnit" (fun a => f_equal2 (StorageModel.unit_balance (nsnaps n) None) (s_s a) (ud_s a)))). rewrite U.
  assert (S : stores n' = stores n) by (exact (flat_s (fun a => StorageModel.store_balance (nsnaps n) None (s_view a) (w_sto n)) "Store" (fun a => f_equal (fun v => StorageModel.store_balance (nsnaps n) None v (w_sto n)) (s_s a)))). rewrite S.
  assert (P : supplies n' = supplies n) by (unfold supplies; rewrite (view_s sup_view) by apply sup_s; reflexivity). rewrite P.
  assert (L : forall c, losses n' c = losses n c) by (intros c; unfold losses; rewrite (view_s lo_view) by apply lo_s; reflexivity). rewrite !L.
  assert (G : map (limit_rows n') (limits n') = map (limit_rows n) (limits n)).
  { cbn [repriced limits]. apply map_ext. intros [attr s0 q|c s0 q|cs s0 q|cs s0 q]; unfold limit_rows; rewrite ?lim_s, ?k_net_s; reflexivity. } rewrite G.
  assert (C : map (column_rows n') (columns n') = map (column_rows n) (columns n)).
  { cbn [repriced columns]. apply map_ext. intros col. unfold column_rows. rewrite k_net_s. reflexivity. } rewrite C. reflexivity.
Qed.
Lemma every (P : asset -> Prop) : (forall a, In a (assets n') -> P a) <-> (forall a, In a (assets n) -> P (s a)).
Proof. cbn [repriced assets]. split; [intros H a I; apply H, in_map, I|]. intros H a I. apply in_map_iff in I as (b & <- & I). auto. Qed.
Notation on' := (o_net n').
Notation on_ := (o_net n).
Lemma o_cls c : ObjectiveModel.cls on' c = map (fun a => o_view (s a)) (of_class n c).
Proof.
  unfold ObjectiveModel.cls. cbn [o_net ObjectiveModel.assets]. rewrite NamingProofs.filter_map. unfold of_class. cbn [repriced assets]. rewrite NamingProofs.filter_map, map_map. f_equal. apply filter_ext. intros a. cbn [o_view ObjectiveModel.a_class]. now rewrite cls_s.
Qed.
Lemma o_cls0 c : ObjectiveModel.cls on_ c = map o_view (of_class n c).
Proof. unfold ObjectiveModel.cls. cbn [o_net ObjectiveModel.assets]. rewrite NamingProofs.filter_map. reflexivity. Qed.
Lemma ext_s a : ObjectiveModel.a_ext (o_view (s a)) = ObjectiveModel.a_ext (o_view a). Proof. revert a; same. Qed.
Lemma annual_s a : ObjectiveModel.annual on' (o_view (s a)) * ObjectiveModel.a_nom (o_view (s a)) = ObjectiveModel.annual on_ (o_view a) * ObjectiveModel.a_nom (o_view a).
Proof. change (ObjectiveModel.annual on' (o_view (s a))) with (ObjectiveModel.annual on_ (o_view (s a))). unfold reprice. destruct (passive a); reflexivity. Qed.
Lemma constant_s : ObjectiveModel.constant on' = ObjectiveModel.constant on_.
Proof.
  unfold ObjectiveModel.constant. induction ObjectiveModel.nominal as [|ca l IH]; [reflexivity|]. cbn [fold_right]. rewrite IH. f_equal. unfold ObjectiveModel.ext. rewrite o_cls, o_cls0.
  induction (of_class n (fst ca)) as [|a k IHk]; [reflexivity|]. cbn [map filter]. rewrite ext_s. destruct (ObjectiveModel.a_ext (o_view a)); [|exact IHk]. cbn [fold_right]. rewrite IHk, annual_s. reflexivity.
Qed.
Lemma dom1 x a : (ext (s a) = true -> Qle_bool (nom_mod (s a)) 0 = false -> exists z : nat, x ((cls (s a) ++ "-n_mod")%string, O, nm (s a)) == inject_Z (Z.of_nat z)) =
  (ext a = true -> Qle_bool (nom_mod a) 0 = false -> exists z : nat, x ((cls a ++ "-n_mod")%string, O, nm a) == inject_Z (Z.of_nat z)).
Proof. unfold reprice. destruct (passive a); reflexivity. Qed.
Lemma nm_s a : nm (s a) = nm a. Proof. revert a; same. Qed.
Lemma flag_s a : flag (s a) = flag a. Proof. revert a; same. Qed.
Lemma domains_s x : domains n' x <-> domains n x.
Proof.
  unfold domains. unfold ObjectiveModel.const_fixed. rewrite constant_s. change (linear n') with (linear n). change (nsnaps n') with (nsnaps n). change (lossy n') with (lossy n).
  rewrite (every (fun a => ext a = true -> Qle_bool (nom_mod a) 0 = false -> exists z : nat, x ((cls a ++ "-n_mod")%string, O, nm a) == inject_Z (Z.of_nat z))).
  rewrite (every (fun a => com a = true -> if linear n then CommitModel.relaxed (cls a) (u_view a) (nsnaps n) x else CommitModel.binary (cls a) (u_view a) (nsnaps n) x)).
  rewrite (every (fun a => cls a = "StorageUnit" -> StorageModel.spill_bounds (nsnaps n) (s_view a) (unit_data n' a) x)).
  assert (L : (forall a t, In a (assets n') -> passive a = true -> lossy n = true -> (t < nsnaps n)%nat -> flag a = true -> 0 <= x ((cls a ++ "-loss")%string, t, nm a)) <->
              (forall a t, In a (assets n) -> passive a = true -> lossy n = true -> (t < nsnaps n)%nat -> flag a = true -> 0 <= x ((cls a ++ "-loss")%string, t, nm a))).
  { split; intros H a t I P LS T F.
    - specialize (H (s a) t ltac:(cbn [repriced assets]; apply in_map; exact I)). rewrite pass_s, flag_s, cls_s, nm_s in H. auto.
    - cbn [repriced assets] in I. apply in_map_iff in I as (b & <- & I). rewrite pass_s in P. rewrite flag_s in F. rewrite cls_s, nm_s. auto. }
  rewrite L. split; intros (A & B & C & D & E); (split; [|split; [|split; [|split; [exact D|exact E]]]]); intros a I.
  - rewrite <- dom1. exact (A a I).
  - specialize (B a I). rewrite com_s, cls_s, u_s in B. exact B.
  - specialize (C a I). rewrite cls_s, s_s, ud_s in C. exact C.
  - rewrite dom1. exact (A a I).
  - rewrite com_s, cls_s, u_s. exact (B a I).
  - rewrite cls_s, s_s, ud_s. exact (C a I).
Qed.
Lemma feasible_s kvl x : feasible kvl n' x <-> feasible kvl n x.
Proof. unfold feasible. rewrite create_s. split; intros (cs & E & S & D); exists cs; (split; [exact E|split; [exact S|]]); apply domains_s; exact D. Qed.

(* the costs *)
Hypothesis W : forall a, In a (assets n) -> In (cls a) classes.
Hypothesis CS : costs_sane n.
Lemma W' : forall a, In a (assets n') -> In (cls a) classes.
Proof. apply (every (fun a => In (cls a) classes)). intros a I. rewrite cls_s. auto. Qed.
Lemma start_s a : start_cost (s a) = start_cost a /\ shut_cost (s a) = shut_cost a.
Proof. split; revert a; same. Qed.
Lemma proper_of (k : net) : costs_sane k -> ObjectiveSpec.proper (o_net k) ObjectiveModel.a_start /\ ObjectiveSpec.proper (o_net k) ObjectiveModel.a_shut.
Proof. intros H. split; intros o I; cbn [o_net ObjectiveModel.assets] in I; apply in_map_iff in I as (a & <- & I); apply (H a I). Qed.
Lemma CS' : costs_sane n'.
Proof. unfold costs_sane. apply (every (fun a => 0 <= start_cost a /\ 0 <= shut_cost a)). intros a I. destruct (start_s a) as [-> ->]. apply CS, I. Qed.
Lemma output_is x a t : ObjectiveSpec.dispatch x (o_view a) t = output x a t.
Proof.
  unfold ObjectiveSpec.dispatch, output, ObjectiveSpec.is, ObjectiveSpec.at_. cbn [existsb o_view ObjectiveModel.a_class ObjectiveModel.a_on ObjectiveModel.a_name]. unfold on. rewrite !orb_false_r.
  destruct (flag a), (String.eqb (cls a) "StorageUnit"), (String.eqb (cls a) "Generator"), (String.eqb (cls a) "Link"), (String.eqb (cls a) "Store"); reflexivity.
Qed.
Lemma output_passive x a t : passive a = true -> output x a t = 0.
Proof.
  unfold passive, output. intros P. apply orb_true_iff in P as [P|P]; apply String.eqb_eq in P; rewrite P; destruct (flag a); reflexivity.
Qed.
Lemma running_s x a t : ObjectiveSpec.running x (o_view (s a)) t == ObjectiveSpec.running x (o_view a) t + (m a t - marginal a t) * output x a t.
Proof.
  destruct (passive a) eqn:P.
  - rewrite (output_passive x a t P). unfold reprice. rewrite P. ring.
  - rewrite <- output_is. unfold reprice. rewrite P. unfold ObjectiveSpec.running.
    change (ObjectiveModel.a_marginal (o_view a) t) with (marginal a t).
    match goal with |- context [ObjectiveModel.a_marginal (o_view ?b) t * ObjectiveSpec.dispatch x (o_view ?b) t] => set (b0 := b) end.
    change (ObjectiveModel.a_marginal (o_view b0) t) with (m a t). change (ObjectiveSpec.dispatch x (o_view b0) t) with (ObjectiveSpec.dispatch x (o_view a) t).
    change (ObjectiveModel.a_quadratic (o_view b0) t) with (ObjectiveModel.a_quadratic (o_view a) t). change (ObjectiveModel.a_storage (o_view b0) t) with (ObjectiveModel.a_storage (o_view a) t).
    change (ObjectiveSpec.stored x (o_view b0) t) with (ObjectiveSpec.stored x (o_view a) t). change (ObjectiveModel.a_spill (o_view b0) t) with (ObjectiveModel.a_spill (o_view a) t).
    change (ObjectiveSpec.spilled x (o_view b0) t) with (ObjectiveSpec.spilled x (o_view a) t). change (ObjectiveModel.a_standby (o_view b0) t) with (ObjectiveModel.a_standby (o_view a) t).
    change (ObjectiveSpec.unit_value x "status" (o_view b0) t) with (ObjectiveSpec.unit_value x "status" (o_view a) t). ring.
Qed.
Lemma total_s (f h : ObjectiveModel.asset -> Q) : (forall a, f (o_view (s a)) == h (o_view a)) -> total f (ObjectiveModel.assets on') == total h (ObjectiveModel.assets on_).
Proof. intros H. cbn [o_net ObjectiveModel.assets repriced assets]. rewrite map_map, !BalanceProofs.total_map. apply BalanceProofs.total_ext. intros a _. apply H. Qed.
Lemma expansion_s x : ObjectiveSpec.expansion on' x (ObjectiveModel.annual on') == ObjectiveSpec.expansion on_ x (ObjectiveModel.annual on_).
Proof.
  unfold ObjectiveSpec.expansion. apply total_s. intros a. change (ObjectiveModel.annual on' (o_view (s a))) with (ObjectiveModel.annual on_ (o_view (s a))).
  match goal with |- ?u == ?v => enough (HH : u = v) by (rewrite HH; reflexivity) end. unfold reprice. destruct (passive a); reflexivity.
Qed.
Lemma switching_s x : ObjectiveSpec.switching_cost on' x == ObjectiveSpec.switching_cost on_ x.
Proof. unfold ObjectiveSpec.switching_cost. change (ObjectiveSpec.days on') with (ObjectiveSpec.days on_). apply BalanceProofs.total_ext. intros t _. apply total_s. intros a. match goal with |- ?u == ?v => enough (HH : u = v) by (rewrite HH; reflexivity) end. unfold reprice. destruct (passive a); reflexivity. Qed.
Lemma operating_s x : ObjectiveSpec.operating on' x (ObjectiveModel.weighting on') == ObjectiveSpec.operating on_ x (ObjectiveModel.weighting on_) + extra m n x.
Proof.
  unfold ObjectiveSpec.operating, extra. change (ObjectiveSpec.days on') with (ObjectiveSpec.days on_). change (ObjectiveSpec.days on_) with (seq 0 (nsnaps n)). rewrite <- BalanceProofs.total_plus. apply BalanceProofs.total_ext. intros t _.
  change (ObjectiveModel.weighting on' t) with (w_obj n t). change (ObjectiveModel.weighting on_ t) with (w_obj n t). rewrite <- Qmult_plus_distr_r. apply Qmult_comp; [reflexivity|].
  cbn [o_net ObjectiveModel.assets repriced assets]. rewrite map_map, !BalanceProofs.total_map, <- BalanceProofs.total_plus. apply BalanceProofs.total_ext. intros a _. apply running_s.
Qed.
Lemma cost_s x p p' : domains n x -> cost n x = Some p -> cost n' x = Some p' -> p' == p + extra m n x.
Proof.
  intros D. pose proof (proj2 (domains_s x) D) as D'. unfold cost, define_objective. destruct (ObjectiveModel.objective on_) as [ps|] eqn:E; [|discriminate]. destruct (ObjectiveModel.objective on') as [ps'|] eqn:E'; [|discriminate].
  cbn [option_map]. intros P P'. injection P as <-. injection P' as <-. destruct (proper_of n CS) as [A B]. destruct (proper_of n' CS') as [A' B'].
  rewrite (ObjectiveProofs.objective_value on_ x ps (IdleProofs.known_net n W) (proj2 (proj2 (proj2 (proj2 D)))) A B E).
  rewrite (ObjectiveProofs.objective_value on' x ps' (IdleProofs.known_net n' W') (proj2 (proj2 (proj2 (proj2 D')))) A' B' E').
  rewrite expansion_s, switching_s, operating_s. ring.
Qed.
Lemma cost_defined (k : net) x y p : cost k x = Some p -> exists q, cost k y = Some q.
Proof. unfold cost. destruct (define_objective k); [|discriminate]. cbn [option_map]. eauto. Qed.
Lemma feasible_domains kvl k x : feasible kvl k x -> domains k x.
Proof. intros (cs & _ & _ & D). exact D. Qed.
Lemma bounds kvl x y p q' : optimal kvl n x -> optimal kvl n' y -> cost n x = Some p -> cost n' y = Some q' -> p + extra m n y <= q' /\ q' <= p + extra m n x.
Proof.
  intros [FX (p0 & EX & BX)] [FY (q0 & EY & BY)] P Q. rewrite EX in P. injection P as ->. rewrite EY in Q. injection Q as ->.
  pose proof (proj1 (feasible_s kvl y) FY) as FYn. pose proof (proj2 (feasible_s kvl x) FX) as FXn.
  destruct (cost_defined n x y p EX) as [q Eq]. destruct (cost_defined n' y x q' EY) as [p' Ep].
  pose proof (cost_s x p p' (feasible_domains kvl n x FX) EX Ep) as C1. pose proof (cost_s y q q' (feasible_domains kvl n y FYn) Eq EY) as C2.
  pose proof (BX y q FYn Eq). pose proof (BY x p' FXn Ep). split; lra.
Qed.
Lemma less kvl x y : optimal kvl n x -> optimal kvl n' y -> extra m n y <= extra m n x.
Proof. intros OX OY. destruct OX as [FX (p & EX & BX)] eqn:X. destruct OY as [FY (q & EY & BY)] eqn:Y. pose proof (bounds kvl x y p q (conj FX (ex_intro _ p (conj EX BX))) (conj FY (ex_intro _ q (conj EY BY))) EX EY). lra. Qed.
End D.

Lemma extra_raised c i d n x a0 : NoDup (map (fun a => (cls a, nm a)) (assets n)) -> In a0 (assets n) -> cls a0 = c -> nm a0 = i ->
  extra (raised c i d) n x == total (fun t => w_obj n t * (d t * output x a0 t)) (seq 0 (nsnaps n)).
Proof.
  intros N I <- <-. unfold extra. apply BalanceProofs.total_ext. intros t _. apply Qmult_comp; [reflexivity|].
  assert (Z : forall l, ~ In (cls a0, nm a0) (map (fun a => (cls a, nm a)) l) -> total (fun a => (raised (cls a0) (nm a0) d a t - marginal a t) * output x a t) l == 0).
  { induction l as [|a l IH]; intros H; [reflexivity|]. cbn [map In] in H. unfold BalanceSpec.total in *. cbn [fold_right map]. cbn [map] in IH. rewrite IH by tauto. unfold raised.
    destruct (String.eqb (cls a) (cls a0) && String.eqb (nm a) (nm a0)) eqn:E; [|ring]. apply andb_true_iff in E as [E1 E2]. apply String.eqb_eq in E1, E2. exfalso. apply H. left. congruence. }
  revert N I. induction (assets n) as [|a l IH]; intros N I; [destruct I|]. cbn [map] in N. apply NoDup_cons_iff in N as [N1 N2]. destruct I as [->|I].
  - specialize (Z l N1). unfold BalanceSpec.total in *. cbn [fold_right map]. rewrite Z. unfold raised. rewrite !String.eqb_refl. cbn [andb]. ring.
  - specialize (IH N2 I). unfold BalanceSpec.total in *. cbn [fold_right map]. rewrite IH. unfold raised.
    destruct (String.eqb (cls a) (cls a0) && String.eqb (nm a) (nm a0)) eqn:E; [|ring]. apply andb_true_iff in E as [E1 E2]. apply String.eqb_eq in E1, E2. exfalso. apply N1. rewrite E1, E2. exact (in_map (fun a => (cls a, nm a)) l a0 I).
Qed.
Lemma single kvl n x y a0 d : (forall a, In a (assets n) -> In (cls a) classes) -> costs_sane n -> NoDup (map (fun a => (cls a, nm a)) (assets n)) -> In a0 (assets n) ->
  optimal kvl n x -> optimal kvl (repriced (raised (cls a0) (nm a0) d) n) y ->
  total (fun t => w_obj n t * (d t * output y a0 t)) (seq 0 (nsnaps n)) <= total (fun t => w_obj n t * (d t * output x a0 t)) (seq 0 (nsnaps n)).
Proof. intros W CS N I OX OY. pose proof (less _ n W CS kvl x y OX OY) as L. rewrite !(extra_raised (cls a0) (nm a0) d n _ a0 N I eq_refl eq_refl) in L. exact L. Qed.

Lemma extra_blend s m m' n x : extra (blend s m m') n x == s * extra m n x + (1 - s) * extra m' n x.
Proof.
  unfold extra. rewrite <- !BalanceProofs.total_scale, <- BalanceProofs.total_plus. apply BalanceProofs.total_ext. intros t _.
  assert (H : total (fun a => (blend s m m' a t - marginal a t) * output x a t) (assets n) == s * total (fun a => (m a t - marginal a t) * output x a t) (assets n) + (1 - s) * total (fun a => (m' a t - marginal a t) * output x a t) (assets n)).
  { rewrite <- !BalanceProofs.total_scale, <- BalanceProofs.total_plus. apply BalanceProofs.total_ext. intros a _. unfold blend. ring. }
  rewrite H. ring.
Qed.
Lemma concave kvl n s m m' x y z c p q r : (forall a, In a (assets n) -> In (cls a) classes) -> costs_sane n -> 0 <= s -> s <= 1 ->
  optimal kvl (repriced m n) x -> optimal kvl (repriced m' n) y -> feasible kvl (repriced (blend s m m') n) z -> cost n z = Some c ->
  cost (repriced m n) x = Some p -> cost (repriced m' n) y = Some q -> cost (repriced (blend s m m') n) z = Some r -> s * p + (1 - s) * q <= r.
Proof.
  intros W CS S0 S1 [FX (p0 & EX & BX)] [FY (q0 & EY & BY)] FZ C P Q R. rewrite EX in P. injection P as ->. rewrite EY in Q. injection Q as ->.
  pose proof (proj1 (feasible_s _ n kvl z) FZ) as FZ0. clear FZ. rename FZ0 into FZ. pose proof (feasible_domains kvl n z FZ) as D.
  destruct (cost_defined _ x z p EX) as [p' Ep]. destruct (cost_defined _ y z q EY) as [q' Eq].
  pose proof (BX z p' (proj2 (feasible_s m n kvl z) FZ) Ep) as B1. pose proof (BY z q' (proj2 (feasible_s m' n kvl z) FZ) Eq) as B2.
  pose proof (cost_s m n W CS z c p' D C Ep) as C1. pose proof (cost_s m' n W CS z c q' D C Eq) as C2. pose proof (cost_s _ n W CS z c r D C R) as C3. rewrite extra_blend in C3.
  assert (X : s * p <= s * p') by nra. assert (Y : (1 - s) * q <= (1 - s) * q') by nra. rewrite C1 in X. rewrite C2 in Y. lra.
Qed.
Lemma total_nonneg {A} (f : A -> Q) l : (forall a, In a l -> 0 <= f a) -> 0 <= total f l.
Proof. induction l as [|a l IH]; intros H; [apply Qle_refl|]. unfold BalanceSpec.total in *. cbn [map fold_right]. pose proof (H a (or_introl eq_refl)). specialize (IH (fun b I => H b (or_intror I))). lra. Qed.
Lemma rise kvl n m x y p q : (forall a, In a (assets n) -> In (cls a) classes) -> costs_sane n -> (forall t, 0 <= w_obj n t) ->
  (forall a t, In a (assets n) -> (t < nsnaps n)%nat -> marginal a t <= m a t /\ 0 <= output y a t) ->
  optimal kvl n x -> optimal kvl (repriced m n) y -> cost n x = Some p -> cost (repriced m n) y = Some q -> p <= q.
Proof.
  intros W CS Wt H OX OY P Q. destruct (bounds m n W CS kvl x y p q OX OY P Q) as [B _].
  assert (E : 0 <= extra m n y); [|lra]. unfold extra. apply total_nonneg. intros t I. apply in_seq in I. apply Qmult_le_0_compat; [apply Wt|]. apply total_nonneg. intros a J. destruct (H a t J ltac:(lia)) as [H1 H2]. apply Qmult_le_0_compat; [lra|exact H2].
Qed.
