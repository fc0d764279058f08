From Coq Require Import List String Bool QArith Arith Lqa Lia Ascii.
From Coq Require FinFun.
From Verif Require Import ClusterModel ClusterSpec BalanceProofs.
Import ListNotations.
Open Scope string_scope.
Open Scope list_scope.
Open Scope Q_scope.

(* weights *)
Lemma q_len_pos {A} (l : list A) : l <> [] -> 0 < inject_Z (Z.of_nat (List.length l)).
Proof. destruct l; [congruence|]. intros _. change 0 with (inject_Z 0). rewrite <- Zlt_Qlt. cbn [List.length]. lia. Qed.
Lemma uniform_sum {A} (l : list A) c : total (fun q => q) (map (fun _ => c) l) == inject_Z (Z.of_nat (List.length l)) * c.
Proof.
  induction l as [|a l IH]; [cbn; ring|]. cbn [map BalanceSpec.total fold_right]. fold (total (fun q : Q => q) (map (fun _ : A => c) l)). rewrite IH.
  cbn [List.length]. rewrite Nat2Z.inj_succ. unfold Z.succ. rewrite inject_Z_plus. change (inject_Z 1) with 1. ring.
Qed.
Lemma sum_nan_some l s : sum_nan l = Some s -> (forall q, In q l -> q <> None) /\ s == total (fun q => match q with Some q => q | None => 0 end) l.
Proof.
  revert s. induction l as [|[q|] l IH]; intros s E; cbn [sum_nan] in E; [|destruct (sum_nan l) as [r|] eqn:F; [|discriminate]|discriminate].
  - injection E as <-. split; [intros q []|reflexivity].
  - cbn [option_map] in E. injection E as <-. destruct (IH r eq_refl) as [N T]. split.
    + intros p [<-|I]; [discriminate|auto].
    + cbn [BalanceSpec.total fold_right]. fold (total (fun q => match q with Some q => q | None => 0 end) l). rewrite T. reflexivity.
Qed.
Lemma weights_sum l : l <> [] -> total (fun q => q) (normed_or_uniform l) == 1.
Proof.
  intros NE. pose proof (q_len_pos l NE) as P. unfold normed_or_uniform. destruct (sum_nan l) as [s|] eqn:E.
  - destruct (Qle_bool s 0) eqn:L; [rewrite uniform_sum; field; lra|]. apply sum_nan_some in E. destruct E as [_ T].
    assert (PS : ~ s == 0) by (intros Z; assert (s <= 0) by lra; apply Qle_bool_iff in H; congruence).
    rewrite total_map. rewrite (total_ext _ (fun q => / s * match q with Some q => q | None => 0 end)).
    + rewrite total_scale, <- T. field. auto.
    + intros [q|] _; unfold Qdiv; ring.
  - rewrite uniform_sum. field. lra.
Qed.
Lemma weights_nonneg l : (forall q, In (Some q) l -> 0 <= q) -> forall w, In w (normed_or_uniform l) -> 0 <= w.
Proof.
  intros N w I. assert (U : forall A (k : list A) v, In v (map (fun _ => 1 / inject_Z (Z.of_nat (List.length k))) k) -> 0 <= v).
  { intros A k v J. apply in_map_iff in J. destruct J as [a [<- J]]. apply Qle_shift_div_l; [apply q_len_pos; intros ->; destruct J|lra]. }
  unfold normed_or_uniform in I. destruct (sum_nan l) as [s|] eqn:E; [|eauto]. destruct (Qle_bool s 0) eqn:L; [eauto|].
  apply in_map_iff in I. destruct I as [[q|] [<- J]]; [|lra]. apply Qle_shift_div_l.
  - apply Qnot_le_lt. intros H. apply Qle_bool_iff in H. congruence.
  - specialize (N q J). lra.
Qed.
Lemma weights_length l : List.length (normed_or_uniform l) = List.length l.
Proof. unfold normed_or_uniform. destruct (sum_nan l) as [s|]; [destruct (Qle_bool s 0)|]; apply map_length. Qed.
Lemma weights_proportional l s : sum_nan l = Some s -> 0 < s -> forall i q, nth_error l i = Some (Some q) -> exists w, nth_error (normed_or_uniform l) i = Some w /\ w * s == q.
Proof.
  intros E P i q N. unfold normed_or_uniform. rewrite E. destruct (Qle_bool s 0) eqn:L; [apply Qle_bool_iff in L; lra|].
  exists (q / s). split; [|field; lra]. rewrite nth_error_map, N. reflexivity.
Qed.

(* weighted averages *)
Section D.
Context {A : Type}.
Variables (cap f : A -> Q).
Lemma dot_uniform c l : dot f l (map (fun _ : option Q => c) (map (fun a => Some (cap a)) l)) == c * total f l.
Proof. induction l as [|a l IH]; [cbn; ring|]. cbn [map dot BalanceSpec.total fold_right]. fold (total f l). rewrite IH. ring. Qed.
Lemma dot_scaled s l : dot f l (map (fun q => match q with Some q => q / s | None => 0 end) (map (fun a => Some (cap a)) l)) == total (fun a => cap a * f a) l / s.
Proof. induction l as [|a l IH]; [reflexivity|]. cbn [map dot BalanceSpec.total fold_right]. fold (total (fun a => cap a * f a) l). rewrite IH. unfold Qdiv. ring. Qed.
Lemma sum_caps l : exists s, sum_nan (map (fun a => Some (cap a)) l) = Some s /\ s == total cap l.
Proof.
  induction l as [|a l [s [E T]]]; [exists 0; split; reflexivity|]. exists (cap a + s). cbn [map sum_nan]. rewrite E. split; [reflexivity|]. cbn [BalanceSpec.total fold_right]. fold (total cap l). now rewrite T.
Qed.
Lemma dot_bounds lo hi l w : List.length w = List.length l -> (forall q, In q w -> 0 <= q) -> (forall a, In a l -> lo <= f a <= hi) ->
  lo * total (fun q => q) w <= dot f l w <= hi * total (fun q => q) w.
Proof.
  revert w. induction l as [|a l IH]; intros [|q w] L N B; try discriminate L; [cbn; lra|]. cbn [dot BalanceSpec.total fold_right]. fold (total (fun q : Q => q) w).
  injection L as L. destruct (IH w L) as [I1 I2]; [intros; apply N; simpl; auto|intros; apply B; simpl; auto|].
  pose proof (N q (or_introl eq_refl)) as Nq. destruct (B a (or_introl eq_refl)) as [B1 B2]. split; nra.
Qed.
Lemma average_between lo hi l : l <> [] -> (forall a, In a l -> 0 <= cap a) -> (forall a, In a l -> lo <= f a <= hi) ->
  exists v, combine CapacityAverage cap f l = Some v /\ lo <= v <= hi.
Proof.
  intros NE C B. eexists. split; [reflexivity|].
  assert (W : total (fun q => q) (normed_or_uniform (map (fun a => Some (cap a)) l)) == 1) by (apply weights_sum; destruct l; [congruence|discriminate]).
  destruct (dot_bounds lo hi l (normed_or_uniform (map (fun a => Some (cap a)) l))) as [D1 D2]; auto.
  - rewrite weights_length, map_length. reflexivity.
  - apply weights_nonneg. intros q I. apply in_map_iff in I. destruct I as [a [E I]]. injection E as <-. auto.
  - rewrite W in *. lra.
Qed.
Lemma average_weighted l : (forall a, In a l -> 0 <= cap a) ->
  exists v, combine CapacityAverage cap f l = Some v /\ total cap l * v == total (fun a => cap a * f a) l.
Proof.
  intros C. eexists. split; [reflexivity|]. destruct (sum_caps l) as [s [E T]]. unfold normed_or_uniform. rewrite E. destruct (Qle_bool s 0) eqn:L.
  - apply Qle_bool_iff in L. rewrite dot_uniform. assert (Z : forall a, In a l -> cap a == 0).
    { clear E. assert (T0 : total cap l <= 0) by lra. clear T L s. revert C T0. induction l as [|b l IH]; intros C T0 a I; [destruct I|]. cbn [BalanceSpec.total fold_right] in T0. fold (total cap l) in T0.
      assert (P : 0 <= total cap l). { clear - C. induction l as [|c l IH]; [cbn; lra|]. cbn [BalanceSpec.total fold_right]. fold (total cap l). pose proof (C c (or_intror (or_introl eq_refl))). assert (0 <= total cap l) by (apply IH; intros d [<-|J]; apply C; simpl; auto). lra. }
      pose proof (C b (or_introl eq_refl)). destruct I as [<-|I]; [lra|]. apply IH; auto; [intros; apply C; simpl; auto|lra]. }
    rewrite (total_zero (fun a => cap a * f a) l) by (intros a I; rewrite (Z a I); ring). rewrite (total_zero cap l) by auto. ring.
  - rewrite dot_scaled, T. field. intros Z0. rewrite <- T in Z0. assert (H : s <= 0) by lra. apply Qle_bool_iff in H. congruence.
Qed.
End D.

(* groups *)
Lemma key_eqb_eq a b : key_eqb a b = true <-> a = b.
Proof. unfold key_eqb. rewrite andb_true_iff, !String.eqb_eq. destruct a, b. cbn. split; [intros [-> ->]; auto|intros E; injection E; auto]. Qed.
Lemma nodupk_In k l : In k (nodupk l) <-> In k l.
Proof.
  induction l as [|a l IH]; [tauto|]. cbn [nodupk]. destruct (existsb (key_eqb a) l) eqn:E; simpl; rewrite IH; [|tauto].
  split; auto. intros [<-|I]; auto. apply existsb_exists in E. destruct E as [b [I E]]. apply key_eqb_eq in E. subst. auto.
Qed.
Lemma nodupk_NoDup l : NoDup (nodupk l).
Proof.
  induction l as [|a l IH]; [constructor|]. cbn [nodupk]. destruct (existsb (key_eqb a) l) eqn:E; auto. constructor; auto.
  rewrite nodupk_In. intros I. assert (existsb (key_eqb a) l = true); [|congruence]. apply existsb_exists. exists a. split; auto. now apply key_eqb_eq.
Qed.
Lemma pick_key (f : string * string -> Q) k ks : NoDup ks -> (In k ks \/ f k == 0) -> total (fun k' => if key_eqb k' k then f k' else 0) ks == f k.
Proof.
  induction 1 as [|a ks NI ND IH]; intros H; [destruct H as [[]|H]; cbn; lra|]. cbn [BalanceSpec.total fold_right]. fold (total (fun k' => if key_eqb k' k then f k' else 0) ks).
  destruct (key_eqb a k) eqn:E.
  - apply key_eqb_eq in E. subst a. rewrite total_zero; [ring|]. intros k' I. destruct (key_eqb k' k) eqn:F; [|reflexivity]. apply key_eqb_eq in F. subst. contradiction.
  - rewrite IH; [ring|]. destruct H as [[->|I]|Z]; auto. exfalso. assert (key_eqb k k = true) by now apply key_eqb_eq. congruence.
Qed.

Section G.
Variable busmap : string -> option string.
Lemma keys_In k l : In k (keys busmap l) <-> exists r, In r l /\ key busmap r = Some k.
Proof.
  unfold keys. rewrite nodupk_In, in_flat_map. split.
  - intros [r [I J]]. exists r. split; auto. destruct (key busmap r); [destruct J as [<-|[]]; auto|destruct J].
  - intros [r [I E]]. exists r. split; auto. rewrite E. simpl. auto.
Qed.
Lemma group_In k l r : In r (group busmap k l) <-> In r l /\ key busmap r = Some k.
Proof.
  unfold group. rewrite filter_In. split; intros [I H]; split; auto.
  - destruct (key busmap r) as [k'|]; [|discriminate]. apply key_eqb_eq in H. now subst.
  - rewrite H. now apply key_eqb_eq.
Qed.
Lemma group_total f c k l : total f (group busmap (c, k) l) == total_in busmap f c k l.
Proof.
  unfold group, total_in. rewrite total_filter. apply total_ext. intros r _. unfold key. destruct (busmap (o_bus r)) as [b|]; cbn [option_map is_in andb]; [|reflexivity].
  unfold key_eqb. cbn [fst snd]. rewrite (String.eqb_sym c b), (String.eqb_sym k (o_carrier r)). destruct (String.eqb b c && String.eqb (o_carrier r) k); reflexivity.
Qed.

Lemma agg_totals (F : out -> Q) (f : oneport -> Q) cap strat cols sel l us c k :
  (forall k' s', s' = filter sel l -> In k' (keys busmap s') -> F {| u_name := flat_name (fst k') (snd k'); u_bus := Some (fst k'); u_carrier := snd k';
      u_num := fun c => combine (strat c) (fun r => o_num r cap) (fun r => o_num r c) (group busmap k' s') |} == total f (group busmap k' s')) ->
  (forall r, In r l -> sel r = false -> F {| u_name := o_name r; u_bus := busmap (o_bus r); u_carrier := o_carrier r; u_num := fun c => Some (o_num r c) |} == f r) ->
  aggregateoneport busmap cap strat cols sel l = Some us -> total_out F c k us == total_in busmap f c k l.
Proof.
  intros HG HN E. unfold aggregateoneport in E. destruct (forallb _ _); [|discriminate]. injection E as <-. unfold total_out. rewrite total_app, !total_map. cbn [u_bus u_carrier].
  rewrite (total_ext _ (fun k' => if key_eqb k' (c, k) then total f (group busmap k' (filter sel l)) else 0)).
  2:{ intros k' I. cbn [is_in]. unfold key_eqb. cbn [fst snd]. destruct (String.eqb (fst k') c && String.eqb (snd k') k); [|reflexivity]. apply HG; auto. }
  rewrite pick_key.
  - rewrite group_total. unfold total_in. rewrite (total_filter _ sel l), (total_filter _ (fun r => negb (sel r)) l), <- total_plus. apply total_ext. intros r I.
    destruct (sel r) eqn:S; cbn [negb]; [ring|]. rewrite Qplus_0_l. destruct (is_in (busmap (o_bus r)) c && String.eqb (o_carrier r) k); [|reflexivity]. apply HN; auto.
  - apply nodupk_NoDup.
  - destruct (in_dec (fun a b : string * string => ltac:(decide equality; apply string_dec)) (c, k) (keys busmap (filter sel l))) as [I|N]; [left; auto|right].
    apply total_zero. intros r I. exfalso. apply N. apply keys_In. exists r. apply group_In in I. tauto.
Qed.
Lemma totals attr cap strat cols sel l us c k : aggregateoneport busmap cap strat cols sel l = Some us -> strat attr = Sum ->
  total_out (fun u => cell u attr) c k us == total_in busmap (fun r => o_num r attr) c k l.
Proof.
  intros E S. eapply agg_totals; eauto.
  - intros k' s' -> I. unfold cell. cbn [u_num]. rewrite S. cbn [combine]. reflexivity.
  - intros r I N. reflexivity.
Qed.
Lemma available attr cap strat cols sel l us c k : aggregateoneport busmap cap strat cols sel l = Some us -> strat cap = Sum -> strat attr = CapacityAverage ->
  (forall r, In r l -> 0 <= o_num r cap) ->
  total_out (fun u => cell u cap * cell u attr) c k us == total_in busmap (fun r => o_num r cap * o_num r attr) c k l.
Proof.
  intros E S A N. eapply agg_totals; eauto.
  - intros k' s' -> I. unfold cell. cbn [u_num]. rewrite S, A. destruct (average_weighted (fun r => o_num r cap) (fun r => o_num r attr) (group busmap k' (filter sel l))) as [v [V W]].
    + intros r J. apply group_In in J. destruct J as [J _]. apply filter_In in J. apply N. tauto.
    + rewrite V. rewrite <- W. cbn [combine]. reflexivity.
  - intros r I Z. reflexivity.
Qed.

(* all components aggregated: one output per cluster and carrier *)
Lemma one_each cap strat cols l us : aggregateoneport busmap cap strat cols (fun _ => true) l = Some us ->
  NoDup (map (fun u => (u_bus u, u_carrier u)) us) /\
  forall c k, In (Some c, k) (map (fun u => (u_bus u, u_carrier u)) us) <-> exists r, In r l /\ busmap (o_bus r) = Some c /\ o_carrier r = k.
Proof.
  unfold aggregateoneport. destruct (forallb _ _); [|discriminate]. intros E. injection E as <-.
  assert (F1 : filter (fun _ : oneport => true) l = l) by (induction l as [|a l IH]; [reflexivity|]; cbn [filter]; now rewrite IH).
  assert (F2 : filter (fun _ : oneport => false) l = []) by (clear; induction l as [|a l IH]; [reflexivity|]; cbn [filter]; auto).
  cbn [negb]. rewrite F1, F2. cbn [map]. rewrite app_nil_r, map_map. cbn [u_bus u_carrier]. split.
  - apply Coq.Logic.FinFun.Injective_map_NoDup; [|apply nodupk_NoDup]. intros [a b] [a' b'] H. cbn in H. injection H as -> ->. reflexivity.
  - intros c k. rewrite in_map_iff. split.
    + intros [[a b] [H I]]. cbn [fst snd] in H. injection H as -> ->. apply keys_In in I. destruct I as [r [I K]]. exists r. split; auto. unfold key in K. destruct (busmap (o_bus r)); [|discriminate]. cbn in K. injection K as -> ->. auto.
    + intros [r [I [B C]]]. exists (c, k). split; [reflexivity|]. apply keys_In. exists r. split; auto. unfold key. rewrite B. cbn. now rewrite C.
Qed.
Lemma averages attr cap strat cols l us lo hi : aggregateoneport busmap cap strat cols (fun _ => true) l = Some us -> strat attr = CapacityAverage ->
  (forall r, In r l -> 0 <= o_num r cap) ->
  forall u c, In u us -> u_bus u = Some c -> (forall r, In r l -> busmap (o_bus r) = Some c -> o_carrier r = u_carrier u -> lo <= o_num r attr <= hi) ->
  exists v, u_num u attr = Some v /\ lo <= v <= hi.
Proof.
  unfold aggregateoneport. destruct (forallb _ _); [|discriminate]. intros E A N u c I B R. injection E as <-. apply in_app_or in I. destruct I as [I|I].
  - apply in_map_iff in I. destruct I as [k [<- I]]. cbn [u_bus u_carrier u_num] in *. injection B as <-. rewrite A. apply average_between.
    + apply keys_In in I. destruct I as [r [I K]]. intros Z. assert (J : In r (group busmap k (filter (fun _ => true) l))) by (apply group_In; auto). rewrite Z in J. destruct J.
    + intros r J. apply group_In in J. destruct J as [J _]. apply filter_In in J. apply N. tauto.
    + intros r J. apply group_In in J. destruct J as [J K]. apply filter_In in J. unfold key in K. destruct (busmap (o_bus r)) eqn:BB; [|discriminate]. cbn in K. injection K as <-. apply R; tauto.
  - exfalso. apply in_map_iff in I. destruct I as [r [_ I]]. apply filter_In in I. destruct I; discriminate.
Qed.

(* what is aggregated into an output *)
Lemma agg_out cap strat cols l us u : aggregateoneport busmap cap strat cols (fun _ => true) l = Some us -> In u us ->
  exists c g, u_bus u = Some c /\ g <> [] /\ (forall r, In r g <-> In r l /\ busmap (o_bus r) = Some c /\ o_carrier r = u_carrier u) /\
    total (fun _ => 1) g == total_in busmap (fun _ => 1) c (u_carrier u) l /\ (forall f, total f g == total_in busmap f c (u_carrier u) l) /\
    forall attr, u_num u attr = combine (strat attr) (fun r => o_num r cap) (fun r => o_num r attr) g.
Proof.
  unfold aggregateoneport. destruct (forallb _ _); [|discriminate]. intros E I. injection E as <-. apply in_app_or in I. destruct I as [I|I].
  - apply in_map_iff in I. destruct I as [[c k] [<- I]]. cbn [u_bus u_carrier u_num fst snd] in *.
    assert (F1 : filter (fun _ : oneport => true) l = l) by (clear; induction l as [|a l IH]; [reflexivity|]; cbn [filter]; now rewrite IH). rewrite F1 in *.
    assert (GT : forall f, total f (group busmap (c, k) l) == total_in busmap f c k l) by (intros; apply group_total).
    exists c, (group busmap (c, k) l). split; [reflexivity|]. split; [|split; [|split; [|split]]]; auto.
    + apply keys_In in I. destruct I as [r [I K]]. intros Z. assert (J : In r (group busmap (c, k) l)) by (apply group_In; auto). rewrite Z in J. destruct J.
    + intros r. rewrite group_In. unfold key. destruct (busmap (o_bus r)) as [b|]; cbn [option_map]; split; intros [J K]; split; auto; try discriminate.
      * injection K as -> ->. auto.
      * destruct K as [K1 K2]. injection K1 as ->. now rewrite K2.
      * destruct K. discriminate.
  - exfalso. apply in_map_iff in I. destruct I as [r [_ I]]. apply filter_In in I. destruct I; discriminate.
Qed.
Lemma min_of_spec {A} (f : A -> Q) l d : min_of f d l <= d /\ (forall a, In a l -> min_of f d l <= f a) /\ (min_of f d l = d \/ exists a, In a l /\ min_of f d l = f a).
Proof.
  revert d. induction l as [|a l IH]; intros d; cbn [min_of]; [split; [lra|split; [intros a []|auto]]|].
  destruct (IH (if Qle_bool (f a) d then f a else d)) as [H1 [H2 H3]]. destruct (Qle_bool (f a) d) eqn:B.
  - apply Qle_bool_iff in B. split; [lra|]. split; [intros x [<-|I]; auto|]. destruct H3 as [H3|[x [I H3]]]; right; [exists a; simpl; auto|exists x; simpl; auto].
  - assert (~ f a <= d) by (rewrite <- Qle_bool_iff; congruence). split; [lra|]. split; [intros x [<-|I]; [lra|auto]|]. destruct H3 as [H3|[x [I H3]]]; auto. right. exists x. simpl. auto.
Qed.
Lemma max_of_spec {A} (f : A -> Q) l d : d <= max_of f d l /\ (forall a, In a l -> f a <= max_of f d l) /\ (max_of f d l = d \/ exists a, In a l /\ max_of f d l = f a).
Proof.
  revert d. induction l as [|a l IH]; intros d; cbn [max_of]; [split; [lra|split; [intros a []|auto]]|].
  destruct (IH (if Qle_bool d (f a) then f a else d)) as [H1 [H2 H3]]. destruct (Qle_bool d (f a)) eqn:B.
  - apply Qle_bool_iff in B. split; [lra|]. split; [intros x [<-|I]; auto|]. destruct H3 as [H3|[x [I H3]]]; right; [exists a; simpl; auto|exists x; simpl; auto].
  - assert (~ d <= f a) by (rewrite <- Qle_bool_iff; congruence). split; [lra|]. split; [intros x [<-|I]; [lra|auto]|]. destruct H3 as [H3|[x [I H3]]]; auto. right. exists x. simpl. auto.
Qed.
Notation belongs := (belongs busmap).
Lemma extremes attr cap strat cols l us u : aggregateoneport busmap cap strat cols (fun _ => true) l = Some us -> In u us ->
  (strat attr = Min -> exists r, belongs l u r /\ u_num u attr = Some (o_num r attr) /\ forall r', belongs l u r' -> o_num r attr <= o_num r' attr) /\
  (strat attr = Max -> exists r, belongs l u r /\ u_num u attr = Some (o_num r attr) /\ forall r', belongs l u r' -> o_num r' attr <= o_num r attr).
Proof.
  intros E I. destruct (agg_out _ _ _ _ _ _ E I) as [c [g [B [NE [M [_ [_ V]]]]]]].
  assert (BI : forall r, belongs l u r <-> In r g) by (intros r; unfold ClusterSpec.belongs; rewrite M, B; tauto).
  split; intros St; rewrite V, St; cbn [combine]; destruct g as [|a g]; try congruence.
  - destruct (min_of_spec (fun r => o_num r attr) g (o_num a attr)) as [H1 [H2 [H3|[x [J H3]]]]].
    + exists a. split; [apply BI; simpl; auto|]. split; [now rewrite H3|]. intros r' K. apply BI in K. rewrite <- H3. destruct K as [<-|K]; [lra|auto].
    + exists x. split; [apply BI; simpl; auto|]. split; [now rewrite H3|]. intros r' K. apply BI in K. rewrite <- H3. destruct K as [<-|K]; auto.
  - destruct (max_of_spec (fun r => o_num r attr) g (o_num a attr)) as [H1 [H2 [H3|[x [J H3]]]]].
    + exists a. split; [apply BI; simpl; auto|]. split; [now rewrite H3|]. intros r' K. apply BI in K. rewrite <- H3. destruct K as [<-|K]; [lra|auto].
    + exists x. split; [apply BI; simpl; auto|]. split; [now rewrite H3|]. intros r' K. apply BI in K. rewrite <- H3. destruct K as [<-|K]; auto.
Qed.
Lemma count_len (g : list oneport) : total (fun _ => 1) g == inject_Z (Z.of_nat (List.length g)).
Proof.
  induction g as [|a g IH]; [reflexivity|]. cbn [BalanceSpec.total fold_right List.length]. fold (total (fun _ : oneport => 1) g). rewrite IH, Nat2Z.inj_succ. unfold Z.succ. rewrite inject_Z_plus. change (inject_Z 1) with 1. ring.
Qed.
Lemma plain_mean attr cap strat cols l us u c : aggregateoneport busmap cap strat cols (fun _ => true) l = Some us -> In u us -> u_bus u = Some c -> strat attr = Mean ->
  exists v, u_num u attr = Some v /\ v * total_in busmap (fun _ => 1) c (u_carrier u) l == total_in busmap (fun r => o_num r attr) c (u_carrier u) l.
Proof.
  intros E I B St. destruct (agg_out _ _ _ _ _ _ E I) as [c' [g [B' [NE [M [N [T V]]]]]]]. rewrite B in B'. injection B' as <-. rewrite V, St. cbn [combine]. eexists. split; [reflexivity|].
  rewrite <- N, <- T, count_len. change (sum_of (fun r => o_num r attr) g) with (total (fun r => o_num r attr) g). field. pose proof (q_len_pos g NE). lra.
Qed.
Lemma agreed attr cap strat cols l us u : aggregateoneport busmap cap strat cols (fun _ => true) l = Some us -> In attr cols -> In u us -> strat attr = Consense ->
  exists v, u_num u attr = Some v /\ forall r, belongs l u r -> o_num r attr == v.
Proof.
  intros E IC I St. pose proof E as E0. unfold aggregateoneport in E0.
  destruct (forallb _ _) eqn:FB; [|discriminate]. injection E0 as E0. subst us.
  destruct (agg_out _ _ _ _ _ _ E I) as [c [g [B [NE [M [_ [_ V]]]]]]]. specialize (V attr). rewrite V, St.
  apply in_app_or in I. destruct I as [I|I]; [|exfalso; apply in_map_iff in I; destruct I as [r [_ I]]; apply filter_In in I; destruct I; discriminate].
  apply in_map_iff in I. destruct I as [k [Eu I]]. rewrite forallb_forall in FB. specialize (FB k I). rewrite forallb_forall in FB. specialize (FB attr IC).
  assert (V' : u_num u attr = combine (strat attr) (fun r => o_num r cap) (fun r => o_num r attr) (group busmap k (filter (fun _ => true) l))) by (rewrite <- Eu; reflexivity).
  rewrite V' in V. rewrite V, St in FB. cbn [combine] in *. destruct g as [|a g]; [congruence|]. destruct (forallb _ g) eqn:F; [|discriminate].
  exists (o_num a attr). split; [reflexivity|]. intros r [R1 [R2 R3]]. assert (J : In r (a :: g)) by (apply M; rewrite <- B; auto). destruct J as [<-|J]; [reflexivity|].
  rewrite forallb_forall in F. apply Qeq_bool_iff. auto.
Qed.
Lemma conflict attr cap strat cols sel l r r' c : In attr cols -> strat attr = Consense -> In r l -> In r' l -> sel r = true -> sel r' = true ->
  busmap (o_bus r) = Some c -> busmap (o_bus r') = Some c -> o_carrier r = o_carrier r' -> ~ o_num r attr == o_num r' attr -> aggregateoneport busmap cap strat cols sel l = None.
Proof.
  intros IC St I I' S S' B B' C N. unfold aggregateoneport. destruct (forallb _ _) eqn:FB; [exfalso|reflexivity]. rewrite forallb_forall in FB.
  assert (K : key busmap r = Some (c, o_carrier r)) by (unfold key; now rewrite B). assert (K' : key busmap r' = Some (c, o_carrier r)) by (unfold key; rewrite B', C; reflexivity).
  assert (J : In r (filter sel l)) by (apply filter_In; auto). assert (J' : In r' (filter sel l)) by (apply filter_In; auto).
  specialize (FB (c, o_carrier r)). assert (KI : In (c, o_carrier r) (keys busmap (filter sel l))) by (apply keys_In; exists r; auto). specialize (FB KI). rewrite forallb_forall in FB. specialize (FB attr IC). rewrite St in FB. cbn [combine] in FB.
  assert (G : In r (group busmap (c, o_carrier r) (filter sel l))) by (apply group_In; auto). assert (G' : In r' (group busmap (c, o_carrier r) (filter sel l))) by (apply group_In; auto).
  destruct (group busmap (c, o_carrier r) (filter sel l)) as [|a g]; [destruct G|]. destruct (forallb _ g) eqn:F; [|discriminate]. rewrite forallb_forall in F.
  assert (Q1 : forall x, In x (a :: g) -> o_num x attr == o_num a attr) by (intros x [<-|X]; [reflexivity|apply Qeq_bool_iff; auto]). apply N. rewrite (Q1 _ G), (Q1 _ G'). reflexivity.
Qed.
Lemma no_conflict cap strat cols sel l :
  (forall attr r r' c, In attr cols -> strat attr = Consense -> In r l -> In r' l -> sel r = true -> sel r' = true ->
     busmap (o_bus r) = Some c -> busmap (o_bus r') = Some c -> o_carrier r = o_carrier r' -> o_num r attr == o_num r' attr) ->
  exists us, aggregateoneport busmap cap strat cols sel l = Some us.
Proof.
  intros H. unfold aggregateoneport. destruct (forallb _ _) eqn:FB; [eexists; reflexivity|exfalso]. apply not_true_iff_false in FB. apply FB. clear FB. apply forallb_forall. intros [c k] KI. apply forallb_forall. intros attr IC.
  apply keys_In in KI. destruct KI as [r0 [I0 K0]]. assert (GE : group busmap (c, k) (filter sel l) <> []) by (intros Z; assert (J : In r0 (group busmap (c, k) (filter sel l))) by (apply group_In; auto); rewrite Z in J; destruct J).
  destruct (strat attr) eqn:St; cbn [combine]; try reflexivity; try (destruct (group busmap (c, k) (filter sel l)); [congruence|reflexivity]).
  assert (GI : forall r, In r (group busmap (c, k) (filter sel l)) -> In r l /\ sel r = true /\ busmap (o_bus r) = Some c /\ o_carrier r = k).
  { intros r J. apply group_In in J. destruct J as [J K]. apply filter_In in J. unfold key in K. destruct (busmap (o_bus r)); [|discriminate]. cbn in K. injection K as -> ->. tauto. }
  destruct (group busmap (c, k) (filter sel l)) as [|a g]; [congruence|]. replace (forallb _ g) with true; [reflexivity|]. symmetry. apply forallb_forall. intros x X. apply Qeq_bool_iff.
  destruct (GI a (or_introl eq_refl)) as [A1 [A2 [A3 A4]]]. destruct (GI x (or_intror X)) as [B1 [B2 [B3 B4]]]. apply (H attr x a c); auto. congruence.
Qed.
Lemma default_totals attr cap cols sel l us c k : aggregateoneport busmap cap default_strategy cols sel l = Some us ->
  In attr ["p"; "q"; "p_set"; "q_set"; "p_nom"; "p_nom_min"; "p_nom_max"; "e_nom"; "e_nom_min"; "e_nom_max"; "inflow"; "weight"] ->
  total_out (fun u => cell u attr) c k us == total_in busmap (fun r => o_num r attr) c k l.
Proof. intros E I. apply (totals attr) with (1 := E). simpl in I. intuition (subst; reflexivity). Qed.
Lemma default_available attr cap cols sel l us c k : aggregateoneport busmap cap default_strategy cols sel l = Some us -> In cap ["p_nom"; "e_nom"] ->
  In attr ["p_min_pu"; "p_max_pu"; "capital_cost"; "marginal_cost"; "efficiency"; "max_hours"] -> (forall r, In r l -> 0 <= o_num r cap) ->
  total_out (fun u => cell u cap * cell u attr) c k us == total_in busmap (fun r => o_num r cap * o_num r attr) c k l.
Proof. intros E C I N. apply (available attr) with (1 := E); auto; [simpl in C|simpl in I]; intuition (subst; reflexivity). Qed.

(* lines *)
Lemma line_keys_In k ls : In k (line_keys busmap ls) <-> exists l, In l ls /\ ends busmap l = Some k.
Proof.
  unfold line_keys. rewrite nodupk_In, in_flat_map. split.
  - intros [r [I J]]. exists r. split; auto. destruct (ends busmap r); [destruct J as [<-|[]]; auto|destruct J].
  - intros [r [I E]]. exists r. split; auto. rewrite E. simpl. auto.
Qed.
Lemma line_group_In k ls l : In l (line_group busmap k ls) <-> In l ls /\ ends busmap l = Some k.
Proof.
  unfold line_group. rewrite filter_In. split; intros [I H]; split; auto.
  - destruct (ends busmap l) as [k'|]; [|discriminate]. apply key_eqb_eq in H. now subst.
  - rewrite H. now apply key_eqb_eq.
Qed.
Lemma str_lt_total a b : a <> b -> str_lt a b = negb (str_lt b a).
Proof.
  intros N. unfold str_lt. rewrite (String.compare_antisym b a). destruct (String.compare a b) eqn:E; cbn; auto. apply String.compare_eq_iff in E. congruence.
Qed.
Definition ordered (k : string * string) : Prop := str_lt (snd k) (fst k) = false.
Lemma ends_ordered l k : ends busmap l = Some k -> between busmap l = true -> ordered k /\ fst k <> snd k.
Proof.
  unfold ends, between, ordered. destruct (busmap (l_bus0 l)) as [a|]; [|discriminate]. destruct (busmap (l_bus1 l)) as [b|]; [|discriminate]. intros E B. injection E as <-.
  apply negb_true_iff in B. apply String.eqb_neq in B. destruct (str_lt b a) eqn:L; cbn [fst snd]; split; auto. rewrite str_lt_total by auto. now rewrite L.
Qed.
Lemma joins_ordered k x y : ordered k -> fst k <> snd k -> joins (fst k) (snd k) x y = key_eqb k (if str_lt y x then (y, x) else (x, y)).
Proof.
  destruct k as [a b]. unfold ordered, joins, key_eqb. cbn [fst snd]. intros O N.
  destruct (str_lt y x) eqn:L; cbn [fst snd];
    destruct (String.eqb_spec a x), (String.eqb_spec b y), (String.eqb_spec a y), (String.eqb_spec b x); subst; cbn; try congruence.
  rewrite str_lt_total in O by congruence. rewrite L in O. discriminate O.
Qed.
Lemma joins_in_ends l x y : between busmap l = true -> x <> y -> joins_in busmap l x y = match ends busmap l with Some k => key_eqb (if str_lt y x then (y, x) else (x, y)) k | None => false end.
Proof.
  intros B N. unfold joins_in, ends, between in *. destruct (busmap (l_bus0 l)) as [a|]; [|reflexivity]. destruct (busmap (l_bus1 l)) as [b|]; [|reflexivity].
  apply negb_true_iff in B. apply String.eqb_neq in B. unfold joins, key_eqb. destruct (str_lt b a) eqn:L1, (str_lt y x) eqn:L2; cbn [fst snd];
    rewrite ?(String.eqb_sym x), ?(String.eqb_sym y); destruct (String.eqb_spec a x), (String.eqb_spec b y), (String.eqb_spec a y), (String.eqb_spec b x); subst; cbn; try congruence;
    exfalso; match goal with H : str_lt ?p ?q = _, H' : str_lt ?q ?p = _ |- _ => rewrite str_lt_total in H by congruence; rewrite H' in H; discriminate H end.
Qed.
Lemma line_totals (F : lout -> Q) (f : line -> Q) ls x y : x <> y ->
  (forall k g, In k (line_keys busmap (filter (between busmap) ls)) -> g = line_group busmap k (filter (between busmap) ls) ->
     F {| v_bus0 := fst k; v_bus1 := snd k; v_num := fun c => line_value c g |} == total f g) ->
  lines_out F x y (aggregatelines busmap ls) == lines_in busmap f x y ls.
Proof.
  intros N H. unfold lines_out, aggregatelines. rewrite total_map. cbn [v_bus0 v_bus1]. set (s := filter (between busmap) ls) in *. set (xy := if str_lt y x then (y, x) else (x, y)).
  rewrite (total_ext _ (fun k => if key_eqb k xy then total f (line_group busmap k s) else 0)).
  2:{ intros k I. assert (OK : ordered k /\ fst k <> snd k).
      { apply line_keys_In in I. destruct I as [l [I E]]. apply filter_In in I. eapply ends_ordered; eauto. tauto. }
      rewrite joins_ordered by tauto. fold xy. destruct (key_eqb k xy); [|reflexivity]. apply H; auto. }
  rewrite pick_key.
  - unfold line_group, lines_in. rewrite total_filter. unfold s. rewrite total_filter. apply total_ext. intros l _. destruct (between busmap l) eqn:B.
    + rewrite joins_in_ends by auto. fold xy. reflexivity.
    + unfold joins_in. unfold between in B. destruct (busmap (l_bus0 l)) as [a|]; [|reflexivity]. destruct (busmap (l_bus1 l)) as [b|]; [|reflexivity].
      apply negb_false_iff in B. apply String.eqb_eq in B. subst b. unfold joins. destruct (String.eqb_spec a x), (String.eqb_spec a y); subst; try reflexivity. congruence.
  - apply nodupk_NoDup.
  - destruct (in_dec (fun a b : string * string => ltac:(decide equality; apply string_dec)) xy (line_keys busmap s)) as [I|NI]; [left; auto|right].
    apply total_zero. intros l I. exfalso. apply NI. apply line_keys_In. exists l. apply line_group_In in I. tauto.
Qed.
Lemma s_nom_total attr ls x y : In attr ["s_nom"; "s_nom_min"; "s_nom_max"; "num_parallel"] -> x <> y ->
  lines_out (fun l => v_num l attr) x y (aggregatelines busmap ls) == lines_in busmap (fun l => l_num l attr) x y ls.
Proof.
  intros I N. apply line_totals; auto. intros k g _ _. cbn [v_num]. unfold line_value. simpl in I. destruct I as [<-|[<-|[<-|[<-|[]]]]]; reflexivity.
Qed.
Lemma line_count ls x y : x <> y ->
  lines_out (fun _ => 1) x y (aggregatelines busmap ls) == (if existsb (fun l => joins_in busmap l x y) ls then 1 else 0) /\
  (forall l, In l (aggregatelines busmap ls) -> v_bus0 l <> v_bus1 l).
Proof.
  intros N. split.
  - unfold lines_out, aggregatelines. rewrite total_map. cbn [v_bus0 v_bus1]. set (s := filter (between busmap) ls). set (xy := if str_lt y x then (y, x) else (x, y)).
    assert (OK : forall k, In k (line_keys busmap s) -> ordered k /\ fst k <> snd k).
    { intros k I. apply line_keys_In in I. destruct I as [l [I E]]. apply filter_In in I. eapply ends_ordered; eauto. tauto. }
    rewrite (total_ext _ (fun k => if key_eqb k xy then (fun k => if existsb (key_eqb k) (line_keys busmap s) then 1 else 0) k else 0)).
    2:{ intros k I. destruct (OK k I). rewrite joins_ordered by auto. fold xy. destruct (key_eqb k xy); [|reflexivity].
        assert (E : existsb (key_eqb k) (line_keys busmap s) = true) by (apply existsb_exists; exists k; split; auto; now apply key_eqb_eq). now rewrite E. }
    rewrite pick_key; [|apply nodupk_NoDup|].
    + assert (E : existsb (key_eqb xy) (line_keys busmap s) = existsb (fun l => joins_in busmap l x y) ls); [|now rewrite E].
      apply eq_true_iff_eq. rewrite !existsb_exists. split.
      * intros [k [I K]]. apply key_eqb_eq in K. subst k. apply line_keys_In in I. destruct I as [l [I E]]. exists l. apply filter_In in I. destruct I as [I B]. split; auto. rewrite joins_in_ends by auto. rewrite E. fold xy. now apply key_eqb_eq.
      * intros [l [I J]]. exists xy. split; [|now apply key_eqb_eq]. apply line_keys_In. exists l.
        assert (B : between busmap l = true).
        { unfold joins_in in J. unfold between. destruct (busmap (l_bus0 l)) as [a|]; [|reflexivity]. destruct (busmap (l_bus1 l)) as [b|]; [|reflexivity]. apply negb_true_iff. apply String.eqb_neq. intros ->.
          unfold joins in J. destruct (String.eqb_spec b x), (String.eqb_spec b y); subst; try discriminate. congruence. }
        split; [apply filter_In; auto|]. rewrite joins_in_ends in J by auto. destruct (ends busmap l) as [k|]; [|discriminate]. fold xy in J. apply key_eqb_eq in J. now rewrite J.
    + destruct (existsb (key_eqb xy) (line_keys busmap s)) eqn:E; [left|right; reflexivity]. apply existsb_exists in E. destruct E as [k [I K]]. apply key_eqb_eq in K. now subst.
  - intros l I. apply in_map_iff in I. destruct I as [k [<- I]]. cbn [v_bus0 v_bus1]. apply line_keys_In in I. destruct I as [l [I E]]. apply filter_In in I. eapply ends_ordered; eauto. tauto.
Qed.
Lemma parallel_law attr ls l : In attr ["x"; "r"] -> In l (aggregatelines busmap ls) -> (forall m, In m ls -> 0 < l_num m attr /\ 0 < l_length_factor m /\ 0 < l_voltage_factor m) ->
  v_num l attr * lines_in busmap (fun m => l_voltage_factor m / (l_length_factor m * l_num m attr)) (v_bus0 l) (v_bus1 l) ls == 1.
Proof.
  intros A I P. pose proof (proj2 (line_count ls "a" "b" ltac:(discriminate)) l I) as NE.
  apply in_map_iff in I. destruct I as [k [<- I]]. cbn [v_bus0 v_bus1 v_num] in *. set (s := filter (between busmap) ls) in *. pose proof I as I0.
  apply line_keys_In in I. destruct I as [m [I E]]. pose proof I as I1. apply filter_In in I1. destruct (ends_ordered m k E (proj2 I1)) as [O _].
  assert (T : total (fun m => l_voltage_factor m / (l_length_factor m * l_num m attr)) (line_group busmap k s) == lines_in busmap (fun m => l_voltage_factor m / (l_length_factor m * l_num m attr)) (fst k) (snd k) ls).
  { unfold line_group, lines_in. rewrite total_filter. unfold s. rewrite total_filter. apply total_ext. intros q _. destruct (between busmap q) eqn:B.
    - rewrite joins_in_ends by auto. unfold ordered in O. rewrite O. destruct k; reflexivity.
    - unfold joins_in. unfold between in B. destruct (busmap (l_bus0 q)) as [a|]; [|reflexivity]. destruct (busmap (l_bus1 q)) as [b|]; [|reflexivity].
      apply negb_false_iff in B. apply String.eqb_eq in B. subst b. unfold joins. destruct (String.eqb_spec a (fst k)), (String.eqb_spec a (snd k)); subst; try reflexivity. congruence. }
  rewrite <- T. assert (PT : 0 < total (fun m => l_voltage_factor m / (l_length_factor m * l_num m attr)) (line_group busmap k s)).
  { assert (IG : In m (line_group busmap k s)) by (apply line_group_In; auto).
    assert (PP : forall q, In q (line_group busmap k s) -> 0 < l_voltage_factor q / (l_length_factor q * l_num q attr)).
    { intros q J. apply line_group_In in J. destruct J as [J _]. apply filter_In in J. destruct (P q (proj1 J)) as [P1 [P2 P3]]. apply Qlt_shift_div_l; [nra|lra]. }
    revert IG PP. generalize (line_group busmap k s). clear. intros g IG PP. assert (Z : forall h : list line, (forall q, In q h -> 0 < l_voltage_factor q / (l_length_factor q * l_num q attr)) -> 0 <= total (fun m => l_voltage_factor m / (l_length_factor m * l_num m attr)) h).
    { induction h as [|a h IH]; intros H; [cbn; lra|]. cbn [BalanceSpec.total fold_right]. fold (total (fun m => l_voltage_factor m / (l_length_factor m * l_num m attr)) h). pose proof (H a (or_introl eq_refl)). assert (0 <= total (fun m => l_voltage_factor m / (l_length_factor m * l_num m attr)) h) by (apply IH; intros; apply H; simpl; auto). lra. }
    destruct g as [|a g]; [destruct IG|]. cbn [BalanceSpec.total fold_right]. fold (total (fun m => l_voltage_factor m / (l_length_factor m * l_num m attr)) g). pose proof (PP a (or_introl eq_refl)). pose proof (Z g (fun q J => PP q (or_intror J))). lra. }
  assert (V : line_value attr (line_group busmap k s) = / total (fun m => l_voltage_factor m / (l_length_factor m * l_num m attr)) (line_group busmap k s)).
  { simpl in A. destruct A as [<-|[<-|[]]]; reflexivity. }
  rewrite V. field. lra.
Qed.
Lemma links_kept ls l : In l (clustered_links busmap ls) <-> exists m a b, In m ls /\ busmap (k_bus0 m) = Some a /\ busmap (k_bus1 m) = Some b /\ a <> b /\
  l = {| k_name := k_name m; k_bus0 := a; k_bus1 := b; k_more := k_more m |}.
Proof.
  unfold clustered_links. rewrite in_flat_map. split.
  - intros [m [I J]]. destruct (busmap (k_bus0 m)) as [a|] eqn:A; [|destruct J]. destruct (busmap (k_bus1 m)) as [b|] eqn:B; [|destruct J].
    destruct (String.eqb_spec a b); [destruct J|]. destruct J as [<-|[]]. exists m, a, b. auto 8.
  - intros [m [a [b [I [A [B [N ->]]]]]]]. exists m. split; auto. rewrite A, B. destruct (String.eqb_spec a b); [contradiction|]. simpl. auto.
Qed.
End G.

(* counterexamples *)
Definition port (nm b k : string) (q : Q) : oneport := {| o_name := nm; o_bus := b; o_carrier := k; o_num := fun _ => q |}.
Lemma name_clash : exists l us, aggregateoneport Some "p_nom" default_strategy ["p_nom"; "p_max_pu"] (fun _ => true) l = Some us /\ ~ NoDup (map u_name us).
Proof.
  exists [port "a" "DE 1" "wind" 1; port "b" "DE" "1 wind" 1]. eexists. split; [reflexivity|]. intros H. inversion H as [|? ? NI _]. apply NI. simpl. auto.
Qed.
Lemma unmapped_lost : exists busmap l us, aggregateoneport busmap "p_nom" default_strategy ["p_nom"] (fun _ => true) l = Some us /\ total (fun r => o_num r "p_nom") l == 5 /\ us = [].
Proof. exists (fun _ => None), [port "a" "DE" "wind" 5]. eexists. split; [reflexivity|]. split; reflexivity. Qed.
Lemma third_port : exists busmap bs ls l b, (forall c, In c bs -> busmap c <> None) /\ (forall m, In m ls -> In (k_bus0 m) bs /\ In (k_bus1 m) bs /\ forall c, In c (k_more m) -> In c bs) /\
  In l (clustered_links busmap ls) /\ In b (k_more l) /\ ~ In b (clustered_buses busmap bs).
Proof.
  exists (fun b => Some (if String.eqb b "z" then "C" else b)), ["x"; "y"; "z"], [{| k_name := "chp"; k_bus0 := "x"; k_bus1 := "y"; k_more := ["z"] |}], {| k_name := "chp"; k_bus0 := "x"; k_bus1 := "y"; k_more := ["z"] |}, "z".
  split; [discriminate|]. split; [intros m [<-|[]]; simpl; intuition|]. split; [simpl; auto|]. split; [simpl; auto|]. vm_compute. intuition discriminate.
Qed.
Lemma trafo_dropped : exists busmap n l, In l (trafos n) /\ between busmap l = true /\ clustered busmap n = ([], [], []).
Proof.
  exists Some, {| lines := []; links := []; trafos := [{| l_name := "t"; l_bus0 := "x"; l_bus1 := "y"; l_num := fun _ => 1; l_length_factor := 1; l_voltage_factor := 1 |}] |}. eexists.
  split; [simpl; auto|]. split; reflexivity.
Qed.
