From Coq Require Import List String Bool QArith ZArith Arith Qround Lqa Lia.
From Coq Require FinFun.
From Verif Require Import StatsModel StatsSpec BalanceProofs.
Import ListNotations.
Open Scope string_scope.
Open Scope list_scope.
Open Scope Q_scope.

Lemma sumq_total l : sumq l = total (fun q => q) l.
Proof. reflexivity. Qed.
Lemma sumt_total f nt : sumt f nt == total f (seq 0 nt).
Proof. unfold sumt. rewrite sumq_total, total_map. reflexivity. Qed.

Section K.
Context {K : Type}.
Variable eqb : K -> K -> bool.
Hypothesis eqb_ok : forall a b, eqb a b = true <-> a = b.
Lemma eqb_no a b : eqb a b = false <-> a <> b.
Proof. rewrite <- eqb_ok. destruct (eqb a b); intuition congruence. Qed.
Lemma distinct_In k l : In k (distinct eqb l) <-> In k l.
Proof.
  induction l as [|a l IH]; [tauto|]. cbn [distinct]. simpl. rewrite filter_In, IH, negb_true_iff, eqb_no.
  split; [tauto|]. intros [->|I]; auto. destruct (eqb a k) eqn:E; [apply eqb_ok in E; auto|]. apply eqb_no in E. tauto.
Qed.
Lemma distinct_NoDup l : NoDup (distinct eqb l).
Proof. induction l as [|a l IH]; [constructor|]. cbn [distinct]. constructor; [|now apply NoDup_filter]. rewrite filter_In, negb_true_iff, eqb_no. tauto. Qed.
Definition at_key (k : K) (l : list (K * Q)) : Q := total (fun e => if eqb k (fst e) then snd e else 0) l.
Lemma at_key_app k l r : at_key k (l ++ r) == at_key k l + at_key k r.
Proof. apply total_app. Qed.
Lemma sum_filter k l : sumq (map snd (filter (fun e : K * Q => eqb k (fst e)) l)) == at_key k l.
Proof. rewrite sumq_total, total_map, total_filter. reflexivity. Qed.
Lemma pick k (f : K -> Q) ks : NoDup ks -> (In k ks \/ f k == 0) -> total (fun k' => if eqb k k' then f k' else 0) ks == f k.
Proof.
  induction 1 as [|a ks NI ND IH]; intros H; [destruct H as [[]|H]; cbn; lra|]. cbn [BalanceSpec.total fold_right]. fold (total (fun k' => if eqb k k' then f k' else 0) ks).
  destruct (eqb k a) eqn:E.
  - apply eqb_ok in E. subst a. rewrite total_zero; [ring|]. intros k' I. destruct (eqb k k') eqn:F; [|reflexivity]. apply eqb_ok in F. subst. contradiction.
  - rewrite IH; [ring|]. destruct H as [[->|I]|Z]; auto. exfalso. apply eqb_no in E. auto.
Qed.
Lemma at_key_group k l : at_key k (group_sum eqb l) == at_key k l.
Proof.
  unfold at_key at 1, group_sum. rewrite total_map. cbn [fst snd]. rewrite (total_ext _ (fun k' => if eqb k k' then at_key k' l else 0)).
  - apply pick; [apply distinct_NoDup|]. destruct (in_dec (fun a b => match bool_dec (eqb a b) true with left e => left (proj1 (eqb_ok a b) e) | right n => right (fun e => n (proj2 (eqb_ok a b) e)) end) k (distinct eqb (map fst l))) as [I|I]; [auto|right].
    rewrite distinct_In in I. apply total_zero. intros e J. destruct (eqb k (fst e)) eqn:E; [|reflexivity]. apply eqb_ok in E. exfalso. apply I. apply in_map_iff. eauto.
  - intros k' _. destruct (eqb k k'); [|reflexivity]. apply sum_filter.
Qed.
Lemma at_key_cons k e l : at_key k (e :: l) == (if eqb k (fst e) then snd e else 0) + at_key k l.
Proof. reflexivity. Qed.
Lemma at_key_absent k l : ~ In k (map fst l) -> at_key k l == 0.
Proof. intros NI. apply total_zero. intros e I. destruct (eqb k (fst e)) eqn:E; [|reflexivity]. apply eqb_ok in E. exfalso. apply NI. rewrite E. now apply in_map. Qed.
Lemma at_key_sum (e : K * Q) l : NoDup (map fst l) -> In e l -> at_key (fst e) l == snd e.
Proof.
  induction l as [|a l IH]; intros ND I; [destruct I|]. inversion ND as [|? ? NI ND']; subst. rewrite at_key_cons. destruct I as [->|I].
  - assert (E : eqb (fst e) (fst e) = true) by now apply eqb_ok. rewrite E, at_key_absent by auto. ring.
  - destruct (eqb (fst e) (fst a)) eqn:F; [|rewrite IH by auto; ring]. apply eqb_ok in F. exfalso. apply NI. rewrite <- F. now apply in_map.
Qed.
Lemma group_keys l : map fst (group_sum eqb l) = distinct eqb (map fst l).
Proof. unfold group_sum. rewrite map_map. cbn [fst]. apply map_id. Qed.
Lemma filter_len {A} (f : A -> bool) l : (List.length (filter f l) <= List.length l)%nat.
Proof. induction l as [|a l IH]; [auto|]. cbn [filter]. destruct (f a); cbn; lia. Qed.
Lemma distinct_len l : (List.length (distinct eqb l) <= List.length l)%nat.
Proof. induction l as [|a l IH]; [auto|]. cbn [distinct List.length]. pose proof (filter_len (fun k' => negb (eqb a k')) (distinct eqb l)). lia. Qed.
Lemma unique_NoDup l : unique eqb l = true -> NoDup l.
Proof.
  unfold unique. rewrite Nat.eqb_eq. induction l as [|a l IH]; intros E; [constructor|]. cbn [distinct List.length] in E. injection E as E.
  pose proof (filter_len (fun k' => negb (eqb a k')) (distinct eqb l)) as F. pose proof (distinct_len l) as D.
  constructor.
  - rewrite <- distinct_In. intros I. assert (L : (List.length (filter (fun k' => negb (eqb a k')) (distinct eqb l)) < List.length (distinct eqb l))%nat); [|lia].
    clear - I eqb_ok. induction (distinct eqb l) as [|b r IHr]; [destruct I|]. cbn [filter]. destruct (eqb a b) eqn:E; cbn [negb List.length].
    + pose proof (filter_len (fun k' => negb (eqb a k')) r). lia.
    + destruct I as [->|I]; [exfalso; assert (eqb a a = true) by (now apply eqb_ok); congruence|]. specialize (IHr I). lia.
  - apply IH. lia.
Qed.
End K.

Lemma pair_eqb_ok a b : pair_eqb a b = true <-> a = b.
Proof. unfold pair_eqb. rewrite andb_true_iff, !String.eqb_eq. destruct a, b. cbn. split; [intros [-> ->]; auto|intros E; injection E; auto]. Qed.

(* rounding *)
Lemma ten_pos k : 0 < ten k.
Proof. unfold ten. change 0 with (inject_Z 0). rewrite <- Zlt_Qlt. apply Z.pow_pos_nonneg; lia. Qed.
Lemma rint_close q : - (1 # 2) <= inject_Z (rint q) - q /\ inject_Z (rint q) - q <= 1 # 2.
Proof.
  unfold rint. pose proof (Qfloor_le q) as L. pose proof (Qlt_floor q) as U. rewrite inject_Z_plus in U. change (inject_Z 1) with 1 in U.
  destruct (Qcompare (q - inject_Z (Qfloor q)) (1 # 2)) eqn:E.
  - apply Qeq_alt in E. destruct (Z.even (Qfloor q)); [lra|]. rewrite inject_Z_plus. change (inject_Z 1) with 1. lra.
  - apply Qlt_alt in E. lra.
  - apply Qgt_alt in E. rewrite inject_Z_plus. change (inject_Z 1) with 1. lra.
Qed.
Lemma rint_nonneg q : 0 <= q -> 0 <= inject_Z (rint q).
Proof.
  intros P. assert (F : (0 <= Qfloor q)%Z) by (apply (Qfloor_resp_le 0 q P)). change 0 with (inject_Z 0). rewrite <- Zle_Qle. unfold rint.
  destruct (Qcompare _ _); [destruct (Z.even _)| |]; lia.
Qed.
Lemma round_close k q : within (half_unit k) (round_to k q) q.
Proof.
  unfold within, half_unit, round_to. pose proof (ten_pos k) as P. destruct (rint_close (q * ten k)) as [L U].
  assert (E : inject_Z (rint (q * ten k)) / ten k - q == (inject_Z (rint (q * ten k)) - q * ten k) / ten k) by (field; lra). rewrite E. split.
  - apply Qle_shift_div_l; [auto|]. assert (- ((1 # 2) / ten k) * ten k == - (1 # 2)) by (field; lra). lra.
  - apply Qle_shift_div_r; [auto|]. assert ((1 # 2) / ten k * ten k == 1 # 2) by (field; lra). lra.
Qed.
Lemma round_nonneg k q : 0 <= q -> 0 <= round_to k q.
Proof. intros P. unfold round_to. pose proof (ten_pos k). apply Qle_shift_div_l; [auto|]. rewrite Qmult_0_l. apply rint_nonneg. nra. Qed.

(* direction *)
Lemma directed_diff p : directed Supply p - directed Withdrawal p == directed Balance p.
Proof.
  unfold directed, clip_low, clip_up. destruct (Qle_bool p 0) eqn:A, (Qle_bool 0 p) eqn:B; try ring.
  - apply Qle_bool_iff in A, B. lra.
  - exfalso. assert (~ p <= 0) by (rewrite <- Qle_bool_iff; congruence). assert (~ 0 <= p) by (rewrite <- Qle_bool_iff; congruence). lra.
Qed.
Lemma directed_nonneg d p : d <> Balance -> 0 <= directed d p.
Proof.
  unfold directed, clip_low, clip_up. destruct d; [congruence|intros _|intros _].
  - destruct (Qle_bool p 0) eqn:A; [lra|]. assert (~ p <= 0) by (rewrite <- Qle_bool_iff; congruence). lra.
  - destruct (Qle_bool 0 p) eqn:A; [lra|]. assert (~ 0 <= p) by (rewrite <- Qle_bool_iff; congruence). lra.
Qed.

Section N.
Variable nt : nat.
Variables wg ws wo : nat -> Q.
Notation weights := (weights wg ws wo).
Notation aggregate_time := (aggregate_time nt).
Notation port_series := (port_series nt wg ws wo).
Notation class_series := (class_series nt wg ws wo).
Notation all_series := (all_series nt wg ws wo).
Notation energy_balance := (energy_balance nt wg ws wo).

Lemma agg_total agg w f : aggregate_time agg w f == total (fun t => (match agg with Sum => w t | Mean => w t / sumt w nt end) * f t) (seq 0 nt).
Proof. destruct agg; cbn [StatsModel.aggregate_time]; apply sumt_total. Qed.
Definition coef (agg : time) (w : nat -> Q) (t : nat) : Q := match agg with Sum => w t | Mean => w t / sumt w nt end.

(* a row's contribution to the entry for k *)
Definition contribution (r : args) (c : class) (k : string) (a : comp) (port : nat) : Q :=
  if s_active a && a_bus_ok r (s_bus a port) && a_carrier_ok r (s_carrier a) &&
     match a_key r with None => String.eqb k (s_name a) | Some key => match key a port with Some k' => String.eqb k k' | None => false end end
  then aggregate_time (a_time r) (weights (k_name c)) (fun t => directed (a_dir r) (power c a port t)) else 0.
Definition ports (r : args) (c : class) : list nat := if a_at_port r then seq 0 (k_ports c) else [O].

Lemma port_at r c port k : at_key String.eqb k (port_series r c port) == total (fun a => contribution r c k a port) (k_comps c).
Proof.
  unfold StatsModel.port_series. unfold contribution. destruct (a_key r) as [key|].
  - rewrite at_key_group by apply String.eqb_eq. unfold at_key. rewrite total_flat, total_filter. apply total_ext. intros a _.
    destruct (s_active a && a_bus_ok r (s_bus a port) && a_carrier_ok r (s_carrier a)); [|reflexivity]. cbn [andb].
    destruct (key a port) as [k'|]; [|reflexivity]. cbn [BalanceSpec.total fold_right fst snd]. destruct (String.eqb k k'); ring.
  - unfold at_key. rewrite total_map, total_filter. cbn [fst snd]. apply total_ext. intros a _.
    destruct (s_active a && a_bus_ok r (s_bus a port) && a_carrier_ok r (s_carrier a)); [|reflexivity]. cbn [andb]. destruct (String.eqb k (s_name a)); reflexivity.
Qed.
Lemma concat_nonempty {A} (l : list (list A)) : List.concat (filter (fun v => negb (empty v)) l) = List.concat l.
Proof. induction l as [|[|a x] l IH]; [reflexivity|exact IH|]. cbn [filter empty negb List.concat]. now rewrite IH. Qed.
Lemma at_key_concat k (l : list (list (string * Q))) : at_key String.eqb k (List.concat l) == total (at_key String.eqb k) l.
Proof. induction l as [|a l IH]; [reflexivity|]. cbn [List.concat]. rewrite at_key_app, IH. reflexivity. Qed.
Lemma class_at r c k : match class_series r c with Some l => at_key String.eqb k l | None => 0 end == total (fun a => total (contribution r c k a) (ports r c)) (k_comps c).
Proof.
  assert (E : at_key String.eqb k (List.concat (map (port_series r c) (ports r c))) == total (fun a => total (contribution r c k a) (ports r c)) (k_comps c)).
  { rewrite at_key_concat, total_map. rewrite (total_ext _ (fun p => total (fun a => contribution r c k a p) (k_comps c))) by (intros; apply port_at). apply total_swap. }
  unfold StatsModel.class_series. fold (ports r c). destruct (empty (filter _ _)) eqn:F.
  - rewrite <- E, <- concat_nonempty. destruct (filter _ _); [reflexivity|discriminate F].
  - rewrite <- E, <- (concat_nonempty (map _ _)). destruct (unique _ _); [reflexivity|]. apply at_key_group. apply String.eqb_eq.
Qed.
Definition entry (r : args) (cs : list class) (c k : string) : Q :=
  total (fun cl => if String.eqb c (k_name cl) then total (fun a => total (contribution r cl k a) (ports r cl)) (k_comps cl) else 0) cs.
Lemma all_at r cs c k : reported c k (all_series r cs) == entry r cs c k.
Proof.
  unfold reported, StatsModel.all_series, entry. rewrite total_flat. apply total_ext. intros cl _. destruct (String.eqb c (k_name cl)) eqn:E.
  - rewrite <- class_at. destruct (class_series r cl) as [l|]; [|reflexivity]. rewrite total_map. cbn [fst snd]. unfold pair_eqb. cbn [fst snd]. rewrite E. cbn [andb]. reflexivity.
  - destruct (class_series r cl) as [l|]; [|reflexivity]. rewrite total_map. cbn [fst snd]. unfold pair_eqb. cbn [fst snd]. rewrite E. cbn [andb]. apply total_zero. reflexivity.
Qed.
Lemma drop_at r (l : list ((string * string) * Q)) c k : a_round r = None -> reported c k (apply_options r l) == reported c k l.
Proof.
  intros R. unfold apply_options. rewrite R. destruct (a_drop r); [|reflexivity]. unfold reported. rewrite total_filter. apply total_ext. intros e _.
  destruct (Qeq_bool (snd e) 0) eqn:E; cbn [negb]; [|reflexivity]. apply Qeq_bool_iff in E. destruct (pair_eqb (c, k) (fst e)); [now rewrite E|reflexivity].
Qed.
Lemma contribution_diff r c k a port : contribution (with_dir Supply r) c k a port - contribution (with_dir Withdrawal r) c k a port == contribution (with_dir Balance r) c k a port.
Proof.
  unfold contribution. cbn [with_dir a_dir a_time a_bus_ok a_carrier_ok a_key]. match goal with |- context [if ?b then _ else _] => destruct b end; [|ring].
  rewrite !agg_total, <- total_minus. apply total_ext. intros t _. rewrite <- (directed_diff (power c a port t)). ring.
Qed.
Lemma entry_diff r cs c k : entry (with_dir Supply r) cs c k - entry (with_dir Withdrawal r) cs c k == entry (with_dir Balance r) cs c k.
Proof.
  unfold entry. rewrite <- total_minus. apply total_ext. intros cl _. destruct (String.eqb c (k_name cl)); [|ring]. rewrite <- total_minus. apply total_ext. intros a _.
  change (ports (with_dir Supply r) cl) with (ports r cl). change (ports (with_dir Withdrawal r) cl) with (ports r cl). change (ports (with_dir Balance r) cl) with (ports r cl).
  rewrite <- total_minus. apply total_ext. intros p _. apply contribution_diff.
Qed.

(* aggregation across components *)
Lemma reported_across c k (l : list ((string * string) * Q)) : c = "" -> reported c k (group_sum pair_eqb (map (fun e => (("", snd (fst e)), snd e)) l)) == total (fun e => if String.eqb k (snd (fst e)) then snd e else 0) l.
Proof.
  intros ->. change (reported "" k) with (at_key pair_eqb ("", k)). rewrite at_key_group by apply pair_eqb_ok. unfold at_key. rewrite total_map. cbn [fst snd]. apply total_ext. intros e _. reflexivity.
Qed.
Lemma difference r cs c k : a_round r = None ->
  reported c k (energy_balance (with_dir Supply r) cs) - reported c k (energy_balance (with_dir Withdrawal r) cs) == reported c k (energy_balance (with_dir Balance r) cs).
Proof.
  intros R. unfold StatsModel.energy_balance. cbn [with_dir a_across]. destruct (a_across r).
  - destruct (string_dec c "") as [->|NC].
    + rewrite !reported_across by reflexivity.
      assert (D : forall d, total (fun e : (string * string) * Q => if String.eqb k (snd (fst e)) then snd e else 0) (apply_options (with_dir d r) (all_series (with_dir d r) cs)) == total (fun cl => total (fun a => total (contribution (with_dir d r) cl k a) (ports r cl)) (k_comps cl)) cs).
      { intros d. assert (A : total (fun e : (string * string) * Q => if String.eqb k (snd (fst e)) then snd e else 0) (apply_options (with_dir d r) (all_series (with_dir d r) cs)) == total (fun e : (string * string) * Q => if String.eqb k (snd (fst e)) then snd e else 0) (all_series (with_dir d r) cs)).
        { unfold apply_options. cbn [with_dir a_round a_drop]. rewrite R. destruct (a_drop r); [|reflexivity]. rewrite total_filter. apply total_ext. intros e _. destruct (Qeq_bool (snd e) 0) eqn:E; cbn [negb]; [|reflexivity]. apply Qeq_bool_iff in E. destruct (String.eqb k (snd (fst e))); [now rewrite E|reflexivity]. }
        rewrite A. unfold StatsModel.all_series. rewrite total_flat. apply total_ext. intros cl _. change (ports r cl) with (ports (with_dir d r) cl). rewrite <- class_at. destruct (class_series (with_dir d r) cl); [|reflexivity]. rewrite total_map. reflexivity. }
      rewrite !D, <- total_minus. apply total_ext. intros cl _. rewrite <- total_minus. apply total_ext. intros a _. rewrite <- total_minus. apply total_ext. intros p _. apply contribution_diff.
    + assert (Z : forall l, reported c k (group_sum pair_eqb (map (fun e : (string * string) * Q => (("", snd (fst e)), snd e)) l)) == 0).
      { intros l. change (reported c k) with (at_key pair_eqb (c, k)). rewrite at_key_group by apply pair_eqb_ok. unfold at_key. rewrite total_map. apply total_zero. intros e _. cbn [fst snd]. unfold pair_eqb. cbn [fst snd]. destruct (String.eqb_spec c ""); [contradiction|reflexivity]. }
      rewrite !Z. ring.
  - rewrite !drop_at by (cbn; auto). rewrite !all_at. apply entry_diff.
Qed.

(* non-negative *)
Lemma total_nonneg {A} (f : A -> Q) l : (forall a, In a l -> 0 <= f a) -> 0 <= total f l.
Proof. induction l as [|a l IH]; intros H; [cbn; lra|]. cbn [BalanceSpec.total fold_right]. fold (total f l). pose proof (H a (or_introl eq_refl)). assert (0 <= total f l) by (apply IH; intros; apply H; simpl; auto). lra. Qed.
Lemma weights_nonneg : (forall t, 0 <= wg t /\ 0 <= ws t /\ 0 <= wo t) -> forall c t, 0 <= weights c t.
Proof. intros H c t. unfold StatsModel.weights. destruct (String.eqb c "Generator"); [apply H|]. destruct (existsb _ _); apply H. Qed.
Lemma agg_nonneg agg w f : (forall t, 0 <= w t) -> (forall t, 0 <= f t) -> 0 <= aggregate_time agg w f.
Proof.
  intros W F. rewrite agg_total. apply total_nonneg. intros t _. assert (C : 0 <= match agg with Sum => w t | Mean => w t / sumt w nt end).
  { destruct agg; [auto|]. assert (S : 0 <= sumt w nt) by (rewrite sumt_total; apply total_nonneg; auto). unfold Qdiv. pose proof (Qinv_le_0_compat _ S). specialize (W t). nra. }
  specialize (F t). nra.
Qed.
Lemma group_nonneg {K} eqb (l : list (K * Q)) : (forall e, In e l -> 0 <= snd e) -> forall e, In e (group_sum eqb l) -> 0 <= snd e.
Proof.
  intros H e I. unfold group_sum in I. apply in_map_iff in I. destruct I as [k [<- I]]. cbn [snd]. rewrite sumq_total, total_map. apply total_nonneg. intros e J. apply filter_In in J. apply H. tauto.
Qed.
Lemma series_nonneg r cs : a_dir r <> Balance -> (forall t, 0 <= wg t /\ 0 <= ws t /\ 0 <= wo t) -> forall e, In e (all_series r cs) -> 0 <= snd e.
Proof.
  intros D W e I. unfold StatsModel.all_series in I. apply in_flat_map in I. destruct I as [c [_ I]].
  assert (P : forall p e, In e (port_series r c p) -> 0 <= snd e).
  { intros p e0 J. unfold StatsModel.port_series in J. destruct (a_key r) as [key|].
    - revert J. apply group_nonneg. intros e1 J. apply in_flat_map in J. destruct J as [a [_ J]]. destruct (key a p); [|destruct J]. destruct J as [<-|[]]. cbn [snd]. apply agg_nonneg; [now apply weights_nonneg|intros; now apply directed_nonneg].
    - apply in_map_iff in J. destruct J as [a [<- J]]. cbn [snd]. apply agg_nonneg; [now apply weights_nonneg|intros; now apply directed_nonneg]. }
  assert (C : forall e, In e (List.concat (filter (fun v => negb (empty v)) (map (port_series r c) (if a_at_port r then seq 0 (k_ports c) else [O])))) -> 0 <= snd e).
  { intros e0 J. rewrite concat_nonempty in J. apply in_concat in J. destruct J as [l [L J]]. apply in_map_iff in L. destruct L as [p [<- _]]. eauto. }
  unfold StatsModel.class_series in I. destruct (empty _); [destruct I|]. apply in_map_iff in I. destruct I as [e0 [<- I]]. cbn [snd]. destruct (unique _ _); [auto|]. revert I. apply group_nonneg. exact C.
Qed.
Lemma nonneg r cs : a_dir r <> Balance -> (forall t, 0 <= wg t /\ 0 <= ws t /\ 0 <= wo t) -> forall e, In e (energy_balance r cs) -> 0 <= snd e.
Proof.
  intros D W. assert (A : forall e, In e (apply_options r (all_series r cs)) -> 0 <= snd e).
  { intros e I. unfold apply_options in I. assert (J : In e (match a_round r with Some k => map (fun e => (fst e, round_to k (snd e))) (all_series r cs) | None => all_series r cs end)) by (destruct (a_drop r); [apply filter_In in I; tauto|exact I]).
    destruct (a_round r) as [k|]; [|eapply series_nonneg; eauto]. apply in_map_iff in J. destruct J as [e0 [<- J]]. cbn [snd]. apply round_nonneg. eapply series_nonneg; eauto. }
  unfold StatsModel.energy_balance. destruct (a_across r); [|exact A]. apply group_nonneg. intros e I. apply in_map_iff in I. destruct I as [e0 [<- I]]. cbn [snd]. auto.
Qed.

(* class and key occur once *)
Lemma class_nodup r c l : NoDup (map s_name (k_comps c)) -> class_series r c = Some l -> NoDup (map fst l).
Proof.
  intros ND E. unfold StatsModel.class_series in E. destruct (empty _); [discriminate|]. injection E as <-. destruct (unique _ _) eqn:U; [eapply unique_NoDup; [apply String.eqb_eq|exact U]|].
  rewrite group_keys. apply distinct_NoDup. apply String.eqb_eq.
Qed.
Lemma flat_nodup {A B} (f : A -> list B) l : NoDup l -> (forall a, In a l -> NoDup (f a)) -> (forall a b x, In a l -> In b l -> In x (f a) -> In x (f b) -> a = b) -> NoDup (flat_map f l).
Proof.
  induction 1 as [|a l NI ND IH]; intros H1 H2; [constructor|]. cbn [flat_map].
  assert (NA : NoDup (f a)) by (apply H1; simpl; auto). assert (NR : NoDup (flat_map f l)) by (apply IH; [intros; apply H1; simpl; auto|intros x y z X Y; apply H2; simpl; auto]).
  assert (DJ : forall x, In x (f a) -> ~ In x (flat_map f l)).
  { intros x I J. apply in_flat_map in J. destruct J as [b [Bb J]]. assert (a = b) by (eapply H2; simpl; eauto). subst. contradiction. }
  revert NA DJ. induction (f a) as [|y ys IHy]; intros NA DJ; [exact NR|]. inversion NA; subst. cbn [app]. constructor.
  - intros I. apply in_app_or in I. destruct I as [I|I]; [contradiction|]. apply (DJ y); simpl; auto.
  - apply IHy; auto. intros x X. apply DJ. simpl. auto.
Qed.
Lemma all_nodup r cs : NoDup (map k_name cs) -> NoDup (map fst (all_series r cs)).
Proof.
  intros ND. unfold StatsModel.all_series. assert (E : forall cs, map fst (flat_map (fun c => match class_series r c with Some l => map (fun e => ((k_name c, fst e), snd e)) l | None => [] end) cs) =
    flat_map (fun c => match class_series r c with Some l => map (fun k => (k_name c, k)) (map fst l) | None => [] end) cs).
  { induction cs0 as [|c l IH]; [reflexivity|]. cbn [flat_map]. rewrite map_app, IH. f_equal. destruct (class_series r c); [|reflexivity]. now rewrite !map_map. }
  rewrite E. apply flat_nodup.
  - eapply NoDup_map_inv. exact ND.
  - intros c _. destruct (class_series r c) as [l|] eqn:C; [|constructor].
    assert (N : NoDup (map fst l)).
    { unfold StatsModel.class_series in C. destruct (empty _); [discriminate|]. injection C as <-. destruct (unique _ _) eqn:U; [eapply unique_NoDup; [apply String.eqb_eq|exact U]|]. rewrite group_keys. apply distinct_NoDup. apply String.eqb_eq. }
    apply Coq.Logic.FinFun.Injective_map_NoDup; [|exact N]. intros a b H. injection H. auto.
  - intros c d x C D X Y. assert (K : k_name c = k_name d).
    { destruct (class_series r c); [|destruct X]. destruct (class_series r d); [|destruct Y]. apply in_map_iff in X, Y. destruct X as [k [<- _]]. destruct Y as [k' [Y _]]. injection Y. auto. }
    clear - ND C D K. induction cs as [|e cs IH]; [destruct C|]. inversion ND as [|? ? NI ND']; subst. destruct C as [->|C], D as [->|D]; auto.
    + exfalso. apply NI. rewrite K. now apply in_map.
    + exfalso. apply NI. rewrite <- K. now apply in_map.
Qed.

(* rounding: each value is off by at most half a unit *)
Lemma rounded r cs c k n : NoDup (map k_name cs) -> a_across r = false -> a_round r = Some n -> within (half_unit n) (reported c k (energy_balance r cs)) (entry r cs c k).
Proof.
  intros ND AC R. unfold StatsModel.energy_balance. rewrite AC. assert (D : reported c k (apply_options r (all_series r cs)) == total (fun e => if pair_eqb (c, k) (fst e) then round_to n (snd e) else 0) (all_series r cs)).
  { unfold apply_options. rewrite R. assert (M : reported c k (map (fun e => (fst e, round_to n (snd e))) (all_series r cs)) == total (fun e => if pair_eqb (c, k) (fst e) then round_to n (snd e) else 0) (all_series r cs)) by (unfold reported; rewrite total_map; reflexivity).
    destruct (a_drop r); [|exact M]. rewrite <- M. unfold reported. rewrite total_filter. apply total_ext. intros e _. destruct (Qeq_bool (snd e) 0) eqn:E; cbn [negb]; [|reflexivity]. apply Qeq_bool_iff in E. destruct (pair_eqb (c, k) (fst e)); [now rewrite E|reflexivity]. }
  unfold within. rewrite D, <- all_at. unfold reported. pose proof (all_nodup r cs ND) as N. revert N. generalize (all_series r cs) as l. clear D.
  assert (Z : 0 <= half_unit n) by (unfold half_unit; pose proof (ten_pos n); apply Qle_shift_div_l; lra).
  induction l as [|e l IH]; intros N; [cbn; lra|]. inversion N as [|? ? NI N']; subst. cbn [BalanceSpec.total fold_right].
  fold (total (fun e : (string * string) * Q => if pair_eqb (c, k) (fst e) then round_to n (snd e) else 0) l). fold (total (fun e : (string * string) * Q => if pair_eqb (c, k) (fst e) then snd e else 0) l).
  destruct (pair_eqb (c, k) (fst e)) eqn:E; [|specialize (IH N'); lra].
  assert (Z0 : forall g : (string * string) * Q -> Q, total (fun e : (string * string) * Q => if pair_eqb (c, k) (fst e) then g e else 0) l == 0).
  { intros g. apply total_zero. intros e' I. destruct (pair_eqb (c, k) (fst e')) eqn:F; [|reflexivity]. apply pair_eqb_ok in E, F. exfalso. apply NI. rewrite <- E, F. now apply in_map. }
  rewrite (Z0 (fun e => round_to n (snd e))), (Z0 snd). destruct (round_close n (snd e)). lra.
Qed.
Lemma rounded_difference r cs c k n : NoDup (map k_name cs) -> a_across r = false -> a_round r = Some n ->
  within (3 * half_unit n) (reported c k (energy_balance (with_dir Supply r) cs) - reported c k (energy_balance (with_dir Withdrawal r) cs)) (reported c k (energy_balance (with_dir Balance r) cs)).
Proof.
  intros ND AC R. pose proof (entry_diff r cs c k) as E. pose proof (rounded (with_dir Supply r) cs c k n ND AC R). pose proof (rounded (with_dir Withdrawal r) cs c k n ND AC R). pose proof (rounded (with_dir Balance r) cs c k n ND AC R).
  unfold within in *. lra.
Qed.

(* time average *)
Lemma mean_bounds w f lo hi : (forall t, 0 <= w t) -> 0 < sumt w nt -> (forall t, (t < nt)%nat -> lo <= f t <= hi) -> lo <= aggregate_time Mean w f <= hi.
Proof.
  intros W P B. cbn [StatsModel.aggregate_time]. rewrite sumt_total. assert (C : total (fun t => w t / sumt w nt) (seq 0 nt) == 1).
  { rewrite (total_ext _ (fun t => / sumt w nt * w t)) by (intros; unfold Qdiv; ring). rewrite total_scale, <- sumt_total. field. lra. }
  assert (G : forall ts, (forall t, In t ts -> (t < nt)%nat) -> lo * total (fun t => w t / sumt w nt) ts <= total (fun t => w t / sumt w nt * f t) ts /\ total (fun t => w t / sumt w nt * f t) ts <= hi * total (fun t => w t / sumt w nt) ts).
  { induction ts as [|t ts IH]; intros I; [cbn; lra|]. cbn [BalanceSpec.total fold_right]. fold (total (fun t => w t / sumt w nt) ts). fold (total (fun t => w t / sumt w nt * f t) ts).
    destruct (IH (fun x X => I x (or_intror X))) as [I1 I2]. destruct (B t (I t (or_introl eq_refl))) as [B1 B2]. assert (0 <= w t / sumt w nt) by (apply Qle_shift_div_l; [auto|specialize (W t); lra]). split; nra. }
  destruct (G (seq 0 nt)) as [G1 G2]; [intros t I; apply in_seq in I; lia|]. rewrite C in *. lra.
Qed.
Lemma sum_is_mean w f : 0 < sumt w nt -> aggregate_time Sum w f == sumt w nt * aggregate_time Mean w f.
Proof. intros P. cbn [StatsModel.aggregate_time]. rewrite (sumt_total (fun t => w t * f t)), (sumt_total (fun t => w t / sumt w nt * f t)), <- total_scale. apply total_ext. intros t _. field. lra. Qed.

Lemma power_injected c a k t : power c a k t == injected c a k t.
Proof. unfold power, injected. destruct (k_branch c); ring. Qed.
(* the energy balance of each bus *)
Lemma conservation agg cs b : (forall t, wg t == wo t /\ ws t == wo t) -> (forall t, (t < nt)%nat -> inflow_at cs b t == 0) ->
  total (fun e => if String.eqb b (snd (fst e)) then snd e else 0) (energy_balance (by_bus agg) cs) == 0.
Proof.
  intros W F. unfold StatsModel.energy_balance. cbn [by_bus a_across].
  assert (A : total (fun e : (string * string) * Q => if String.eqb b (snd (fst e)) then snd e else 0) (apply_options (by_bus agg) (all_series (by_bus agg) cs)) == total (fun e : (string * string) * Q => if String.eqb b (snd (fst e)) then snd e else 0) (all_series (by_bus agg) cs)).
  { unfold apply_options. cbn [by_bus a_round a_drop]. rewrite total_filter. apply total_ext. intros e _. destruct (Qeq_bool (snd e) 0) eqn:E; cbn [negb]; [|reflexivity]. apply Qeq_bool_iff in E. destruct (String.eqb b (snd (fst e))); [now rewrite E|reflexivity]. }
  rewrite A. unfold StatsModel.all_series. rewrite total_flat.
  rewrite (total_ext _ (fun c => total (fun t => coef agg wo t * total (fun a => total (fun k => if s_active a && String.eqb (s_bus a k) b then power c a k t else 0) (seq 0 (k_ports c))) (k_comps c)) (seq 0 nt))).
  - rewrite total_swap. rewrite (total_ext _ (fun t => coef agg wo t * inflow_at cs b t)).
    2:{ intros t _. unfold inflow_at. rewrite <- total_scale. apply total_ext. intros c _. apply Qmult_comp; [reflexivity|]. apply total_ext. intros a _. apply total_ext. intros k _. destruct (_ && _); [apply power_injected|reflexivity]. }
    apply total_zero. intros t I. apply in_seq in I. rewrite F by lia. ring.
  - intros c _. transitivity (match class_series (by_bus agg) c with Some l => at_key String.eqb b l | None => 0 end).
    + destruct (class_series (by_bus agg) c); [|reflexivity]. rewrite total_map. reflexivity.
    + rewrite class_at. change (ports (by_bus agg) c) with (seq 0 (k_ports c)).
      rewrite (total_ext _ (fun a => total (fun t => coef agg wo t * total (fun k => if s_active a && String.eqb (s_bus a k) b then power c a k t else 0) (seq 0 (k_ports c))) (seq 0 nt))).
      * rewrite total_swap. apply total_ext. intros t _. now rewrite total_scale.
      * intros a _. rewrite (total_ext _ (fun k => total (fun t => coef agg wo t * (if s_active a && String.eqb (s_bus a k) b then power c a k t else 0)) (seq 0 nt))).
        -- rewrite total_swap. apply total_ext. intros t _. now rewrite total_scale.
        -- intros k _. unfold contribution. cbn [by_bus a_bus_ok a_carrier_ok a_key a_time a_dir]. rewrite !andb_true_r, (String.eqb_sym b). destruct (s_active a && String.eqb (s_bus a k) b).
           ++ rewrite agg_total. apply total_ext. intros t _. cbn [directed].
              assert (WE : forall t, weights (k_name c) t == wo t) by (intros t0; unfold StatsModel.weights; destruct (String.eqb (k_name c) "Generator"); [apply W|]; destruct (existsb _ _); [apply W|reflexivity]).
              unfold coef. destruct agg; [now rewrite WE|]. rewrite WE. assert (SE : sumt (weights (k_name c)) nt == sumt wo nt) by (rewrite !sumt_total; apply total_ext; auto). now rewrite SE.
           ++ symmetry. apply total_zero. intros; ring.
Qed.
End N.

(* drop_zero *)
Lemma dropped {K} r (l : list (K * Q)) b : a_round r = None -> a_drop r = Some b -> forall e, In e (apply_options r l) <-> In e l /\ ~ snd e == 0.
Proof.
  intros R D e. unfold apply_options. rewrite R, D, filter_In, negb_true_iff. split; intros [I E]; split; auto.
  - intros Z. apply Qeq_bool_iff in Z. congruence.
  - destruct (Qeq_bool (snd e) 0) eqn:F; [apply Qeq_bool_iff in F; contradiction|reflexivity].
Qed.
Lemma kept {K} r (l : list (K * Q)) : a_round r = None -> a_drop r = None -> apply_options r l = l.
Proof. intros R D. unfold apply_options. now rewrite R, D. Qed.

(* counterexamples *)
Definition one (nm bus : string) (sign p : Q) : comp := {| s_name := nm; s_carrier := ""; s_bus := fun _ => bus; s_sign := sign; s_active := true; s_p := fun _ _ => p |}.
Lemma weightings_differ : exists cs wg ws wo, (forall t, (t < 1)%nat -> inflow_at cs "b" t == 0) /\
  ~ total (fun e => if String.eqb "b" (snd (fst e)) then snd e else 0) (energy_balance 1 wg ws wo (by_bus Sum) cs) == 0.
Proof.
  exists [{| k_name := "Generator"; k_branch := false; k_ports := 1; k_comps := [one "g" "b" 1 5] |}; {| k_name := "Load"; k_branch := false; k_ports := 1; k_comps := [one "l" "b" (-(1)) 5] |}], (fun _ => 2), (fun _ => 1), (fun _ => 1).
  split; [intros [|t] L; [reflexivity|lia]|]. vm_compute. discriminate.
Qed.
Lemma drop_false : exists cs r e, a_round r = None /\ a_drop r = effective (Some false) (Some true) /\ In e (all_series 1 (fun _ => 1) (fun _ => 1) (fun _ => 1) r cs) /\ ~ In e (energy_balance 1 (fun _ => 1) (fun _ => 1) (fun _ => 1) r cs).
Proof.
  exists [{| k_name := "Generator"; k_branch := false; k_ports := 1; k_comps := [one "g" "b" 1 0] |}], {| a_dir := Balance; a_time := Sum; a_at_port := true; a_bus_ok := fun _ => true; a_carrier_ok := fun _ => true; a_key := None; a_across := false; a_round := None; a_drop := Some false |}.
  eexists. split; [reflexivity|]. split; [reflexivity|]. split; [left; reflexivity|]. vm_compute. intros [].
Qed.

From Coq Require Import Qminmax.
Lemma directed_share d p : directed d p == share d p.
Proof.
  destruct d; cbn [directed share]; [reflexivity| |]; unfold clip_low, clip_up.
  - destruct (Qle_bool p 0) eqn:A; [apply Qle_bool_iff in A; symmetry; now apply Q.max_l|]. assert (~ p <= 0) by (rewrite <- Qle_bool_iff; congruence). symmetry. apply Q.max_r. lra.
  - destruct (Qle_bool 0 p) eqn:A; [apply Qle_bool_iff in A; symmetry; rewrite Q.max_l; lra|]. assert (~ 0 <= p) by (rewrite <- Qle_bool_iff; congruence). symmetry. apply Q.max_r. lra.
Qed.
Lemma weights_class wg ws wo c t : weights wg ws wo c t = class_weight wg ws wo c t.
Proof.
  unfold weights, class_weight. destruct (string_dec c "Generator") as [->|A]; [reflexivity|]. apply String.eqb_neq in A. rewrite A. cbn [existsb].
  destruct (string_dec c "StorageUnit") as [->|B]; [reflexivity|]. apply String.eqb_neq in B. rewrite B.
  destruct (string_dec c "Store") as [->|D]; [reflexivity|]. apply String.eqb_neq in D. now rewrite D.
Qed.
Lemma share_proper d p q : p == q -> share d p == share d q.
Proof. intros E. destruct d; cbn [share]; now rewrite E. Qed.
Lemma reported_energy nt wg ws wo r cs c k : a_round r = None -> a_across r = false ->
  reported c k (energy_balance nt wg ws wo r cs) == total (fun cl => if String.eqb c (k_name cl) then energy nt (per_time nt (a_time r) (class_weight wg ws wo c)) r k cl else 0) cs.
Proof.
  intros R AC. unfold energy_balance. rewrite AC, drop_at, all_at by auto. unfold entry. apply total_ext. intros cl _. destruct (String.eqb_spec c (k_name cl)) as [->|]; [|reflexivity].
  unfold energy. apply total_ext. intros a _. apply total_ext. intros p _. unfold contribution, chosen. match goal with |- context [if ?b then _ else _] => destruct b end; [|reflexivity].
  rewrite agg_total. apply total_ext. intros t _. rewrite directed_share, (share_proper _ _ _ (power_injected cl a p t)). apply Qmult_comp; [|reflexivity].
  unfold coef, per_time. destruct (a_time r); rewrite ?sumt_total; rewrite weights_class; [reflexivity|].
  assert (E : total (weights wg ws wo (k_name cl)) (seq 0 nt) == total (class_weight wg ws wo (k_name cl)) (seq 0 nt)) by (apply total_ext; intros; now rewrite weights_class). now rewrite E.
Qed.
