From Coq Require Import List String Bool QArith Qminmax ZArith Arith Lqa Lia.
From Coq Require FinFun.
From Verif Require Import StatsModel StatsSpec BalanceProofs StatsProofs MarketModel MarketSpec.
Import ListNotations.
Open Scope string_scope.
Open Scope list_scope.
Open Scope Q_scope.

(* aggregation of any quantity *)
Section A.
Variable func : class -> nat -> option (comp -> Q).
Definition val_of (c : class) (a : comp) (port : nat) : Q := match func c port with Some f => f a | None => 0 end.
Definition part (r : args) (c : class) (k : string) (a : comp) (port : nat) : Q := if chosen r k a port then val_of c a port else 0.
Lemma port_part r c port k : at_key String.eqb k (port_values func r c port) == total (fun a => part r c k a port) (k_comps c).
Proof.
  unfold port_values, part, val_of, chosen. destruct (func c port) as [val|].
  2:{ symmetry. apply total_zero. intros a _. destruct (_ && _); reflexivity. }
  destruct (a_key r) as [key|].
  - rewrite at_key_group by apply String.eqb_eq. unfold at_key. rewrite total_flat, total_filter. apply total_ext. intros a _.
    destruct (s_active a && a_bus_ok r (s_bus a port) && a_carrier_ok r (s_carrier a)); [|reflexivity]. cbn [andb].
    destruct (key a port) as [k'|]; [|reflexivity]. cbn [BalanceSpec.total fold_right fst snd]. destruct (String.eqb k k'); ring.
  - unfold at_key. rewrite total_map, total_filter. cbn [fst snd]. apply total_ext. intros a _.
    destruct (s_active a && a_bus_ok r (s_bus a port) && a_carrier_ok r (s_carrier a)); [|reflexivity]. cbn [andb]. destruct (String.eqb k (s_name a)); reflexivity.
Qed.
Lemma class_part r c k : match class_values func r c with Some l => at_key String.eqb k l | None => 0 end == total (fun a => total (part r c k a) (ports r c)) (k_comps c).
Proof.
  assert (E : at_key String.eqb k (List.concat (map (port_values func r c) (ports r c))) == total (fun a => total (part r c k a) (ports r c)) (k_comps c)).
  { rewrite at_key_concat, total_map. rewrite (total_ext _ (fun p => total (fun a => part r c k a p) (k_comps c))) by (intros; apply port_part). apply total_swap. }
  unfold class_values. fold (ports r c). destruct (empty (filter _ _)) eqn:F.
  - rewrite <- E, <- concat_nonempty. destruct (filter _ _); [reflexivity|discriminate F].
  - rewrite <- E, <- (concat_nonempty (map _ _)). destruct (unique _ _); [reflexivity|]. apply at_key_group. apply String.eqb_eq.
Qed.
Definition parts (r : args) (cs : list class) (c k : string) : Q :=
  total (fun cl => if String.eqb c (k_name cl) then total (fun a => total (part r cl k a) (ports r cl)) (k_comps cl) else 0) cs.
Lemma all_parts r cs c k : reported c k (all_values func r cs) == parts r cs c k.
Proof.
  unfold reported, all_values, parts. rewrite total_flat. apply total_ext. intros cl _. destruct (String.eqb c (k_name cl)) eqn:E.
  - rewrite <- class_part. destruct (class_values func r cl) as [l|]; [|reflexivity]. rewrite total_map. cbn [fst snd]. unfold pair_eqb. cbn [fst snd]. rewrite E. cbn [andb]. reflexivity.
  - destruct (class_values func r cl) as [l|]; [|reflexivity]. rewrite total_map. cbn [fst snd]. unfold pair_eqb. cbn [fst snd]. rewrite E. cbn [andb]. apply total_zero. reflexivity.
Qed.
Lemma aggregate_parts r cs c k : a_round r = None -> a_across r = false -> reported c k (aggregate_components func r cs) == parts r cs c k.
Proof. intros R AC. unfold aggregate_components. rewrite AC, drop_at by auto. apply all_parts. Qed.
Lemma class_values_nodup r c l : class_values func r c = Some l -> NoDup (map fst l).
Proof.
  intros E. unfold class_values in E. destruct (empty _); [discriminate|]. injection E as <-. destruct (unique _ _) eqn:U; [eapply unique_NoDup; [apply String.eqb_eq|exact U]|].
  rewrite group_keys. apply distinct_NoDup. apply String.eqb_eq.
Qed.
Lemma all_values_nodup r cs : NoDup (map k_name cs) -> NoDup (map fst (all_values func r cs)).
Proof.
  intros ND. unfold all_values. assert (E : forall cs, map fst (flat_map (fun c => match class_values func r c with Some l => map (fun e => ((k_name c, fst e), snd e)) l | None => [] end) cs) =
    flat_map (fun c => match class_values func r c with Some l => map (fun k => (k_name c, k)) (map fst l) | None => [] end) cs).
  { induction cs0 as [|c l IH]; [reflexivity|]. cbn [flat_map]. rewrite map_app, IH. f_equal. destruct (class_values func r c); [|reflexivity]. now rewrite !map_map. }
  rewrite E. apply flat_nodup.
  - eapply NoDup_map_inv. exact ND.
  - intros c _. destruct (class_values func r c) as [l|] eqn:C; [|constructor].
    apply Coq.Logic.FinFun.Injective_map_NoDup; [|eapply class_values_nodup; exact C]. intros a b H. injection H. auto.
  - intros c d x C D X Y. assert (K : k_name c = k_name d).
    { destruct (class_values func r c); [|destruct X]. destruct (class_values func r d); [|destruct Y]. apply in_map_iff in X, Y. destruct X as [k [<- _]]. destruct Y as [k' [Y _]]. injection Y. auto. }
    clear - ND C D K. induction cs as [|e cs IH]; [destruct C|]. inversion ND as [|? ? NI ND']; subst. destruct C as [->|C], D as [->|D]; auto.
    + exfalso. apply NI. rewrite K. now apply in_map.
    + exfalso. apply NI. rewrite <- K. now apply in_map.
Qed.
Lemma options_nodup {K} r (l : list (K * Q)) : NoDup (map fst l) -> NoDup (map fst (apply_options r l)).
Proof.
  intros N. unfold apply_options. assert (M : NoDup (map fst (match a_round r with Some k => map (fun e => (fst e, round_to k (snd e))) l | None => l end))) by (destruct (a_round r); [rewrite map_map; exact N|exact N]).
  destruct (a_drop r); [|exact M]. revert M. generalize (match a_round r with Some k => map (fun e => (fst e, round_to k (snd e))) l | None => l end) as l'. clear.
  induction l' as [|e l IH]; intros N; [constructor|]. inversion N as [|? ? NI N']; subst. cbn [filter]. destruct (negb _); [|auto]. cbn [map]. constructor; [|auto].
  intros I. apply NI. apply in_map_iff in I. destruct I as [e' [E I]]. apply filter_In in I. rewrite <- E. apply in_map. tauto.
Qed.
Lemma aggregate_nodup r cs : NoDup (map k_name cs) -> NoDup (map fst (aggregate_components func r cs)).
Proof.
  intros ND. unfold aggregate_components. destruct (a_across r).
  - rewrite group_keys. apply distinct_NoDup. apply pair_eqb_ok.
  - apply options_nodup. now apply all_values_nodup.
Qed.
(* the sum of all entries *)
Lemma sum_keyed (l : list (string * Q)) : total snd l == total (fun e => total (fun k => if String.eqb k (fst e) then snd e else 0) (distinct String.eqb (map fst l))) l.
Proof.
  apply total_ext. intros e I. symmetry. rewrite (total_ext _ (fun k => if String.eqb (fst e) k then snd e else 0)) by (intros; rewrite String.eqb_sym; reflexivity).
  apply (pick String.eqb String.eqb_eq (fst e) (fun _ => snd e)); [apply distinct_NoDup; apply String.eqb_eq|]. left. apply distinct_In; [apply String.eqb_eq|]. now apply in_map.
Qed.
Lemma group_total {K} (eqb : K -> K -> bool) (ok : forall a b, eqb a b = true <-> a = b) (l : list (K * Q)) : total snd (group_sum eqb l) == total snd l.
Proof.
  unfold group_sum. rewrite total_map. cbn [snd]. rewrite (total_ext _ (fun k => total (fun e => if eqb k (fst e) then snd e else 0) l)) by (intros; apply sum_filter).
  rewrite total_swap. apply total_ext. intros e I. rewrite (total_ext _ (fun k => if eqb (fst e) k then snd e else 0)).
  - apply (pick eqb ok (fst e) (fun _ => snd e)); [now apply distinct_NoDup|]. left. apply distinct_In; [exact ok|]. now apply in_map.
  - intros k _. destruct (eqb k (fst e)) eqn:A, (eqb (fst e) k) eqn:B; try reflexivity.
    + apply ok in A. assert (eqb (fst e) k = true) by (apply ok; auto). congruence.
    + apply ok in B. assert (eqb k (fst e) = true) by (apply ok; auto). congruence.
Qed.
Lemma options_total {K} r (l : list (K * Q)) : a_round r = None -> total snd (apply_options r l) == total snd l.
Proof.
  intros R. unfold apply_options. rewrite R. destruct (a_drop r); [|reflexivity]. rewrite total_filter. apply total_ext. intros e _.
  destruct (Qeq_bool (snd e) 0) eqn:E; cbn [negb]; [|reflexivity]. apply Qeq_bool_iff in E. now rewrite E.
Qed.
Lemma everything_total r cs : a_round r = None -> everything r ->
  total snd (aggregate_components func r cs) == total (fun c => total (fun a => total (fun p => if s_active a then val_of c a p else 0) (seq 0 (k_ports c))) (k_comps c)) cs.
Proof.
  intros R [AP [BO [CO KO]]]. transitivity (total snd (all_values func r cs)).
  { unfold aggregate_components. destruct (a_across r); [|now apply options_total]. rewrite group_total by apply pair_eqb_ok. rewrite total_map. cbn [snd]. now apply options_total. }
  unfold all_values. rewrite total_flat. apply total_ext. intros c _.
  assert (P : forall p, total snd (port_values func r c p) == total (fun a => if s_active a then val_of c a p else 0) (k_comps c)).
  { intros p. unfold port_values, val_of. destruct (func c p) as [v|].
    2:{ symmetry. apply total_zero. intros a _. destruct (s_active a); reflexivity. }
    destruct (a_key r) as [key|] eqn:AK.
    - rewrite group_total by apply String.eqb_eq. rewrite total_flat, total_filter. apply total_ext. intros a _. rewrite BO, CO, !andb_true_r. destruct (s_active a); [|reflexivity].
      pose proof (KO key eq_refl a p) as NK. destruct (key a p); [|contradiction]. cbn [BalanceSpec.total fold_right snd]. ring.
    - rewrite total_map, total_filter. cbn [snd]. apply total_ext. intros a _. rewrite BO, CO, !andb_true_r. reflexivity. }
  assert (E : total snd (List.concat (map (port_values func r c) (seq 0 (k_ports c)))) == total (fun a => total (fun p => if s_active a then val_of c a p else 0) (seq 0 (k_ports c))) (k_comps c)).
  { rewrite total_swap. rewrite <- (total_ext (fun p => total snd (port_values func r c p))) by (intros; apply P).
    induction (seq 0 (k_ports c)) as [|p l IH]; [reflexivity|]. cbn [map List.concat]. rewrite total_app, IH. reflexivity. }
  unfold class_values. rewrite AP. destruct (empty (filter _ _)) eqn:F.
  - rewrite <- E, <- concat_nonempty. destruct (filter _ _); [reflexivity|discriminate F].
  - rewrite total_map. cbn [snd]. rewrite <- E, <- (concat_nonempty (map _ _)). change (fun a : string * Q => snd a) with (@snd string Q). destruct (unique _ _); [reflexivity|]. apply group_total. apply String.eqb_eq.
Qed.
End A.

Lemma find_key_some k l q : find_key k l = Some q -> In (k, q) l.
Proof. unfold find_key. destruct (find _ l) as [e|] eqn:F; [|discriminate]. intros E. injection E as <-. apply find_some in F. destruct F as [I F]. apply pair_eqb_ok in F. rewrite F. now destruct e. Qed.
Lemma find_key_in k l q : NoDup (map fst l) -> In (k, q) l -> find_key k l = Some q.
Proof.
  unfold find_key. induction l as [|e l IH]; intros N I; [destruct I|]. inversion N as [|? ? NI N']; subst. cbn [find]. destruct (pair_eqb k (fst e)) eqn:E.
  - destruct I as [->|I]; [reflexivity|]. exfalso. apply NI. apply pair_eqb_ok in E. rewrite <- E. apply (in_map fst _ _ I).
  - destruct I as [->|I]; [cbn [fst] in E; assert (pair_eqb k k = true) by (now apply pair_eqb_ok); congruence|auto].
Qed.
Lemma find_key_reported c k l q : NoDup (map fst l) -> find_key (c, k) l = Some q -> reported c k l == q.
Proof. intros N F. apply find_key_some in F. apply (at_key_sum pair_eqb pair_eqb_ok ((c, k), q) l N F). Qed.
Lemma find_key_none c k l : find_key (c, k) l = None -> reported c k l == 0.
Proof.
  unfold find_key. destruct (find _ l) as [e|] eqn:F; [discriminate|]. intros _. apply total_zero. intros e I. pose proof (find_none _ _ F e I) as H. cbv beta in H. now rewrite H.
Qed.
Lemma divide_in k l r v : In (k, v) (divide_series l r) -> v = divide (find_key k l) (find_key k r).
Proof. unfold divide_series. intros I. apply in_map_iff in I. destruct I as [k' [E _]]. injection E as -> <-. reflexivity. Qed.
Lemma divide_there k l r q : find_key k l = Some q -> In (k, divide (find_key k l) (find_key k r)) (divide_series l r).
Proof.
  intros F. unfold divide_series. apply in_map_iff. exists k. split; [reflexivity|]. apply distinct_In; [apply pair_eqb_ok|]. apply in_or_app. left. apply find_key_some in F. apply (in_map fst _ _ F).
Qed.
Lemma divide_there_r k l r q : find_key k r = Some q -> In (k, divide (find_key k l) (find_key k r)) (divide_series l r).
Proof.
  intros F. unfold divide_series. apply in_map_iff. exists k. split; [reflexivity|]. apply distinct_In; [apply pair_eqb_ok|]. apply in_or_app. right. apply find_key_some in F. apply (in_map fst _ _ F).
Qed.

Section N.
Variable nt : nat.
Variables wg ws wo : nat -> Q.
Variable prices : string -> option (nat -> Q).
Notation revenue := (revenue nt wg ws wo prices).
Notation supply := (supply nt wg ws wo).
Notation market_value := (market_value nt wg ws wo prices).
Notation earned := (earned nt wg ws wo prices).
Notation sold := (sold nt wg ws wo).

Lemma clipped_traded d p : clipped d p == traded d p.
Proof.
  destruct d; cbn [clipped traded]; [reflexivity| |]; unfold clip_low, clip_up.
  - destruct (Qle_bool 0 p) eqn:A; [apply Qle_bool_iff in A; symmetry; now apply Q.min_l|]. assert (~ 0 <= p) by (rewrite <- Qle_bool_iff; congruence). symmetry. apply Q.min_r. lra.
  - destruct (Qle_bool p 0) eqn:A; [apply Qle_bool_iff in A; symmetry; now apply Q.max_l|]. assert (~ p <= 0) by (rewrite <- Qle_bool_iff; congruence). symmetry. apply Q.max_r. lra.
Qed.
Lemma traded_proper d p q : p == q -> traded d p == traded d q.
Proof. intros E. destruct d; cbn [traded]; now rewrite E. Qed.
Lemma coef_per agg c t : coef nt agg (weights wg ws wo c) t == per_time nt agg (class_weight wg ws wo c) t.
Proof.
  unfold coef, per_time. destruct agg; rewrite ?sumt_total; rewrite weights_class; [reflexivity|].
  assert (E : total (weights wg ws wo c) (seq 0 nt) == total (class_weight wg ws wo c) (seq 0 nt)) by (apply total_ext; intros; now rewrite weights_class). now rewrite E.
Qed.
Lemma revenue_val agg d c a p : val_of (revenue_func nt wg ws wo prices agg d) c a p ==
  total (fun t => per_time nt agg (class_weight wg ws wo (k_name c)) t * (traded d (injected c a p t) * price_at prices (s_bus a p) t)) (seq 0 nt).
Proof.
  unfold val_of, revenue_func. rewrite agg_total. apply total_ext. intros t _. rewrite <- coef_per. unfold coef. apply Qmult_comp; [reflexivity|].
  rewrite clipped_traded, (traded_proper _ _ _ (power_injected c a p t)). unfold price, price_at. reflexivity.
Qed.
Lemma revenue_value r d cs c k : a_round r = None -> a_across r = false -> reported c k (revenue r d cs) == earned d r cs c k.
Proof.
  intros R AC. unfold MarketModel.revenue. rewrite aggregate_parts by auto. unfold parts, MarketSpec.earned. apply total_ext. intros cl _. destruct (String.eqb_spec c (k_name cl)) as [->|]; [|reflexivity].
  unfold money. apply total_ext. intros a _. apply total_ext. intros p _. unfold part. destruct (chosen r k a p); [|reflexivity]. apply revenue_val.
Qed.
Lemma traded_split p : traded Input p + traded Output p == traded Any p.
Proof. cbn [traded]. destruct (Q.min_spec 0 p) as [[A ->]|[A ->]], (Q.max_spec 0 p) as [[B ->]|[B ->]]; lra. Qed.
Lemma earned_split r cs c k : earned Input r cs c k + earned Output r cs c k == earned Any r cs c k.
Proof.
  unfold MarketSpec.earned. rewrite <- total_plus. apply total_ext. intros cl _. destruct (String.eqb c (k_name cl)); [|ring]. unfold money. rewrite <- total_plus. apply total_ext. intros a _.
  rewrite <- total_plus. apply total_ext. intros p _. destruct (chosen r k a p); [|ring]. rewrite <- total_plus. apply total_ext. intros t _. rewrite <- (traded_split (injected cl a p t)). ring.
Qed.
Lemma revenue_split r cs c k : a_round r = None -> a_across r = false -> reported c k (revenue r Input cs) + reported c k (revenue r Output cs) == reported c k (revenue r Any cs).
Proof. intros R AC. rewrite !revenue_value by auto. apply earned_split. Qed.

(* market value *)
Lemma supply_value r cs c k : a_round r = None -> a_across r = false -> reported c k (supply r cs) == sold r cs c k.
Proof. intros R AC. unfold MarketModel.supply. change (energy_balance nt wg ws wo _ cs) with (energy_balance nt wg ws wo (with_dir Supply r) cs). rewrite reported_energy by auto. reflexivity. Qed.
Lemma energy_nodup r cs : NoDup (map k_name cs) -> NoDup (map fst (energy_balance nt wg ws wo r cs)).
Proof.
  intros ND. unfold energy_balance. destruct (a_across r); [rewrite group_keys; apply distinct_NoDup; apply pair_eqb_ok|]. apply options_nodup. now apply all_nodup.
Qed.
Lemma market_value_entry r cs c k : a_round r = None -> a_across r = false -> NoDup (map k_name cs) -> ~ earned Any r cs c k == 0 -> ~ sold r cs c k == 0 ->
  exists q, In ((c, k), Some q) (market_value r cs) /\ q == earned Any r cs c k / sold r cs c k /\ forall v, In ((c, k), v) (market_value r cs) -> v = Some q.
Proof.
  intros R AC ND NE NS. pose proof (aggregate_nodup (revenue_func nt wg ws wo prices (a_time r) Any) r cs ND) as N1. pose proof (energy_nodup (with_dir Supply r) cs ND) as N2.
  assert (S' : supply r cs = energy_balance nt wg ws wo (with_dir Supply r) cs) by reflexivity.
  pose proof (revenue_value r Any cs c k R AC) as V1. pose proof (supply_value r cs c k R AC) as V2.
  destruct (find_key (c, k) (revenue r Any cs)) as [x|] eqn:F1; [|exfalso; apply NE; rewrite <- V1; now apply find_key_none].
  destruct (find_key (c, k) (supply r cs)) as [y|] eqn:F2; [|exfalso; apply NS; rewrite <- V2; now apply find_key_none].
  assert (X : reported c k (revenue r Any cs) == x) by (now apply find_key_reported). assert (Y : reported c k (supply r cs) == y) by (apply find_key_reported; [rewrite S'; exact N2|exact F2]).
  assert (NY : ~ y == 0) by (rewrite <- Y, V2; exact NS).
  assert (D : divide (find_key (c, k) (revenue r Any cs)) (find_key (c, k) (supply r cs)) = Some (x / y)).
  { rewrite F1, F2. cbn [divide]. destruct (Qeq_bool y 0) eqn:Z; [apply Qeq_bool_iff in Z; contradiction|reflexivity]. }
  exists (x / y). split; [|split].
  - unfold MarketModel.market_value. rewrite <- D. eapply divide_there. exact F1.
  - rewrite <- X, <- Y, V1, V2. reflexivity.
  - intros v I. apply divide_in in I. rewrite I. exact D.
Qed.
(* conversely a number in the table is the quotient *)
Lemma market_value_is r cs c k q : a_round r = None -> a_across r = false -> NoDup (map k_name cs) -> In ((c, k), Some q) (market_value r cs) ->
  ~ sold r cs c k == 0 /\ q == earned Any r cs c k / sold r cs c k.
Proof.
  intros R AC ND I. pose proof (aggregate_nodup (revenue_func nt wg ws wo prices (a_time r) Any) r cs ND) as N1. pose proof (energy_nodup (with_dir Supply r) cs ND) as N2.
  apply divide_in in I. unfold divide in I. destruct (find_key (c, k) (revenue r Any cs)) as [x|] eqn:F1; [|discriminate]. destruct (find_key (c, k) (supply r cs)) as [y|] eqn:F2; [|discriminate].
  destruct (Qeq_bool y 0) eqn:Z; [discriminate|]. injection I as ->.
  assert (X : reported c k (revenue r Any cs) == x) by (now apply find_key_reported). assert (Y : reported c k (supply r cs) == y) by (apply find_key_reported; [exact N2|exact F2]).
  rewrite (revenue_value r Any cs c k R AC) in X. rewrite (supply_value r cs c k R AC) in Y. split.
  - rewrite Y. intros E. apply Qeq_bool_iff in E. congruence.
  - now rewrite X, Y.
Qed.
Lemma per_nonneg agg w t : (forall t, 0 <= w t) -> 0 <= per_time nt agg w t.
Proof.
  intros W. unfold per_time. destruct agg; [auto|]. assert (P : 0 <= total w (seq 0 nt)) by (apply total_nonneg; auto). unfold Qdiv. pose proof (Qinv_le_0_compat _ P). specialize (W t). nra.
Qed.
Lemma class_weight_nonneg : (forall t, 0 <= wg t /\ 0 <= ws t /\ 0 <= wo t) -> forall c t, 0 <= class_weight wg ws wo c t.
Proof. intros W c t. unfold class_weight. destruct (string_dec c "Generator"), (string_dec c "StorageUnit"), (string_dec c "Store"); apply W. Qed.
Lemma total_le {A} (f g : A -> Q) l : (forall a, In a l -> f a <= g a) -> total f l <= total g l.
Proof.
  induction l as [|a l IH]; intros H; [cbn; lra|]. cbn [BalanceSpec.total fold_right]. fold (total f l). fold (total g l). pose proof (H a (or_introl eq_refl)).
  assert (total f l <= total g l) by (apply IH; intros; apply H; simpl; auto). lra.
Qed.
Lemma earned_range r cs c k lo hi : (forall t, 0 <= wg t /\ 0 <= ws t /\ 0 <= wo t) -> sells_only nt prices r cs c k lo hi ->
  lo * sold r cs c k <= earned Any r cs c k <= hi * sold r cs c k.
Proof.
  intros W H. unfold MarketSpec.sold, MarketSpec.earned. rewrite <- !total_scale. split; apply total_le; intros cl Icl; (destruct (String.eqb_spec c (k_name cl)) as [E|]; [|lra]);
  unfold energy, money; rewrite <- total_scale; apply total_le; intros a Ia; rewrite <- total_scale; apply total_le; intros p Ip; cbn [with_dir a_dir a_at_port] in *;
  change (chosen (with_dir Supply r) k a p) with (chosen r k a p); (destruct (chosen r k a p) eqn:C; [|lra]); rewrite <- total_scale; apply total_le; intros t It; apply in_seq in It;
  destruct (H cl a p t Icl (eq_sym E) Ia Ip C) as [P B]; try lia; cbn [share traded]; rewrite Q.max_r by exact P;
  pose proof (per_nonneg (a_time r) (class_weight wg ws wo c) t (class_weight_nonneg W c)) as PW; cbn [with_dir a_time] in *.
  - assert (0 <= (price_at prices (s_bus a p) t - lo) * (per_time nt (a_time r) (class_weight wg ws wo c) t * injected cl a p t)) by (apply Qmult_le_0_compat; [lra|now apply Qmult_le_0_compat]). lra.
  - assert (0 <= (hi - price_at prices (s_bus a p) t) * (per_time nt (a_time r) (class_weight wg ws wo c) t * injected cl a p t)) by (apply Qmult_le_0_compat; [lra|now apply Qmult_le_0_compat]). lra.
Qed.
Lemma sold_nonneg r cs c k : (forall t, 0 <= wg t /\ 0 <= ws t /\ 0 <= wo t) -> 0 <= sold r cs c k.
Proof.
  intros W. unfold MarketSpec.sold. apply total_nonneg. intros cl _. destruct (String.eqb c (k_name cl)); [|lra]. unfold energy. apply total_nonneg. intros a _. apply total_nonneg. intros p _.
  destruct (chosen _ k a p); [|lra]. apply total_nonneg. intros t _. apply Qmult_le_0_compat; [apply per_nonneg; now apply class_weight_nonneg|]. cbn [with_dir a_dir share]. apply Q.le_max_l.
Qed.
Lemma market_value_range r cs c k lo hi q : a_round r = None -> a_across r = false -> NoDup (map k_name cs) -> (forall t, 0 <= wg t /\ 0 <= ws t /\ 0 <= wo t) ->
  sells_only nt prices r cs c k lo hi -> In ((c, k), Some q) (market_value r cs) -> lo <= q <= hi.
Proof.
  intros R AC ND W H I. destruct (market_value_is r cs c k q R AC ND I) as [NS E]. pose proof (earned_range r cs c k lo hi W H) as [L U]. pose proof (sold_nonneg r cs c k W) as P.
  assert (PS : 0 < sold r cs c k) by (destruct (Qlt_le_dec 0 (sold r cs c k)) as [|B]; [auto|exfalso; apply NS; lra]). rewrite E. split; [apply Qle_shift_div_l|apply Qle_shift_div_r]; auto.
Qed.
(* sums or means *)
Lemma per_mean w t : per_time nt Mean w t == per_time nt Sum w t * / total w (seq 0 nt).
Proof. reflexivity. Qed.
Lemma earned_mean d r cs c k : earned d (with_time Mean r) cs c k == earned d (with_time Sum r) cs c k * / total (class_weight wg ws wo c) (seq 0 nt).
Proof.
  unfold MarketSpec.earned. rewrite (Qmult_comm _ (/ _)), <- total_scale. apply total_ext. intros cl _. destruct (String.eqb c (k_name cl)); [|ring]. unfold money. rewrite <- total_scale. apply total_ext. intros a _.
  cbn [with_time a_at_port]. rewrite <- total_scale. apply total_ext. intros p _. change (chosen (with_time Mean r) k a p) with (chosen r k a p). change (chosen (with_time Sum r) k a p) with (chosen r k a p).
  destruct (chosen r k a p); [|ring]. rewrite <- total_scale. apply total_ext. intros t _. cbn [with_time a_time]. rewrite per_mean. ring.
Qed.
Lemma sold_mean r cs c k : sold (with_time Mean r) cs c k == sold (with_time Sum r) cs c k * / total (class_weight wg ws wo c) (seq 0 nt).
Proof.
  unfold MarketSpec.sold. rewrite (Qmult_comm _ (/ _)), <- total_scale. apply total_ext. intros cl _. destruct (String.eqb c (k_name cl)); [|ring]. unfold energy. rewrite <- total_scale. apply total_ext. intros a _.
  cbn [with_time with_dir a_at_port]. rewrite <- total_scale. apply total_ext. intros p _. change (chosen (with_dir Supply (with_time Mean r)) k a p) with (chosen r k a p). change (chosen (with_dir Supply (with_time Sum r)) k a p) with (chosen r k a p).
  destruct (chosen r k a p); [|ring]. rewrite <- total_scale. apply total_ext. intros t _. cbn [with_time with_dir a_time a_dir]. rewrite per_mean. ring.
Qed.
Lemma market_value_time r cs c k q q' : a_round r = None -> a_across r = false -> NoDup (map k_name cs) -> 0 < total (class_weight wg ws wo c) (seq 0 nt) ->
  In ((c, k), Some q) (market_value (with_time Sum r) cs) -> In ((c, k), Some q') (market_value (with_time Mean r) cs) -> q == q'.
Proof.
  intros R AC ND P I I'. apply market_value_is in I; [|exact R|exact AC|exact ND]. apply market_value_is in I'; [|exact R|exact AC|exact ND]. destruct I as [NS ->], I' as [_ ->].
  rewrite earned_mean, sold_mean. field. split; [lra|exact NS].
Qed.

(* settlement: what is paid is received *)
Lemma settlement r cs : a_round r = None -> everything r -> (forall t, wg t == wo t /\ ws t == wo t) -> (forall b t, (t < nt)%nat -> inflow_at cs b t == 0) ->
  total snd (revenue r Any cs) == 0.
Proof.
  intros R EV W F. unfold MarketModel.revenue. rewrite everything_total by auto.
  set (w := per_time nt (a_time r) wo).
  assert (WE : forall c t, per_time nt (a_time r) (class_weight wg ws wo c) t == w t).
  { intros c t. assert (CW : forall t, class_weight wg ws wo c t == wo t) by (intros t0; unfold class_weight; destruct (string_dec c "Generator"); [apply W|]; destruct (string_dec c "StorageUnit"); [apply W|]; destruct (string_dec c "Store"); [apply W|reflexivity]).
    unfold w, per_time. destruct (a_time r); [apply CW|]. rewrite CW. assert (SE : total (class_weight wg ws wo c) (seq 0 nt) == total wo (seq 0 nt)) by (apply total_ext; auto). now rewrite SE. }
  set (bs := distinct String.eqb (flat_map (fun c => flat_map (fun a => map (s_bus a) (seq 0 (k_ports c))) (k_comps c)) cs)).
  assert (IB : forall c a p, In c cs -> In a (k_comps c) -> In p (seq 0 (k_ports c)) -> In (s_bus a p) bs).
  { intros c a p Ic Ia Ip. unfold bs. apply distinct_In; [apply String.eqb_eq|]. apply in_flat_map. exists c. split; [auto|]. apply in_flat_map. exists a. split; [auto|]. now apply in_map. }
  transitivity (total (fun t => total (fun b => w t * price_at prices b t * inflow_at cs b t) bs) (seq 0 nt)).
  2:{ apply total_zero. intros t It. apply in_seq in It. apply total_zero. intros b _. rewrite F by lia. ring. }
  rewrite (total_ext _ (fun c => total (fun a => total (fun p => total (fun t => total (fun b => w t * price_at prices b t * (if s_active a && String.eqb (s_bus a p) b then injected c a p t else 0)) bs) (seq 0 nt)) (seq 0 (k_ports c))) (k_comps c))).
  - symmetry. rewrite (total_ext (fun t => total _ bs) (fun t => total (fun b => total (fun c => total (fun a => total (fun p => w t * price_at prices b t * (if s_active a && String.eqb (s_bus a p) b then injected c a p t else 0)) (seq 0 (k_ports c))) (k_comps c)) cs) bs)).
    + rewrite (total_ext (fun t => total _ bs) (fun t => total (fun c => total (fun b => total (fun a => total (fun p => w t * price_at prices b t * (if s_active a && String.eqb (s_bus a p) b then injected c a p t else 0)) (seq 0 (k_ports c))) (k_comps c)) bs) cs)) by (intros; apply total_swap).
      rewrite total_swap. apply total_ext. intros c _. rewrite (total_ext (fun t => total _ bs) (fun t => total (fun a => total (fun b => total (fun p => w t * price_at prices b t * (if s_active a && String.eqb (s_bus a p) b then injected c a p t else 0)) (seq 0 (k_ports c))) bs) (k_comps c))) by (intros; apply total_swap).
      rewrite total_swap. apply total_ext. intros a _. rewrite (total_ext (fun t => total _ bs) (fun t => total (fun p => total (fun b => w t * price_at prices b t * (if s_active a && String.eqb (s_bus a p) b then injected c a p t else 0)) bs) (seq 0 (k_ports c)))) by (intros; apply total_swap).
      apply total_swap.
    + intros t _. apply total_ext. intros b _. unfold inflow_at. rewrite <- total_scale. apply total_ext. intros c _. rewrite <- total_scale. apply total_ext. intros a _. rewrite <- total_scale. reflexivity.
  - intros c Ic. apply total_ext. intros a Ia. apply total_ext. intros p Ip. destruct (s_active a).
    + rewrite revenue_val. apply total_ext. intros t _. rewrite WE. cbn [traded andb].
      rewrite (total_ext _ (fun b => if String.eqb (s_bus a p) b then w t * price_at prices b t * injected c a p t else 0)) by (intros b _; destruct (String.eqb (s_bus a p) b); ring).
      rewrite (pick String.eqb String.eqb_eq (s_bus a p) (fun b => w t * price_at prices b t * injected c a p t)); [ring|apply distinct_NoDup; apply String.eqb_eq|left; eapply IB; eauto].
    + symmetry. apply total_zero. intros t _. apply total_zero. intros b _. cbn [andb]. ring.
Qed.
End N.

Lemma pick_by {A} (key : A -> string) (f : A -> Q) (a : A) l : NoDup (map key l) -> In a l -> total (fun x => if String.eqb (key a) (key x) then f x else 0) l == f a.
Proof.
  induction l as [|b l IH]; intros N I; [destruct I|]. inversion N as [|? ? NI N']; subst. cbn [BalanceSpec.total fold_right]. fold (total (fun x => if String.eqb (key a) (key x) then f x else 0) l). destruct I as [->|I].
  - rewrite String.eqb_refl, (total_zero _ l); [ring|]. intros x X. destruct (String.eqb_spec (key a) (key x)) as [E|]; [|reflexivity]. exfalso. apply NI. rewrite E. now apply in_map.
  - destruct (String.eqb_spec (key a) (key b)) as [E|]; [exfalso; apply NI; rewrite <- E; now apply in_map|]. rewrite IH by auto. ring.
Qed.
Lemma branch_rent nt wg ws wo prices r cs cl a eff : a_round r = None -> a_across r = false -> everything r -> a_key r = None -> NoDup (map k_name cs) -> In cl cs ->
  NoDup (map s_name (k_comps cl)) -> In a (k_comps cl) -> s_active a = true -> k_branch cl = true -> k_ports cl = 2%nat -> (forall t, (t < nt)%nat -> s_p a 1 t == - (eff t * s_p a 0 t)) ->
  reported (k_name cl) (s_name a) (revenue nt wg ws wo prices r Any cs) ==
  total (fun t => per_time nt (a_time r) (class_weight wg ws wo (k_name cl)) t * (s_p a 0 t * (eff t * price_at prices (s_bus a 1) t - price_at prices (s_bus a 0) t))) (seq 0 nt).
Proof.
  intros R AC [AP [BO [CO _]]] AK NC IC NA IA ACT BR PO LO. rewrite revenue_value by auto. unfold earned. rewrite (pick_by k_name _ cl cs NC IC). unfold money. rewrite AP, PO. cbn [seq].
  transitivity (total (fun x => if String.eqb (s_name a) (s_name x) then total (fun port => if s_active x then total (fun t => per_time nt (a_time r) (class_weight wg ws wo (k_name cl)) t * (traded Any (injected cl x port t) * price_at prices (s_bus x port) t)) (seq 0 nt) else 0) [0; 1]%nat else 0) (k_comps cl)).
  { apply total_ext. intros x _. unfold chosen. rewrite AK. destruct (String.eqb (s_name a) (s_name x)).
    - apply total_ext. intros p _. rewrite BO, CO, !andb_true_r. reflexivity.
    - apply total_zero. intros p _. rewrite andb_false_r. reflexivity. }
  rewrite (pick_by s_name _ a (k_comps cl) NA IA). rewrite ACT. cbn [BalanceSpec.total fold_right]. rewrite Qplus_0_r, <- total_plus. apply total_ext. intros t It. apply in_seq in It.
  cbn [traded]. unfold injected. rewrite BR, LO by lia. ring.
Qed.

(* examples and counterexamples *)
Definition flat (q : Q) : option (nat -> Q) := Some (fun _ => q).
Definition dear (b : string) : option (nat -> Q) := if String.eqb b "a" then Some (fun t => nth t [10; 30] 0) else if String.eqb b "b" then Some (fun t => nth t [20; 30] 0) else None.
Definition args_of (key : option (comp -> nat -> option string)) (agg : time) : args :=
  {| a_dir := Balance; a_time := agg; a_at_port := true; a_bus_ok := fun _ => true; a_carrier_ok := fun _ => true; a_key := key; a_across := false; a_round := None; a_drop := Some true |}.
Definition by_carrier : option (comp -> nat -> option string) := Some (fun a _ => Some (s_carrier a)).
Definition series (nm ca b : string) (sign : Q) (p : list Q) : comp := {| s_name := nm; s_carrier := ca; s_bus := fun _ => b; s_sign := sign; s_active := true; s_p := fun _ t => nth t p 0 |}.
Definition ones (t : nat) : Q := 1.
(* a store buys 10 at a price of 10 and sells 8 at 20 *)
Definition arbitrage : list class := [{| k_name := "StorageUnit"; k_branch := false; k_ports := 1; k_comps := [series "s" "phs" "a" 1 [-(10); 8]] |}].
Definition rising (b : string) : option (nat -> Q) := Some (fun t => nth t [10; 20] 0).
Lemma storage_value : exists r cs nt wg ws wo prices q, a_round r = None /\ a_across r = false /\ NoDup (map k_name cs) /\ (forall t, 0 <= wg t /\ 0 <= ws t /\ 0 <= wo t) /\
  (forall b t, (t < nt)%nat -> 10 <= price_at prices b t <= 20) /\ In (("StorageUnit", "phs"), Some q) (market_value nt wg ws wo prices r cs) /\ q < 10.
Proof.
  exists (args_of by_carrier Sum), arbitrage, 2%nat, ones, ones, ones, rising. eexists. split; [reflexivity|]. split; [reflexivity|]. split; [repeat constructor; intros []|].
  split; [intros t; unfold ones; lra|]. split; [intros b t L; destruct t as [|[|t]]; [cbn; lra|cbn; lra|lia]|]. split; [left; reflexivity|]. vm_compute. reflexivity.
Qed.
(* energy given away is worth nothing, which is reported as missing *)
Definition free : list class := [{| k_name := "Generator"; k_branch := false; k_ports := 1; k_comps := [series "w" "wind" "a" 1 [5; 5]] |}].
Lemma worthless : exists r cs nt wg ws wo prices, a_round r = None /\ a_across r = false /\ a_drop r = Some true /\ NoDup (map k_name cs) /\ 
  sold nt wg ws wo r cs "Generator" "wind" == 10 /\ earned nt wg ws wo prices Any r cs "Generator" "wind" == 0 /\
  market_value nt wg ws wo prices r cs = [(("Generator", "wind"), None)].
Proof.
  exists (args_of by_carrier Sum), free, 2%nat, ones, ones, ones, (fun _ => flat 0). repeat (split; [try reflexivity; try (repeat constructor; intros [])|]). reflexivity.
Qed.
(* one weighting for generators, another for loads *)
Lemma unsettled : exists r cs nt wg ws wo prices, a_round r = None /\ everything r /\ (forall b t, (t < nt)%nat -> inflow_at cs b t == 0) /\ ~ total snd (revenue nt wg ws wo prices r Any cs) == 0.
Proof.
  exists (args_of by_carrier Sum), [{| k_name := "Generator"; k_branch := false; k_ports := 1; k_comps := [series "g" "gas" "a" 1 [5]] |}; {| k_name := "Load"; k_branch := false; k_ports := 1; k_comps := [series "l" "" "a" (-(1)) [5]] |}], 1%nat, (fun _ => 2), ones, ones, (fun _ => flat 1).
  split; [reflexivity|]. split; [repeat split; intros; try reflexivity; injection H as <-; discriminate|]. split; [|vm_compute; discriminate].
  intros b t L. destruct t; [|lia]. unfold inflow_at, injected. cbn [k_branch k_comps k_ports BalanceSpec.total fold_right seq series s_active s_bus s_sign s_p andb nth]. destruct (String.eqb "a" b); ring.
Qed.
