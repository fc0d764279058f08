From Coq Require Import List String Bool QArith Qminmax Qabs Qround ZArith Arith Lqa Lia.
From Verif Require Import StatsModel StatsSpec BalanceProofs StatsProofs MarketModel MarketSpec MarketProofs CapfacModel CapfacSpec.
Import ListNotations.
Open Scope string_scope.
Open Scope list_scope.
Open Scope Q_scope.

(* rounding is monotone *)
Lemma rint_mono p q : p <= q -> (rint p <= rint q)%Z.
Proof.
  intros L. pose proof (Qfloor_resp_le p q L) as F.
  assert (B : forall x, (Qfloor x <= rint x <= Qfloor x + 1)%Z) by (intros x; unfold rint; destruct (Qcompare _ _); [destruct (Z.even _)| |]; lia).
  destruct (Z.eq_dec (Qfloor p) (Qfloor q)) as [E|N]; [|pose proof (B p); pose proof (B q); lia].
  unfold rint. rewrite E. destruct (Qcompare (p - inject_Z (Qfloor q)) (1 # 2)) eqn:C1, (Qcompare (q - inject_Z (Qfloor q)) (1 # 2)) eqn:C2;
  first [apply Qeq_alt in C1|apply Qlt_alt in C1|apply Qgt_alt in C1]; first [apply Qeq_alt in C2|apply Qlt_alt in C2|apply Qgt_alt in C2];
  try (destruct (Z.even (Qfloor q)); lia); try lia; try (exfalso; lra).
Qed.
Lemma round_mono k p q : p <= q -> round_to k p <= round_to k q.
Proof.
  intros L. unfold round_to. pose proof (ten_pos k) as P. unfold Qdiv. apply Qmult_le_compat_r; [|apply Qinv_le_0_compat; lra]. rewrite <- Zle_Qle. apply rint_mono. apply Qmult_le_compat_r; lra.
Qed.
Lemma rounded_mono r p q : p <= q -> rounded r p <= rounded r q.
Proof. intros L. unfold rounded. destruct (a_round r); [now apply round_mono|exact L]. Qed.
Lemma rounded_proper r p q : p == q -> rounded r p == rounded r q.
Proof. intros E. apply Qle_antisym; apply rounded_mono; lra. Qed.
Lemma rounded_zero r q : 0 <= q -> 0 <= rounded r q.
Proof. intros P. unfold rounded. destruct (a_round r); [now apply round_nonneg|exact P]. Qed.

(* an entry is the rounded sum of its parts *)
Lemma entry_value func r cs c k x : a_across r = false -> NoDup (map k_name cs) -> find_key (c, k) (aggregate_components func r cs) = Some x -> x == rounded r (parts func r cs c k).
Proof.
  intros AC ND F. apply find_key_some in F. unfold aggregate_components in F. rewrite AC in F. unfold apply_options in F.
  pose proof (all_values_nodup func r cs ND) as N.
  assert (I : In ((c, k), x) (match a_round r with Some n => map (fun e => (fst e, round_to n (snd e))) (all_values func r cs) | None => all_values func r cs end)) by (destruct (a_drop r); [apply filter_In in F; tauto|exact F]).
  rewrite <- (rounded_proper r _ _ (all_parts func r cs c k)).
  assert (G : forall v, In ((c, k), v) (all_values func r cs) -> reported c k (all_values func r cs) == v) by (intros v J; exact (at_key_sum pair_eqb pair_eqb_ok ((c, k), v) _ N J)).
  destruct (a_round r) as [n|] eqn:R.
  - apply in_map_iff in I. destruct I as [[ck v] [E I]]. cbn [fst snd] in E. injection E as -> <-. rewrite (rounded_proper r _ _ (G v I)). unfold rounded. rewrite R. reflexivity.
  - rewrite (rounded_proper r _ _ (G x I)). unfold rounded. rewrite R. reflexivity.
Qed.
(* and an entry is missing only if that is zero, or if there is nothing to add up *)
Lemma entry_missing func r cs c k : a_round r = None -> a_across r = false -> find_key (c, k) (aggregate_components func r cs) = None -> parts func r cs c k == 0.
Proof. intros R AC F. rewrite <- (aggregate_parts func r cs c k R AC). now apply find_key_none. Qed.
Lemma parts_total func r cs f c k : (forall cl a p, In cl cs -> k_name cl = c -> In a (k_comps cl) -> In p (if a_at_port r then seq 0 (k_ports cl) else [O]) -> chosen r k a p = true -> val_of func cl a p == f cl a p) ->
  parts func r cs c k == group_total r cs f c k.
Proof.
  intros H. unfold parts, group_total. apply total_ext. intros cl Icl. destruct (String.eqb_spec c (k_name cl)) as [E|]; [|reflexivity]. apply total_ext. intros a Ia. apply total_ext. intros p Ip.
  unfold part. destruct (chosen r k a p) eqn:C; [|reflexivity]. apply H; auto.
Qed.
Lemma group_ext r cs f g c k : (forall cl a p, In cl cs -> k_name cl = c -> In a (k_comps cl) -> In p (if a_at_port r then seq 0 (k_ports cl) else [O]) -> chosen r k a p = true -> f cl a p == g cl a p) ->
  group_total r cs f c k == group_total r cs g c k.
Proof.
  intros H. unfold group_total. apply total_ext. intros cl Icl. destruct (String.eqb_spec c (k_name cl)) as [E|]; [|reflexivity]. apply total_ext. intros a Ia. apply total_ext. intros p Ip.
  destruct (chosen r k a p) eqn:C; [|reflexivity]. apply H; auto.
Qed.
Lemma group_le r cs f g c k : (forall cl a p, In cl cs -> k_name cl = c -> In a (k_comps cl) -> In p (if a_at_port r then seq 0 (k_ports cl) else [O]) -> chosen r k a p = true -> f cl a p <= g cl a p) ->
  group_total r cs f c k <= group_total r cs g c k.
Proof.
  intros H. unfold group_total. apply total_le. intros cl Icl. destruct (String.eqb_spec c (k_name cl)) as [E|]; [|lra]. apply total_le. intros a Ia. apply total_le. intros p Ip.
  destruct (chosen r k a p) eqn:C; [|lra]. apply H; auto.
Qed.
Lemma group_plus r cs f g c k : group_total r cs (fun cl a p => f cl a p + g cl a p) c k == group_total r cs f c k + group_total r cs g c k.
Proof.
  unfold group_total. rewrite <- total_plus. apply total_ext. intros cl _. destruct (String.eqb c (k_name cl)); [|ring]. rewrite <- total_plus. apply total_ext. intros a _. rewrite <- total_plus. apply total_ext. intros p _.
  destruct (chosen r k a p); ring.
Qed.
Lemma group_zero r cs c k : group_total r cs (fun _ _ _ => 0) c k == 0.
Proof. unfold group_total. apply total_zero. intros cl _. destruct (String.eqb c (k_name cl)); [|reflexivity]. apply total_zero. intros a _. apply total_zero. intros p _. destruct (chosen r k a p); reflexivity. Qed.
Lemma sized_nominal c : nominal_attr c = true <-> sized c.
Proof.
  unfold nominal_attr, sized. rewrite existsb_exists. split.
  - intros [x [I E]]. apply String.eqb_eq in E. now subst.
  - intros I. exists c. split; [exact I|apply String.eqb_refl].
Qed.

Section T.
Variable nt : nat.
Variables wg ws wo : nat -> Q.
Variables nom nom_opt cost : string -> string -> Q.
Variable max_hours : string -> Q.
Variable efficiency : string -> nat -> option (string -> Q).
Variable p_max_pu : string -> string -> nat -> Q.
Variable energy_of : string -> nat -> Q.
Notation optimal_capacity := (optimal_capacity nom_opt max_hours efficiency).
Notation installed_capacity := (installed_capacity nom max_hours efficiency).
Notation expanded_capacity := (expanded_capacity nom nom_opt max_hours efficiency).
Notation counted := (CapfacSpec.counted efficiency).
Notation priced := (CapfacSpec.priced cost).
Notation lost := (CapfacSpec.lost nt wg ws wo nom_opt p_max_pu).
Notation use := (CapfacSpec.use nt wg ws wo energy_of).
Notation curtailment := (curtailment nt wg ws wo nom_opt p_max_pu).
Notation capacity_factor := (capacity_factor nt wg ws wo nom_opt max_hours efficiency energy_of).

Lemma port_eff cl p a : port_efficiency efficiency cl p a = at_bus efficiency cl a p.
Proof. unfold port_efficiency, at_bus. destruct (k_branch cl); [|reflexivity]. destruct p; reflexivity. Qed.
(* capacity counted at the ports, or once *)
Lemma capacity_val tab r cl a p : sized (k_name cl) -> In p (if a_at_port r then seq 0 (k_ports cl) else [O]) -> val_of (capacity_func max_hours efficiency tab (a_at_port r) false) cl a p == counted tab r cl a p.
Proof.
  intros SZ I. apply sized_nominal in SZ. unfold val_of, capacity_func, CapfacSpec.counted. rewrite SZ. cbn [andb]. rewrite port_eff. destruct (a_at_port r); [reflexivity|].
  destruct I as [<-|[]]. unfold at_bus. cbn [Nat.eqb]. destruct (k_branch cl); reflexivity.
Qed.
Lemma capacity_parts tab r cs c k : sized c -> parts (capacity_func max_hours efficiency tab (a_at_port r) false) r cs c k == group_total r cs (counted tab r) c k.
Proof. intros SZ. apply parts_total. intros cl a p _ E _ Ip _. apply capacity_val; [now rewrite E|exact Ip]. Qed.
Lemma optimal_value r cs c k : sized c -> a_round r = None -> a_across r = false -> reported c k (optimal_capacity false r cs) == group_total r cs (counted nom_opt r) c k.
Proof. intros SZ R AC. unfold CapfacModel.optimal_capacity. cbn [of_storage]. rewrite aggregate_parts by auto. now apply capacity_parts. Qed.
Lemma installed_value r cs c k : sized c -> a_round r = None -> a_across r = false -> reported c k (installed_capacity false r cs) == group_total r cs (counted nom r) c k.
Proof. intros SZ R AC. unfold CapfacModel.installed_capacity. cbn [of_storage]. rewrite aggregate_parts by auto. now apply capacity_parts. Qed.
(* energy capacity of storage *)
Lemma storage_total cs f : total f (of_storage true cs) == total (fun cl => (if String.eqb (k_name cl) "Store" then f cl else 0) + (if String.eqb (k_name cl) "StorageUnit" then f cl else 0)) cs.
Proof.
  unfold of_storage. cbn [flat_map]. rewrite app_nil_r, total_app, !total_filter, <- total_plus. reflexivity.
Qed.
Lemma storage_value r cs c k : a_round r = None -> a_across r = false ->
  reported c k (optimal_capacity true r cs) ==
  (if String.eqb c "Store" then group_total r cs (counted nom_opt r) c k else if String.eqb c "StorageUnit" then group_total r cs (fun cl a p => counted nom_opt r cl a p * max_hours (s_name a)) c k else 0).
Proof.
  intros R AC. unfold CapfacModel.optimal_capacity. rewrite aggregate_parts by auto. unfold parts. rewrite storage_total.
  destruct (String.eqb_spec c "Store") as [->|N1]; [|destruct (String.eqb_spec c "StorageUnit") as [->|N2]].
  - unfold group_total. apply total_ext. intros cl _. destruct (String.eqb_spec "Store" (k_name cl)) as [E|NE].
    + rewrite <- E. change (String.eqb "Store" "Store") with true. change (String.eqb "Store" "StorageUnit") with false. cbv iota. rewrite Qplus_0_r. apply total_ext. intros a _. apply total_ext. intros p Ip. unfold part. destruct (chosen r k a p); [|reflexivity].
      unfold val_of, capacity_func. rewrite <- E. change (nominal_attr "Store") with true. change (String.eqb "Store" "StorageUnit") with false. cbn [andb]. rewrite port_eff. unfold CapfacSpec.counted. rewrite <- E. destruct (a_at_port r) eqn:AP; [reflexivity|].
      unfold ports in Ip. rewrite ?AP in Ip. destruct Ip as [<-|[]]. unfold at_bus. cbn [Nat.eqb]. destruct (k_branch cl); reflexivity.
    + destruct (String.eqb_spec (k_name cl) "Store"); [congruence|]. destruct (String.eqb (k_name cl) "StorageUnit"); reflexivity.
  - unfold group_total. apply total_ext. intros cl _. destruct (String.eqb_spec "StorageUnit" (k_name cl)) as [E|NE].
    + rewrite <- E. change (String.eqb "StorageUnit" "Store") with false. change (String.eqb "StorageUnit" "StorageUnit") with true. cbv iota. rewrite Qplus_0_l. apply total_ext. intros a _. apply total_ext. intros p Ip. unfold part. destruct (chosen r k a p); [|reflexivity].
      unfold val_of, capacity_func. rewrite <- E. change (nominal_attr "StorageUnit") with true. change (String.eqb "StorageUnit" "StorageUnit") with true. cbn [andb]. rewrite port_eff. unfold CapfacSpec.counted. rewrite <- E. destruct (a_at_port r) eqn:AP; [reflexivity|].
      unfold ports in Ip. rewrite ?AP in Ip. destruct Ip as [<-|[]]. unfold at_bus. cbn [Nat.eqb]. destruct (k_branch cl); reflexivity.
    + destruct (String.eqb (k_name cl) "Store"); destruct (String.eqb_spec (k_name cl) "StorageUnit"); try congruence; reflexivity.
  - apply total_zero. intros cl _. destruct (String.eqb_spec (k_name cl) "Store") as [->|].
    + destruct (String.eqb_spec c "Store"); [contradiction|]. reflexivity.
    + destruct (String.eqb_spec (k_name cl) "StorageUnit") as [->|]; [|reflexivity]. destruct (String.eqb_spec c "StorageUnit"); [contradiction|]. reflexivity.
Qed.
(* expansion *)
Lemma expanded_value r cs c k x : sized c -> a_round r = None -> a_across r = false -> NoDup (map k_name cs) -> In ((c, k), x) (expanded_capacity r cs) ->
  x == let o := group_total r cs (counted nom_opt r) c k in let i := group_total r cs (counted nom r) c k in if Qlt_le_dec (Qabs i) (Qabs o) then o - i else 0.
Proof.
  intros SZ R AC ND I. unfold CapfacModel.expanded_capacity in I. apply in_map_iff in I. destruct I as [[ck o] [E I]]. cbn [fst snd] in E. injection E as -> <-.
  set (po := capacity_func max_hours efficiency nom_opt (a_at_port r) false). set (pi := capacity_func max_hours efficiency nom (a_at_port r) false).
  assert (O : o == group_total r cs (counted nom_opt r) c k).
  { rewrite <- capacity_parts by auto. apply (find_key_in _ _ _ (aggregate_nodup po r cs ND)) in I. apply entry_value in I; [|exact AC|exact ND]. unfold rounded in I. rewrite R in I. exact I. }
  assert (J : match find_key (c, k) (installed_capacity false r cs) with Some q => q | None => 0 end == group_total r cs (counted nom r) c k).
  { rewrite <- capacity_parts by auto. destruct (find_key (c, k) (installed_capacity false r cs)) as [q|] eqn:F.
    - apply entry_value in F; [|exact AC|exact ND]. unfold rounded in F. rewrite R in F. exact F.
    - symmetry. apply (entry_missing pi r cs c k R AC F). }
  cbv zeta. revert J. generalize (match find_key (c, k) (installed_capacity false r cs) with Some q => q | None => 0 end). intros i J.
  assert (AO : Qabs o == Qabs (group_total r cs (counted nom_opt r) c k)) by now rewrite O. assert (AI : Qabs i == Qabs (group_total r cs (counted nom r) c k)) by now rewrite J.
  destruct (Qlt_le_dec _ _) as [L|L]; destruct (Qle_bool (Qabs o) (Qabs i)) eqn:B; cbn [negb].
  - apply Qle_bool_iff in B. lra.
  - lra.
  - reflexivity.
  - exfalso. assert (Qabs o <= Qabs i) as B' by lra. apply Qle_bool_iff in B'. congruence.
Qed.
Lemma expanded_there r cs c k : sized c -> a_round r = None -> a_across r = false -> NoDup (map k_name cs) -> ~ group_total r cs (counted nom_opt r) c k == 0 -> exists x, In ((c, k), x) (expanded_capacity r cs).
Proof.
  intros SZ R AC ND NZ. set (po := capacity_func max_hours efficiency nom_opt (a_at_port r) false).
  destruct (find_key (c, k) (optimal_capacity false r cs)) as [o|] eqn:F; [|exfalso; apply NZ; rewrite <- capacity_parts by auto; apply (entry_missing po r cs c k R AC F)].
  apply find_key_some in F. eexists. unfold CapfacModel.expanded_capacity. apply in_map_iff. exists ((c, k), o). split; [reflexivity|exact F].
Qed.
(* costs of expansion *)
Lemma capex_parts tab r cs c k : sized c -> parts (capex_func cost tab) r cs c k == group_total r cs (priced tab) c k.
Proof. intros SZ. apply parts_total. intros cl a p _ E _ _ _. unfold val_of, capex_func, CapfacSpec.priced. rewrite E. apply sized_nominal in SZ. rewrite SZ. reflexivity. Qed.
Lemma find_parts func r cs c k : a_round r = None -> a_across r = false -> NoDup (map k_name cs) -> match find_key (c, k) (aggregate_components func r cs) with Some q => q | None => 0 end == parts func r cs c k.
Proof.
  intros R AC ND. destruct (find_key (c, k) (aggregate_components func r cs)) as [q|] eqn:F.
  - apply entry_value in F; [|exact AC|exact ND]. unfold rounded in F. rewrite R in F. exact F.
  - symmetry. apply (entry_missing func r cs c k R AC F).
Qed.
Lemma expanded_capex_value r cs c k : sized c -> a_round r = None -> a_across r = false -> NoDup (map k_name cs) ->
  reported c k (expanded_capex nom nom_opt cost r cs) == group_total r cs (fun cl a p => (nom_opt (k_name cl) (s_name a) - nom (k_name cl) (s_name a)) * cost (k_name cl) (s_name a)) c k.
Proof.
  intros SZ R AC ND. transitivity (parts (capex_func cost nom_opt) r cs c k - parts (capex_func cost nom) r cs c k).
  - unfold expanded_capex, sub_series, reported. rewrite total_map. cbn [fst snd]. unfold capex, installed_capex.
    set (lo := aggregate_components (capex_func cost nom_opt) r cs). set (li := aggregate_components (capex_func cost nom) r cs).
    rewrite (pick pair_eqb pair_eqb_ok (c, k) (fun k0 => match find_key k0 lo with Some q => q | None => 0 end - match find_key k0 li with Some q => q | None => 0 end)).
    + unfold lo, li. rewrite !find_parts by auto. reflexivity.
    + apply distinct_NoDup. apply pair_eqb_ok.
    + destruct (find_key (c, k) lo) as [q|] eqn:F1; [left|destruct (find_key (c, k) li) as [q|] eqn:F2; [left|right; reflexivity]].
      * apply distinct_In; [apply pair_eqb_ok|]. apply in_or_app. left. apply find_key_some in F1. apply (in_map fst _ _ F1).
      * apply distinct_In; [apply pair_eqb_ok|]. apply in_or_app. right. apply find_key_some in F2. apply (in_map fst _ _ F2).
  - rewrite !capex_parts by auto. assert (E : group_total r cs (priced nom_opt) c k == group_total r cs (priced nom) c k + group_total r cs (fun cl a p => (nom_opt (k_name cl) (s_name a) - nom (k_name cl) (s_name a)) * cost (k_name cl) (s_name a)) c k).
    { rewrite <- group_plus. apply group_ext. intros cl a p _ _ _ _ _. unfold CapfacSpec.priced. ring. }
    rewrite E. ring.
Qed.

(* curtailment *)
Lemma clip_low_max q : clip_low q == Qmax 0 q.
Proof. exact (directed_share Supply q). Qed.
Lemma curtailment_parts r cs c k : In c ["Generator"; "StorageUnit"] -> parts (curtailment_func nt wg ws wo nom_opt p_max_pu (a_time r)) r cs c k == group_total r cs (lost (a_time r)) c k.
Proof.
  intros IC. apply parts_total. intros cl a p _ E _ _ _. unfold val_of, curtailment_func. replace (existsb (String.eqb (k_name cl)) ["Generator"; "StorageUnit"]) with true.
  2:{ rewrite E. destruct IC as [<-|[<-|[]]]; reflexivity. }
  rewrite agg_total. unfold CapfacSpec.lost. apply total_ext. intros t _. rewrite clip_low_max. apply Qmult_comp; [|reflexivity]. apply (coef_per nt wg ws wo (a_time r) (k_name cl) t).
Qed.
Lemma curtailment_value r cs c k : a_round r = None -> a_across r = false -> In c ["Generator"; "StorageUnit"] -> reported c k (curtailment r cs) == group_total r cs (lost (a_time r)) c k.
Proof. intros R AC IC. unfold CapfacModel.curtailment. rewrite aggregate_parts by auto. now apply curtailment_parts. Qed.
(* delivered plus curtailed is available *)
Lemma curtailment_balance r cs c k : a_round r = None -> a_across r = false -> In c ["Generator"; "StorageUnit"] ->
  (forall cl a t, In cl cs -> k_name cl = c -> In a (k_comps cl) -> (t < nt)%nat -> s_p a 0 t <= p_max_pu c (s_name a) t * nom_opt c (s_name a)) ->
  reported c k (curtailment r cs) + group_total r cs (fun cl a p => total (fun t => per_time nt (a_time r) (class_weight wg ws wo c) t * s_p a 0 t) (seq 0 nt)) c k ==
  group_total r cs (fun cl a p => potential nt (per_time nt (a_time r) (class_weight wg ws wo c)) p_max_pu nom_opt cl a) c k.
Proof.
  intros R AC IC B. rewrite curtailment_value by auto. rewrite <- group_plus. apply group_ext. intros cl a p Icl E Ia _ _. unfold CapfacSpec.lost, potential. rewrite E, <- total_plus. apply total_ext. intros t It. apply in_seq in It.
  rewrite Q.max_r by (specialize (B cl a t Icl E Ia ltac:(lia)); lra). ring.
Qed.
Lemma curtailment_nonneg r cs c k : a_round r = None -> a_across r = false -> In c ["Generator"; "StorageUnit"] -> (forall t, 0 <= wg t /\ 0 <= ws t /\ 0 <= wo t) -> 0 <= reported c k (curtailment r cs).
Proof.
  intros R AC IC W. rewrite curtailment_value by auto. rewrite <- (group_zero r cs c k). apply group_le. intros cl a p _ _ _ _ _. unfold CapfacSpec.lost. apply total_nonneg. intros t _. apply Qmult_le_0_compat; [|apply Q.le_max_l].
  apply per_nonneg. now apply class_weight_nonneg.
Qed.

(* capacity factor *)
Lemma operation_used cl a t : Qabs (get_operation energy_of cl a t) = used energy_of cl a t.
Proof. unfold get_operation, used. destruct (k_branch cl); [now rewrite andb_false_r|]. now rewrite andb_true_r. Qed.
Lemma operation_parts r cs c k : parts (operation_func nt wg ws wo energy_of (a_time r)) r cs c k == group_total r cs (use (a_time r)) c k.
Proof.
  apply parts_total. intros cl a p _ E _ _ _. unfold val_of, operation_func. rewrite agg_total. unfold CapfacSpec.use. apply total_ext. intros t _. rewrite operation_used. apply Qmult_comp; [|reflexivity]. apply (coef_per nt wg ws wo (a_time r) (k_name cl) t).
Qed.
Lemma factor_is r cs c k q : sized c -> a_across r = false -> NoDup (map k_name cs) -> In ((c, k), Some q) (capacity_factor r cs) ->
  ~ rounded r (group_total r cs (counted nom_opt r) c k) == 0 /\ q == rounded r (group_total r cs (use (a_time r)) c k) / rounded r (group_total r cs (counted nom_opt r) c k).
Proof.
  intros SZ AC ND I. unfold CapfacModel.capacity_factor in I. apply in_map_iff in I. destruct I as [[ck x] [E I]]. cbn [fst snd] in E. unfold divide in E.
  injection E as -> E. destruct (find_key (c, k) (optimal_capacity false r cs)) as [y|] eqn:F; [|discriminate]. destruct (Qeq_bool y 0) eqn:Z; [discriminate|]. injection E as <-.
  apply entry_value in F; [|exact AC|exact ND]. rewrite (rounded_proper r _ _ (capacity_parts nom_opt r cs c k SZ)) in F.
  apply (find_key_in _ _ _ (aggregate_nodup (operation_func nt wg ws wo energy_of (a_time r)) r cs ND)) in I. apply entry_value in I; [|exact AC|exact ND]. rewrite (rounded_proper r _ _ (operation_parts r cs c k)) in I.
  split; [rewrite <- F; intros Y; apply Qeq_bool_iff in Y; congruence|]. now rewrite I, F.
Qed.
Lemma per_sum_one c : 0 < total (class_weight wg ws wo c) (seq 0 nt) -> total (fun t => per_time nt Mean (class_weight wg ws wo c) t) (seq 0 nt) == 1.
Proof.
  intros P. rewrite (total_ext _ (fun t => / total (class_weight wg ws wo c) (seq 0 nt) * class_weight wg ws wo c t)) by (intros; cbn [per_time]; unfold Qdiv; ring). rewrite total_scale. field. lra.
Qed.
Lemma factor_range r cs c k q : sized c -> a_across r = false -> a_at_port r = false -> a_time r = Mean -> NoDup (map k_name cs) -> (forall t, 0 <= wg t /\ 0 <= ws t /\ 0 <= wo t) ->
  0 < total (class_weight wg ws wo c) (seq 0 nt) -> within_capacity nt nom_opt energy_of r cs c k -> In ((c, k), Some q) (capacity_factor r cs) -> 0 <= q <= 1.
Proof.
  intros SZ AC AP AT ND W P WC I. destruct (factor_is r cs c k q SZ AC ND I) as [NZ E].
  assert (U0 : 0 <= group_total r cs (use (a_time r)) c k).
  { rewrite <- (group_zero r cs c k). apply group_le. intros cl a p _ _ _ _ _. unfold CapfacSpec.use. apply total_nonneg. intros t _. apply Qmult_le_0_compat; [apply per_nonneg; now apply class_weight_nonneg|]. unfold used. apply Qabs_nonneg. }
  assert (UC : group_total r cs (use (a_time r)) c k <= group_total r cs (counted nom_opt r) c k).
  { apply group_le. intros cl a p Icl En Ia Ip Ch. unfold CapfacSpec.use, CapfacSpec.counted. rewrite AP, Qmult_1_r, AT, En. rewrite AP in Ip. destruct Ip as [<-|[]].
    rewrite <- (Qmult_1_l (nom_opt c (s_name a))), <- (per_sum_one c P). rewrite (Qmult_comm (total _ _)), <- total_scale. apply total_le. intros t It. apply in_seq in It.
    pose proof (WC cl a t Icl En Ia Ch ltac:(lia)) as B. pose proof (per_nonneg nt Mean (class_weight wg ws wo c) t (class_weight_nonneg wg ws wo W c)) as PN.
    rewrite (Qmult_comm (nom_opt c (s_name a))). assert (0 <= per_time nt Mean (class_weight wg ws wo c) t * (nom_opt c (s_name a) - used energy_of cl a t)) by (apply Qmult_le_0_compat; [exact PN|lra]). lra. }
  pose proof (rounded_zero r _ U0) as R0. pose proof (rounded_mono r _ _ UC) as R1. rewrite E.
  assert (PY : 0 < rounded r (group_total r cs (counted nom_opt r) c k)) by (destruct (Qlt_le_dec 0 (rounded r (group_total r cs (counted nom_opt r) c k))) as [|B]; [auto|exfalso; apply NZ; lra]).
  split; [apply Qle_shift_div_l|apply Qle_shift_div_r]; auto; lra.
Qed.
End T.

(* only classes which have the quantity are reported *)
Lemma values_from func r cs c k x : a_across r = false -> In ((c, k), x) (aggregate_components func r cs) -> exists cl p, In cl cs /\ k_name cl = c /\ func cl p <> None.
Proof.
  intros AC I. unfold aggregate_components in I. rewrite AC in I.
  assert (J : exists y, In ((c, k), y) (all_values func r cs)).
  { unfold apply_options in I. assert (H : In ((c, k), x) (match a_round r with Some n => map (fun e => (fst e, round_to n (snd e))) (all_values func r cs) | None => all_values func r cs end)) by (destruct (a_drop r); [apply filter_In in I; tauto|exact I]).
    destruct (a_round r); [|eauto]. apply in_map_iff in H. destruct H as [[ck y] [E H]]. cbn [fst snd] in E. injection E as -> _. eauto. }
  destruct J as [y J]. unfold all_values in J. apply in_flat_map in J. destruct J as [cl [Icl J]]. destruct (class_values func r cl) as [l|] eqn:C; [|destruct J]. apply in_map_iff in J. destruct J as [e [E J]]. injection E as <- <- <-.
  unfold class_values in C. destruct (empty (filter _ _)) eqn:EM; [discriminate|]. clear C.
  destruct (filter (fun v => negb (empty v)) (map (port_values func r cl) (if a_at_port r then seq 0 (k_ports cl) else [O]))) as [|v vs] eqn:F; [discriminate EM|].
  assert (V : In v (filter (fun v => negb (empty v)) (map (port_values func r cl) (if a_at_port r then seq 0 (k_ports cl) else [O])))) by (rewrite F; left; reflexivity).
  apply filter_In in V. destruct V as [V NE]. apply in_map_iff in V. destruct V as [p [<- _]]. exists cl, p. split; [exact Icl|]. split; [reflexivity|]. intros N. unfold port_values in NE. rewrite N in NE. discriminate NE.
Qed.
Lemma curtailment_only nt wg ws wo nom_opt p_max_pu r cs c k x : a_across r = false -> In ((c, k), x) (curtailment nt wg ws wo nom_opt p_max_pu r cs) -> In c ["Generator"; "StorageUnit"].
Proof.
  intros AC I. apply values_from in I; [|exact AC]. destruct I as [cl [p [_ [<- N]]]]. unfold curtailment_func in N. destruct (existsb _ _) eqn:E; [|contradiction].
  apply existsb_exists in E. destruct E as [y [Iy E]]. apply String.eqb_eq in E. now subst.
Qed.

(* counterexamples *)
Definition args_at (at_port : bool) (agg : time) (rnd : option nat) : args :=
  {| a_dir := Balance; a_time := agg; a_at_port := at_port; a_bus_ok := fun _ => true; a_carrier_ok := fun _ => true; a_key := by_carrier; a_across := false; a_round := rnd; a_drop := Some true |}.
Definition plant : list class :=
  [{| k_name := "Generator"; k_branch := false; k_ports := 1; k_comps := [series "g" "gas" "a" 1 [4; 6]; series "w" "wind" "a" 1 [3; 1]] |};
   {| k_name := "StorageUnit"; k_branch := false; k_ports := 1; k_comps := [series "s" "phs" "a" 1 [-(5); 5]] |};
   {| k_name := "Link"; k_branch := true; k_ports := 2; k_comps := [{| s_name := "k"; s_carrier := "dc"; s_bus := fun p => nth p ["a"; "b"] ""; s_sign := 1; s_active := true; s_p := fun p t => nth t (nth p [[4; 2]; [-(2); -(1)]] []) 0 |}] |}].
Definition size10 (c nm : string) : Q := 10.
Definition size4 (c nm : string) : Q := 4.
Definition half_eff (c : string) (p : nat) : option (string -> Q) := if String.eqb c "Link" && Nat.eqb p 1 then Some (fun _ => 1 # 2) else None.
Definition no_energy (nm : string) (t : nat) : Q := 0.
Definition full (c nm : string) (t : nat) : Q := 1.
Lemma constant_counted : exists nt wg ws wo nom_opt pmax r cs, (forall c nm t t', pmax c nm t = pmax c nm t') /\ a_round r = None /\ a_across r = false /\
  reported "Generator" "gas" (curtailment nt wg ws wo nom_opt pmax r cs) == 10 /\ reported "StorageUnit" "phs" (curtailment nt wg ws wo nom_opt pmax r cs) == 20.
Proof.
  exists 2%nat, ones, ones, ones, size10, full, (args_at false Sum None), plant. repeat split; reflexivity.
Qed.
Lemma factor_ports : exists nt wg ws wo nom_opt hours eff energy_of r cs q, a_round r = None /\ a_across r = false /\ a_at_port r = true /\ a_time r = Mean /\ (forall t, 0 <= wg t /\ 0 <= ws t /\ 0 <= wo t) /\
  within_capacity nt nom_opt energy_of r cs "Link" "dc" /\ In (("Link", "dc"), Some q) (capacity_factor nt wg ws wo nom_opt hours eff energy_of r cs) /\ q < 0.
Proof.
  exists 2%nat, ones, ones, ones, size10, (fun _ => 1), half_eff, no_energy, (args_at true Mean None), plant. eexists. split; [reflexivity|]. split; [reflexivity|]. split; [reflexivity|]. split; [reflexivity|].
  split; [intros t; unfold ones; lra|]. split; [|split; [right; right; right; left; reflexivity|vm_compute; reflexivity]].
  intros cl a t [<-|[<-|[<-|[]]]] E; try discriminate E. intros [<-|[]] _ L. destruct t as [|[|t]]; [vm_compute; discriminate|vm_compute; discriminate|lia].
Qed.

Lemma columns_read nt n r cs c k : sized c -> a_round r = None -> a_across r = false ->
  reported c k (net_optimal n r cs) == group_total r cs (counted (col_efficiency n) (col_nom_opt n) r) c k /\
  reported c k (net_installed n r cs) == group_total r cs (counted (col_efficiency n) (col_nom n) r) c k /\
  (In c ["Generator"; "StorageUnit"] ->
    reported c k (net_curtailment nt n r cs) == group_total r cs (lost nt (col_generators n) (col_stores n) (col_objective n) (col_nom_opt n) (col_p_max_pu n) (a_time r)) c k) /\
  (NoDup (map k_name cs) -> forall q, In ((c, k), Some q) (net_factor nt n r cs) ->
    q == group_total r cs (use nt (col_generators n) (col_stores n) (col_objective n) (col_energy n) (a_time r)) c k / group_total r cs (counted (col_efficiency n) (col_nom_opt n) r) c k).
Proof.
  intros SZ R A. unfold net_optimal, net_installed, net_curtailment, net_factor.
  split; [exact (optimal_value (col_nom_opt n) (col_max_hours n) (col_efficiency n) r cs c k SZ R A)|].
  split; [exact (installed_value (col_nom n) (col_max_hours n) (col_efficiency n) r cs c k SZ R A)|]. split.
  - intros I. exact (curtailment_value nt (col_generators n) (col_stores n) (col_objective n) (col_nom_opt n) (col_p_max_pu n) r cs c k R A I).
  - intros N q I. destruct (factor_is nt (col_generators n) (col_stores n) (col_objective n) (col_nom_opt n) (col_max_hours n) (col_efficiency n) (col_energy n) r cs c k q SZ A N I) as [_ E]. unfold rounded in E. rewrite R in E. exact E.
Qed.
