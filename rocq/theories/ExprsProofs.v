From Coq Require Import List String Bool QArith Qminmax Qabs Arith Lqa Lia.
From Verif Require Import LinModel StatsModel StatsSpec BalanceProofs StatsProofs MarketModel MarketSpec MarketProofs CapfacModel CapfacSpec CapfacProofs ExprsModel ExprsSpec.
Import ListNotations.
Open Scope string_scope.
Open Scope list_scope.
Open Scope Q_scope.

(* expressions at a solution *)
Section X.
Variable x : sol.
Lemma worth_scale q e : worth x (scale q e) == q * worth x e.
Proof.
  unfold worth, scale. cbn [fst snd]. rewrite total_map, Qmult_plus_distr_r, <- total_scale. cbn [fst snd]. apply Qplus_comp; [|reflexivity]. apply total_ext. intros [q0 v] _. cbn [fst snd]. destruct v; ring.
Qed.
Lemma worth_esum l : worth x (esum l) == total (worth x) l.
Proof.
  induction l as [|e l IH]; [reflexivity|]. cbn [BalanceSpec.total fold_right]. fold (total (worth x) l). rewrite <- IH. unfold worth, esum. cbn [map List.concat fst snd]. rewrite total_app.
  unfold sumq. cbn [fold_right]. ring.
Qed.
Lemma worth_minus a b : worth x (minus a b) == worth x a - worth x b.
Proof. unfold minus. rewrite worth_esum. cbn [BalanceSpec.total fold_right]. rewrite worth_scale. ring. Qed.
Definition price_of {K} (l : list (K * expr)) : list (K * Q) := map (fun e => (fst e, worth x (snd e))) l.
Lemma group_worth {K} (eqb : K -> K -> bool) (ok : forall a b, eqb a b = true <-> a = b) k (l : list (K * expr)) : at_key eqb k (price_of (group_expr eqb l)) == at_key eqb k (price_of l).
Proof.
  rewrite <- (at_key_group eqb ok k (price_of l)). unfold at_key, price_of, group_expr, group_sum. rewrite !total_map. cbn [fst snd]. rewrite map_map. cbn [fst].
  apply total_ext. intros k' _. destruct (eqb k k'); [|reflexivity]. rewrite worth_esum, sumq_total, !total_map, !total_filter, total_map. reflexivity.
Qed.
Section F.
Variable func : class -> nat -> option (comp -> expr).
Definition func_at (c : class) (port : nat) : option (comp -> Q) := option_map (fun f a => worth x (f a)) (func c port).
Lemma port_worth r c port k : at_key String.eqb k (price_of (port_exprs func r c port)) == total (fun a => part func_at r c k a port) (k_comps c).
Proof.
  unfold port_exprs, part, val_of, chosen, func_at. destruct (func c port) as [val|]; cbn [option_map].
  2:{ symmetry. apply total_zero. intros a _. destruct (_ && _); reflexivity. }
  destruct (a_key r) as [key|].
  - rewrite group_worth by apply String.eqb_eq. unfold at_key, price_of. rewrite total_map, total_flat, total_filter. apply total_ext. intros a _.
    destruct (s_active a && a_bus_ok r (s_bus a port) && a_carrier_ok r (s_carrier a)); [|reflexivity]. cbn [andb].
    destruct (key a port) as [k'|]; [|reflexivity]. cbn [BalanceSpec.total fold_right fst snd]. destruct (String.eqb k k'); ring.
  - unfold at_key, price_of. rewrite !total_map, total_filter. cbn [fst snd]. apply total_ext. intros a _.
    destruct (s_active a && a_bus_ok r (s_bus a port) && a_carrier_ok r (s_carrier a)); [|reflexivity]. cbn [andb]. destruct (String.eqb k (s_name a)); reflexivity.
Qed.
Lemma class_worth r c k : at_key String.eqb k (price_of (class_exprs func r c)) == total (fun a => total (part func_at r c k a) (ports r c)) (k_comps c).
Proof.
  unfold class_exprs. rewrite group_worth by apply String.eqb_eq. fold (ports r c). unfold price_of. rewrite concat_map, at_key_concat, map_map, total_map.
  rewrite (total_ext _ (fun p => total (fun a => part func_at r c k a p) (k_comps c))) by (intros; apply port_worth). apply total_swap.
Qed.
Lemma all_worth r cs c k : reported c k (at_solution x (all_exprs func r cs)) == parts func_at r cs c k.
Proof.
  unfold reported, all_exprs, parts, at_solution. rewrite total_map, total_flat. cbn [fst snd]. apply total_ext. intros cl _. rewrite total_map. cbn [fst snd]. unfold pair_eqb. cbn [fst snd].
  destruct (String.eqb c (k_name cl)) eqn:E; cbn [andb].
  - rewrite <- class_worth. unfold at_key, price_of. rewrite total_map. reflexivity.
  - apply total_zero. reflexivity.
Qed.
Lemma expressions_worth r cs c k : a_across r = false -> reported c k (at_solution x (expressions func r cs)) == parts func_at r cs c k.
Proof. intros AC. unfold expressions. rewrite AC. apply all_worth. Qed.
Lemma across_worth r cs k : a_across r = true -> reported "" k (at_solution x (expressions func r cs)) == total (fun cl => total (fun a => total (part func_at r cl k a) (ports r cl)) (k_comps cl)) cs.
Proof.
  intros AC. unfold expressions. rewrite AC. change (reported "" k (at_solution x (group_expr pair_eqb ?l))) with (at_key pair_eqb ("", k) (price_of (group_expr pair_eqb l))).
  rewrite group_worth by apply pair_eqb_ok. unfold at_key, price_of. rewrite !total_map. unfold all_exprs. rewrite total_flat. apply total_ext. intros cl _. rewrite <- class_worth, total_map.
  unfold at_key, price_of. rewrite total_map. cbn [fst snd]. unfold pair_eqb. cbn [fst snd]. change (String.eqb "" "") with true. cbn [andb]. reflexivity.
Qed.
End F.
End X.

(* two aggregations of the same parts *)
Lemma parts_agree f g r cs c k : (forall cl a p, In cl cs -> k_name cl = c -> In a (k_comps cl) -> In p (if a_at_port r then seq 0 (k_ports cl) else [O]) -> chosen r k a p = true -> val_of f cl a p == val_of g cl a p) ->
  parts f r cs c k == parts g r cs c k.
Proof. intros H. rewrite (parts_total f r cs (fun cl a p => val_of g cl a p) c k H). symmetry. apply parts_total. intros. reflexivity. Qed.
Lemma parts_none f r cs c k : (forall cl p, In cl cs -> k_name cl = c -> f cl p = None) -> parts f r cs c k == 0.
Proof. intros H. rewrite (parts_total f r cs (fun _ _ _ => 0) c k); [apply group_zero|]. intros cl a p I E _ _ _. unfold val_of. now rewrite H. Qed.
Lemma group_scale q r cs f c k : group_total r cs (fun cl a p => q * f cl a p) c k == q * group_total r cs f c k.
Proof.
  unfold group_total. rewrite <- total_scale. apply total_ext. intros cl _. destruct (String.eqb c (k_name cl)); [|ring]. rewrite <- total_scale. apply total_ext. intros a _. rewrite <- total_scale. apply total_ext. intros p _.
  destruct (chosen r k a p); ring.
Qed.

Section T.
Variable x : sol.
Variable nt : nat.
Variables wg ws wo : nat -> Q.
Variable p_set : string -> nat -> Q.
Variable efficiency_t : string -> nat -> option (string -> nat -> Q).
Notation over_time := (over_time nt wg ws wo).
Notation per := (fun agg c => per_time nt agg (class_weight wg ws wo c)).

Lemma over_time_worth agg cl f : worth x (over_time agg cl f) == total (fun t => per agg (k_name cl) t * worth x (f t)) (seq 0 nt).
Proof.
  unfold ExprsModel.over_time. rewrite worth_esum, total_map. apply total_ext. intros t _. rewrite worth_scale. apply Qmult_comp; [|reflexivity].
  exact (coef_per nt wg ws wo agg (k_name cl) t).
Qed.
Lemma seq_lt t : In t (seq 0 nt) -> (t < nt)%nat.
Proof. intros I. apply in_seq in I. lia. Qed.
(* the operational variable is the power at the first port *)
Lemma operational_power cl cs : powers_written x nt p_set efficiency_t cs -> In cl cs -> k_name cl <> "Store" -> exists op, operational p_set (k_name cl) = Some op /\
  forall a t, In a (k_comps cl) -> (t < nt)%nat -> worth x (op (s_name a) t) == s_p a 0 t.
Proof.
  intros [EL PW] I NS. destruct (PW cl I) as [K [_ [P0 [_ W]]]]. destruct cl as [nm br pt cp]. cbn [k_name k_comps k_ports] in *.
  repeat (destruct K as [<-|K]); try contradiction; (eexists; split; [reflexivity|]); intros a t Ia Lt; rewrite (W a O t Ia P0 Lt); unfold worth, power_of; cbn [fst snd BalanceSpec.total fold_right variable];
  cbn; ring.
Qed.
(* what a port gives to its bus *)
Lemma port_power cl cs a p t : powers_written x nt p_set efficiency_t cs -> In cl cs -> k_name cl <> "Store" -> In a (k_comps cl) -> (p < k_ports cl)%nat -> (t < nt)%nat -> s_bus a p <> "" ->
  injected cl a p t == port_efficiency_t efficiency_t cl p a t * (if k_branch cl then 1 else s_sign a) * s_p a 0 t.
Proof.
  intros [EL PW] I NS Ia Lp Lt B. destruct (PW cl I) as [K [BR [P0 [ONE W]]]]. unfold injected, port_efficiency_t. destruct (k_branch cl) eqn:KB.
  2:{ specialize (ONE eq_refl). assert (p = O) as -> by lia. ring. }
  rewrite (W a p t Ia Lp Lt), (W a O t Ia P0 Lt). assert (KB' : In (k_name cl) ["Line"; "Transformer"; "Link"]) by (apply BR; reflexivity).
  destruct p as [|p].
  - destruct KB' as [<-|[<-|[<-|[]]]]; unfold power_of; cbn; ring.
  - destruct KB' as [E|[E|[E|[]]]].
    + destruct (efficiency_t (k_name cl) (S p)) eqn:F; [exfalso; assert (H : k_name cl = "Link") by (apply (EL _ (S p)); congruence); rewrite <- E in H; discriminate|]. rewrite <- E. unfold power_of. cbn. ring.
    + destruct (efficiency_t (k_name cl) (S p)) eqn:F; [exfalso; assert (H : k_name cl = "Link") by (apply (EL _ (S p)); congruence); rewrite <- E in H; discriminate|]. rewrite <- E. unfold power_of. cbn. ring.
    + unfold power_of. rewrite <- E. cbn [string_dec]. change (Nat.eqb (S p) 0) with false. change (Nat.eqb 0 0) with true. cbv iota. destruct (string_dec (s_bus a (S p)) "") as [X|_]; [contradiction|].
      cbn. destruct (efficiency_t "Link" (S p)); ring.
Qed.
Lemma port_lt r cl p : (0 < k_ports cl)%nat -> In p (if a_at_port r then seq 0 (k_ports cl) else [O]) -> (p < k_ports cl)%nat.
Proof. intros P I. destruct (a_at_port r); [apply in_seq in I; lia|]. destruct I as [<-|[]]. exact P. Qed.

(* powers *)
Lemma energy_val cl cs agg d a p : powers_written x nt p_set efficiency_t cs -> In cl cs -> k_name cl <> "Store" -> In a (k_comps cl) ->
  val_of (func_at x (x_energy_func nt wg ws wo p_set efficiency_t d agg)) cl a p ==
  total (fun t => per agg (k_name cl) t * (let q := port_efficiency_t efficiency_t cl p a t * (if k_branch cl then 1 else s_sign a) in match d with Balance => q | Supply => clip_low q | Withdrawal => - clip_up q end * s_p a 0 t)) (seq 0 nt).
Proof.
  intros PW I NS Ia. destruct (operational_power cl cs PW I NS) as [op [E W]]. unfold val_of, func_at, x_energy_func. rewrite E. cbn [option_map]. rewrite over_time_worth. apply total_ext. intros t It.
  rewrite worth_scale, (W a t Ia (seq_lt t It)). reflexivity.
Qed.
Lemma balance_parts d agg cl a p : val_of (fun c port => Some (fun a => aggregate_time nt agg (weights wg ws wo (k_name c)) (fun t => directed d (power c a port t)))) cl a p ==
  total (fun t => per agg (k_name cl) t * share d (injected cl a p t)) (seq 0 nt).
Proof.
  unfold val_of. rewrite agg_total. apply total_ext. intros t _. fold (coef nt agg (weights wg ws wo (k_name cl)) t). rewrite coef_per. apply Qmult_comp; [reflexivity|].
  assert (P : power cl a p t == injected cl a p t) by (unfold power, injected; destruct (k_branch cl); ring).
  unfold directed, share. destruct d; [exact P| |].
  - rewrite clip_low_max. now rewrite P.
  - unfold clip_up. destruct (Qle_bool 0 (power cl a p t)) eqn:L.
    + apply Qle_bool_iff in L. rewrite P in L. rewrite Q.max_l by lra. ring.
    + assert (power cl a p t < 0) by (apply Qnot_le_lt; intros H; apply Qle_bool_iff in H; congruence). rewrite P in *. rewrite Q.max_r by lra. ring.
Qed.
Lemma energy_as r cs : energy_balance nt wg ws wo r cs = aggregate_components (fun c port => Some (fun a => aggregate_time nt (a_time r) (weights wg ws wo (k_name c)) (fun t => directed (a_dir r) (power c a port t)))) r cs.
Proof. reflexivity. Qed.
Lemma statistic_parts r cs c k : a_round r = None -> a_across r = false -> reported c k (energy_balance nt wg ws wo r cs) ==
  group_total r cs (fun cl a p => total (fun t => per (a_time r) (k_name cl) t * share (a_dir r) (injected cl a p t)) (seq 0 nt)) c k.
Proof. intros R AC. rewrite energy_as, aggregate_parts by auto. apply parts_total. intros. apply balance_parts. Qed.
Notation x_energy := (x_energy_balance nt wg ws wo p_set efficiency_t).
Lemma energy_value r cs c k : a_round r = None -> a_across r = false -> a_dir r = Balance -> c <> "Store" -> powers_written x nt p_set efficiency_t cs -> connected r cs c k ->
  reported c k (at_solution x (x_energy r cs)) == reported c k (energy_balance nt wg ws wo r cs).
Proof.
  intros R AC D NS PW CN. rewrite statistic_parts by auto. unfold x_energy_balance. rewrite expressions_worth by auto. rewrite D. apply parts_total. intros cl a p I E Ia Ip CH. assert (NS' : k_name cl <> "Store") by congruence.
  rewrite (energy_val cl cs) by auto. destruct (proj2 PW cl I) as [_ [_ [P0 _]]]. pose proof (port_lt r cl p P0 Ip) as Lp. apply total_ext. intros t It. cbn [share]. rewrite (port_power cl cs a p t) by (auto using seq_lt; eapply CN; eauto). reflexivity.
Qed.
Lemma clip_up_neg q : 0 <= q -> clip_up q == 0.
Proof. intros H. unfold clip_up. apply Qle_bool_iff in H. now rewrite H. Qed.
Lemma clip_up_low q : clip_up q + clip_low q == q.
Proof. unfold clip_up, clip_low. destruct (Qle_bool 0 q) eqn:A, (Qle_bool q 0) eqn:B; try ring.
  - apply Qle_bool_iff in A, B. lra.
  - exfalso. assert (~ 0 <= q) by (intros H; apply Qle_bool_iff in H; congruence). assert (~ q <= 0) by (intros H'; apply Qle_bool_iff in H'; congruence). lra.
Qed.
Lemma parts_dir f d r cs c k : parts f (with_dir d r) cs c k = group_total r cs (val_of f) c k.
Proof. reflexivity. Qed.
(* supply less withdrawal is the balance, whatever the solution *)
Lemma energy_split r cs c k : a_across r = false ->
  reported c k (at_solution x (x_energy (with_dir Supply r) cs)) - reported c k (at_solution x (x_energy (with_dir Withdrawal r) cs)) == reported c k (at_solution x (x_energy (with_dir Balance r) cs)).
Proof.
  intros AC. unfold x_energy_balance. rewrite !expressions_worth by exact AC. cbn [a_dir a_time with_dir].
  set (F d := func_at x (x_energy_func nt wg ws wo p_set efficiency_t d (a_time r))).
  change (func_at x (x_energy_func nt wg ws wo p_set efficiency_t Supply (a_time r))) with (F Supply). change (func_at x (x_energy_func nt wg ws wo p_set efficiency_t Withdrawal (a_time r))) with (F Withdrawal).
  change (func_at x (x_energy_func nt wg ws wo p_set efficiency_t Balance (a_time r))) with (F Balance). rewrite !parts_dir.
  rewrite (group_ext r cs (val_of (F Supply)) (fun cl a p => val_of (F Balance) cl a p + val_of (F Withdrawal) cl a p) c k); [rewrite group_plus; unfold group_total; ring|].
  intros cl a p _ _ _ _ _. unfold F, val_of, func_at, x_energy_func. destruct (operational p_set (k_name cl)) as [op|]; cbn [option_map]; [|ring]. rewrite !over_time_worth, <- total_plus. apply total_ext. intros t _.
  rewrite !worth_scale. set (q := port_efficiency_t efficiency_t cl p a t * _). pose proof (clip_up_low q) as S. rewrite <- S at 2. ring.
Qed.
(* and what statistics report where nothing runs backwards *)
Lemma directed_value r cs c k : a_round r = None -> a_across r = false -> c <> "Store" -> powers_written x nt p_set efficiency_t cs -> connected r cs c k ->
  (forall cl a t, In cl cs -> k_name cl = c -> In a (k_comps cl) -> (t < nt)%nat -> 0 <= s_p a 0 t) ->
  reported c k (at_solution x (x_energy r cs)) == reported c k (energy_balance nt wg ws wo r cs).
Proof.
  intros R AC NS PW CN POS. rewrite statistic_parts by auto. unfold x_energy_balance. rewrite expressions_worth by auto. apply parts_total. intros cl a p I E Ia Ip CH. assert (NS' : k_name cl <> "Store") by congruence.
  rewrite (energy_val cl cs) by auto. destruct (proj2 PW cl I) as [_ [_ [P0 _]]]. pose proof (port_lt r cl p P0 Ip) as Lp. apply total_ext. intros t It. apply Qmult_comp; [reflexivity|].
  pose proof (port_power cl cs a p t PW I NS' Ia Lp (seq_lt t It) (CN cl a p I E Ia Lp CH)) as J. cbv zeta. set (q := port_efficiency_t efficiency_t cl p a t * (if k_branch cl then 1 else s_sign a)) in *. pose proof (POS cl a t I E Ia (seq_lt t It)) as NN.
  unfold share. destruct (a_dir r).
  - now rewrite J.
  - rewrite J. unfold clip_low. destruct (Qle_bool q 0) eqn:L.
    + apply Qle_bool_iff in L. rewrite Q.max_l by nra. ring.
    + assert (0 < q) by (apply Qnot_le_lt; intros H; apply Qle_bool_iff in H; congruence). rewrite Q.max_r by nra. reflexivity.
  - rewrite J. unfold clip_up. destruct (Qle_bool 0 q) eqn:L.
    + apply Qle_bool_iff in L. rewrite Q.max_l by nra. ring.
    + assert (q < 0) by (apply Qnot_le_lt; intros H; apply Qle_bool_iff in H; congruence). rewrite Q.max_r by nra. ring.
Qed.
End T.

Section C.
Variable x : sol.
Variable extendable : string -> string -> bool.
Variables nom nom_opt cost : string -> string -> Q.
Variable max_hours : string -> Q.
Variable efficiency : string -> nat -> option (string -> Q).
(* capacities *)
Lemma nominal_some c : sized c -> exists attr, nominal_of c = Some attr /\ forall nm, variable c attr O nm = Some (size_name c, O, nm).
Proof. unfold sized. intros I. repeat (destruct I as [<-|I]); try contradiction; (eexists; split; [reflexivity|intros nm; reflexivity]). Qed.
Lemma capacity_worth cl a attr : sizes_written x extendable nom nom_opt -> (forall nm, variable (k_name cl) attr O nm = Some (size_name (k_name cl), O, nm)) ->
  worth x (capacity_of extendable nom attr cl a) == nom_opt (k_name cl) (s_name a).
Proof. intros SW V. rewrite (SW (k_name cl) (s_name a)). unfold capacity_of. destruct (extendable (k_name cl) (s_name a)); unfold worth; cbn [fst snd BalanceSpec.total fold_right]; [rewrite V|]; ring. Qed.
Lemma any_ext cl c cs : some_extendable extendable cs c -> In cl cs -> k_name cl = c -> any_extendable extendable cl = true.
Proof. intros H I E. destruct (H cl I E) as [a [Ia X]]. unfold any_extendable. apply existsb_exists. exists a. split; [exact Ia|now rewrite E]. Qed.
Lemma no_ext cl c cs : none_extendable extendable cs c -> In cl cs -> k_name cl = c -> any_extendable extendable cl = false.
Proof. intros H I E. unfold any_extendable. apply not_true_is_false. intros X. apply existsb_exists in X. destruct X as [a [Ia X]]. rewrite E, (H cl a I E Ia) in X. discriminate. Qed.
Notation x_capacity := (x_capacity extendable nom max_hours efficiency).
Lemma capacity_func_agrees at_port storage cl a p : sizes_written x extendable nom nom_opt -> sized (k_name cl) -> any_extendable extendable cl = true ->
  val_of (func_at x (x_capacity_func extendable nom max_hours efficiency at_port storage)) cl a p == val_of (capacity_func max_hours efficiency nom_opt at_port storage) cl a p.
Proof.
  intros SW SZ AE. destruct (nominal_some _ SZ) as [attr [E V]]. pose proof (proj2 (sized_nominal _) SZ) as NA. unfold val_of, func_at, x_capacity_func, capacity_func. rewrite E, AE, NA. cbn [negb option_map].
  pose proof (capacity_worth cl a attr SW V) as CW. destruct (storage && String.eqb (k_name cl) "StorageUnit"); rewrite !worth_scale, CW; ring.
Qed.
Lemma storage_in storage cl cs : In cl (of_storage storage cs) -> In cl cs.
Proof.
  destruct storage; [|auto]. cbn [of_storage flat_map]. rewrite app_nil_r. intros I. apply in_app_iff in I. destruct I as [I|I]; apply filter_In in I; tauto.
Qed.
Lemma x_capacity_value storage r cs c k : a_round r = None -> a_across r = false -> sized c -> sizes_written x extendable nom nom_opt -> some_extendable extendable cs c ->
  reported c k (at_solution x (x_capacity true storage r cs)) == reported c k (optimal_capacity nom_opt max_hours efficiency storage r cs).
Proof.
  intros R AC SZ SW SE. unfold ExprsModel.x_capacity, CapfacModel.optimal_capacity, considered. rewrite expressions_worth, aggregate_parts by auto. apply parts_agree. intros cl a p I E _ _ _.
  apply capacity_func_agrees; [exact SW|now rewrite E|]. eapply any_ext; [exact SE| |exact E]. exact (storage_in _ _ _ I).
Qed.
(* without an extendable asset a class is left out *)
Lemma x_capacity_dropped storage r cs c k : a_across r = false -> none_extendable extendable cs c -> reported c k (at_solution x (x_capacity true storage r cs)) == 0.
Proof.
  intros AC NE. unfold ExprsModel.x_capacity, considered. rewrite expressions_worth by auto. apply parts_none. intros cl p I E. unfold func_at, x_capacity_func. destruct (nominal_of (k_name cl)); [|reflexivity].
  rewrite (no_ext cl c cs NE (storage_in _ _ _ I) E). reflexivity.
Qed.
(* investment costs *)
Notation x_capex := (x_capex extendable nom cost).
Lemma x_capex_value r cs c k : a_round r = None -> a_across r = false -> In c ["Generator"; "Link"; "StorageUnit"] -> sizes_written x extendable nom nom_opt -> some_extendable extendable cs c ->
  reported c k (at_solution x (x_capex true r cs)) == reported c k (capex nom_opt cost r cs).
Proof.
  intros R AC IC SW SE. assert (SZ : sized c) by (clear - IC; unfold sized; simpl in *; tauto). unfold ExprsModel.x_capex, CapfacModel.capex, considered. rewrite expressions_worth, aggregate_parts by auto. apply parts_agree. intros cl a p I E _ _ _.
  assert (NO : nominal_of (k_name cl) = Some "p_nom") by (rewrite E; destruct IC as [<-|[<-|[<-|[]]]]; reflexivity).
  assert (V : forall nm, variable (k_name cl) "p_nom" O nm = Some (size_name (k_name cl), O, nm)) by (intros nm; rewrite E; destruct IC as [<-|[<-|[<-|[]]]]; reflexivity).
  pose proof (proj2 (sized_nominal _) SZ) as NA. rewrite <- E in NA.
  unfold val_of, func_at, x_capex_func, capex_func. rewrite NO, NA, (any_ext cl c cs SE I E). change (String.eqb "p_nom" "p_nom") with true. cbn [negb andb option_map]. rewrite worth_scale, (capacity_worth cl a "p_nom" SW V). ring.
Qed.
Lemma x_capex_dropped r cs c k : a_across r = false -> (~ In c ["Generator"; "Link"; "StorageUnit"] \/ none_extendable extendable cs c) -> reported c k (at_solution x (x_capex true r cs)) == 0.
Proof.
  intros AC H. unfold ExprsModel.x_capex, considered. rewrite expressions_worth by auto. apply parts_none. intros cl p I E. unfold func_at, x_capex_func. destruct (nominal_of (k_name cl)) as [attr|] eqn:NO; [|reflexivity].
  destruct (any_extendable extendable cl) eqn:AE; [|reflexivity]. cbn [negb andb]. destruct H as [H|H]; [|rewrite (no_ext cl c cs H I E) in AE; discriminate].
  destruct (String.eqb_spec attr "p_nom") as [->|NP]; [|reflexivity]. exfalso. apply H. unfold nominal_of in NO. rewrite E in NO. destruct (existsb (String.eqb c) ["Generator"; "Link"; "StorageUnit"]) eqn:X.
  - apply existsb_exists in X. destruct X as [y [Y1 Y2]]. apply String.eqb_eq in Y2. now subst.
  - exfalso. destruct (existsb (String.eqb c) ["Line"; "Transformer"]); [discriminate NO|]. destruct (String.eqb c "Store"); discriminate NO.
Qed.
Lemma parts_extendables f r cs c k g : (forall cl a p, In cl cs -> k_name cl = c -> In a (k_comps cl) -> extendable c (s_name a) = true -> val_of f (extendables extendable cl) a p == g cl a p) ->
  parts f r (map (extendables extendable) cs) c k == group_total r cs (fun cl a p => if extendable (k_name cl) (s_name a) then g cl a p else 0) c k.
Proof.
  intros H. unfold parts, group_total. rewrite total_map. apply total_ext. intros cl I. cbn [extendables k_name k_comps]. destruct (String.eqb_spec c (k_name cl)) as [E|]; [|reflexivity]. rewrite total_filter. apply total_ext. intros a Ia.
  unfold ports, part. cbn [extendables k_ports]. destruct (extendable (k_name cl) (s_name a)) eqn:X.
  - apply total_ext. intros p _. destruct (chosen r k a p); [|reflexivity]. apply H; auto. now rewrite E.
  - symmetry. apply total_zero. intros p _. destruct (chosen r k a p); reflexivity.
Qed.
Lemma ext_any cl a : In a (k_comps cl) -> extendable (k_name cl) (s_name a) = true -> any_extendable extendable (extendables extendable cl) = true.
Proof. intros Ia X. unfold any_extendable. cbn [extendables k_name k_comps]. apply existsb_exists. exists a. split; [apply filter_In; auto|exact X]. Qed.
(* the extendable part, for every class *)
Lemma x_capex_extendable r cs c k : a_across r = false -> sized c -> reported c k (at_solution x (x_capex false r cs)) ==
  group_total r cs (fun cl a p => if extendable (k_name cl) (s_name a) then cost c (s_name a) * x (size_name c, O, s_name a) else 0) c k.
Proof.
  intros AC SZ. unfold ExprsModel.x_capex, considered. rewrite expressions_worth by auto. apply parts_extendables. intros cl a p I E Ia X. destruct (nominal_some _ SZ) as [attr [NO V]].
  unfold val_of, func_at, x_capex_func. cbn [extendables k_name]. rewrite E, NO. rewrite <- E in X. rewrite (ext_any cl a Ia X). cbn [negb andb option_map]. rewrite worth_scale. unfold capacity_of. cbn [extendables k_name]. rewrite X, E.
  unfold worth. cbn [fst snd BalanceSpec.total fold_right]. rewrite V. ring.
Qed.
End C.

Section O.
Variable x : sol.
Variable nt : nat.
Variables wg ws wo : nat -> Q.
Variable extendable : string -> string -> bool.
Variables nom nom_opt : string -> string -> Q.
Variables marginal_cost p_max_pu : string -> string -> nat -> Q.
Variable p_set : string -> nat -> Q.
Variable efficiency_t : string -> nat -> option (string -> nat -> Q).
Notation per := (fun agg c => per_time nt agg (class_weight wg ws wo c)).
(* operating costs *)
Lemma x_opex_value r cs c k : a_across r = false -> In c ["Generator"; "Link"; "Store"; "StorageUnit"] -> reported c k (at_solution x (x_opex nt wg ws wo marginal_cost r cs)) ==
  group_total r cs (fun cl a p => total (fun t => per (a_time r) c t * (marginal_cost c (s_name a) t * x (dispatch_name c, t, s_name a))) (seq 0 nt)) c k.
Proof.
  intros AC IC. unfold x_opex. rewrite expressions_worth by auto. apply parts_total. intros cl a p I E _ _ _. unfold val_of, func_at, x_opex_func. rewrite E.
  destruct IC as [<-|[<-|[<-|[<-|[]]]]]; cbn [existsb]; cbn; rewrite over_time_worth, E; apply total_ext; intros t _; rewrite worth_scale; unfold worth; cbn [fst snd BalanceSpec.total fold_right variable]; cbn; ring.
Qed.
Lemma x_opex_only r cs c k : a_across r = false -> ~ In c ["Generator"; "Link"; "Store"; "StorageUnit"] -> reported c k (at_solution x (x_opex nt wg ws wo marginal_cost r cs)) == 0.
Proof using x nt wg ws wo marginal_cost.
  intros AC N. unfold x_opex. rewrite expressions_worth by auto. apply parts_none. intros cl p I E. unfold func_at, x_opex_func. rewrite E.
  destruct (existsb (String.eqb c) ["Generator"; "Link"; "Store"]) eqn:X.
  - exfalso. apply N. apply existsb_exists in X. destruct X as [y [Y1 Y2]]. apply String.eqb_eq in Y2. rewrite Y2. clear - Y1. simpl in *. tauto.
  - destruct (String.eqb_spec c "StorageUnit") as [Y|]; [|reflexivity]. exfalso. apply N. rewrite Y. clear. simpl. tauto.
Qed.
(* operation *)
Lemma x_operation_value r cs c k : a_across r = false -> c <> "Store" -> powers_written x nt p_set efficiency_t cs -> reported c k (at_solution x (x_operation nt wg ws wo p_set r cs)) ==
  group_total r cs (fun cl a p => total (fun t => per (a_time r) c t * s_p a 0 t) (seq 0 nt)) c k.
Proof.
  intros AC NS PW. unfold x_operation. rewrite expressions_worth by auto. apply parts_total. intros cl a p I E Ia _ _. assert (NS' : k_name cl <> "Store") by congruence. destruct (operational_power x nt p_set efficiency_t cl cs PW I NS') as [op [EO W]].
  unfold val_of, func_at, x_operation_func. rewrite EO. cbn [option_map]. rewrite over_time_worth, E. apply total_ext. intros t It. rewrite (W a t Ia (seq_lt nt t It)). reflexivity.
Qed.
Lemma x_operation_stores r cs k : a_across r = false -> reported "Store" k (at_solution x (x_operation nt wg ws wo p_set r cs)) ==
  group_total r cs (fun cl a p => total (fun t => per (a_time r) "Store" t * x ("Store-e", t, s_name a)) (seq 0 nt)) "Store" k.
Proof.
  intros AC. unfold x_operation. rewrite expressions_worth by auto. apply parts_total. intros cl a p I E Ia _ _. unfold val_of, func_at, x_operation_func. rewrite E. cbn [operational]. cbn. rewrite over_time_worth, E. apply total_ext. intros t It.
  unfold worth. cbn [fst snd BalanceSpec.total fold_right variable]. cbn. ring.
Qed.
(* curtailment *)
Lemma x_curtailment_value r cs c k : a_round r = None -> a_across r = false -> In c ["Generator"; "StorageUnit"] -> sizes_written x extendable nom nom_opt -> powers_written x nt p_set efficiency_t cs -> some_extendable extendable cs c ->
  (forall cl a t, In cl cs -> k_name cl = c -> In a (k_comps cl) -> (t < nt)%nat -> s_p a 0 t <= p_max_pu c (s_name a) t * nom_opt c (s_name a) /\ (p_max_pu c (s_name a) t == 0 -> s_p a 0 t == 0)) ->
  reported c k (at_solution x (x_curtailment nt wg ws wo extendable nom p_max_pu p_set r cs)) == reported c k (curtailment nt wg ws wo nom_opt p_max_pu r cs).
Proof.
  intros R AC IC SW PW SE LIM. rewrite curtailment_value by auto. unfold x_curtailment. rewrite expressions_worth by auto. apply parts_total. intros cl a p I E Ia _ _.
  assert (SZ : sized c) by (clear - IC; unfold sized; simpl in *; tauto). assert (NS : k_name cl <> "Store") by (rewrite E; destruct IC as [<-|[<-|[]]]; discriminate).
  destruct (nominal_some _ SZ) as [attr [NO V]]. destruct (operational_power x nt p_set efficiency_t cl cs PW I NS) as [op [EO W]]. rewrite <- E in NO.
  assert (PM : existsb (String.eqb (k_name cl)) ["Generator"; "Link"; "StorageUnit"] = true) by (rewrite E; destruct IC as [<-|[<-|[]]]; reflexivity).
  unfold val_of, func_at, x_curtailment_func. rewrite NO, EO, (any_ext extendable cl c cs SE I E), PM. cbn [negb option_map]. rewrite over_time_worth. unfold CapfacSpec.lost. apply total_ext. intros t It. apply Qmult_comp; [reflexivity|]. cbv zeta.
  rewrite worth_scale, worth_minus, worth_scale, (W a t Ia (seq_lt nt t It)). assert (V' : forall nm, variable (k_name cl) attr O nm = Some (size_name (k_name cl), O, nm)) by (now rewrite E). rewrite (capacity_worth x extendable nom nom_opt cl a attr SW V'). destruct (LIM cl a t I E Ia (seq_lt nt t It)) as [L Z]. rewrite <- E in L, Z.
  rewrite Q.max_r by lra. destruct (Qeq_dec (p_max_pu (k_name cl) (s_name a) t) 0) as [P0|PN]; [rewrite (Z P0), P0; ring|]. field. exact PN.
Qed.
(* transmission *)
Lemma transports_ok carrier_of wanted cl a : transports carrier_of wanted cl a = true <-> links_carrier carrier_of wanted cl a.
Proof.
  unfold transports, links_carrier. rewrite existsb_exists. split.
  - intros [ca [IC L]]. apply Nat.ltb_lt in L. unfold carries in L. set (f := fun p => match carrier_of (s_bus a p) with Some ca' => String.eqb ca' ca | None => false end) in L.
    assert (F : forall p, f p = true -> carrier_of (s_bus a p) = Some ca) by (intros p Fp; unfold f in Fp; destruct (carrier_of (s_bus a p)); [apply String.eqb_eq in Fp; now subst|discriminate]).
    assert (G : forall b n, (1 < List.length (filter f (seq b n)))%nat -> exists p q, (b <= p < q)%nat /\ (q < b + n)%nat /\ f p = true /\ f q = true).
    { intros b n. revert b. induction n as [|n IH]; intros b Ln; [cbn in Ln; lia|]. cbn [seq filter] in Ln. destruct (f b) eqn:Fb.
      - cbn [List.length] in Ln. destruct (filter f (seq (S b) n)) as [|q l] eqn:EF; [cbn in Ln; lia|]. assert (Iq : In q (filter f (seq (S b) n))) by (rewrite EF; left; reflexivity). apply filter_In in Iq. destruct Iq as [Iq Fq]. apply in_seq in Iq.
        exists b, q. repeat split; auto; lia.
      - destruct (IH (S b) Ln) as [p [q [A [B [C D]]]]]. exists p, q. repeat split; auto; lia. }
    destruct (G _ _ L) as [p [q [A [B [C D]]]]]. exists p, q, ca. repeat split; auto; lia.
  - intros [p [q [ca [L [Cp [Cq IC]]]]]]. exists ca. split; [exact IC|]. apply Nat.ltb_lt. unfold carries. set (f := fun p => match carrier_of (s_bus a p) with Some ca' => String.eqb ca' ca | None => false end).
    assert (Fp : f p = true) by (unfold f; rewrite Cp; apply String.eqb_refl). assert (Fq : f q = true) by (unfold f; rewrite Cq; apply String.eqb_refl).
    assert (I : incl [p; q] (filter f (seq 0 (k_ports cl)))) by (intros y [<-|[<-|[]]]; apply filter_In; (split; [apply in_seq; lia|assumption])).
    assert (N : NoDup [p; q]) by (constructor; [intros [->|[]]; lia|constructor; [intros []|constructor]]). pose proof (NoDup_incl_length N I) as H. cbn [List.length] in H. lia.
Qed.
Lemma parts_branches carrier_of wanted f r cs c k g : (forall cl a p, In cl cs -> k_name cl = c -> k_branch cl = true -> In a (k_comps cl) -> In p (if a_at_port r then seq 0 (k_ports cl) else [O]) -> chosen r k a p = true ->
    val_of f {| k_name := k_name cl; k_branch := k_branch cl; k_ports := k_ports cl; k_comps := filter (transports carrier_of wanted cl) (k_comps cl) |} a p == g cl a p) ->
  parts f r (transmission_branches carrier_of wanted cs) c k == group_total r cs (fun cl a p => if k_branch cl && transports carrier_of wanted cl a then g cl a p else 0) c k.
Proof.
  intros H. unfold parts, group_total, transmission_branches. rewrite total_map, total_filter. apply total_ext. intros cl I. cbn [k_name k_comps]. destruct (k_branch cl) eqn:KB; cbn [andb].
  2:{ symmetry. destruct (String.eqb c (k_name cl)); [|reflexivity]. apply total_zero. intros a _. apply total_zero. intros p _. destruct (chosen r k a p); reflexivity. }
  destruct (String.eqb_spec c (k_name cl)) as [E|]; [|reflexivity]. rewrite total_filter. apply total_ext. intros a Ia. unfold ports, part. cbn [k_ports]. destruct (transports carrier_of wanted cl a) eqn:X.
  - apply total_ext. intros p Ip. destruct (chosen r k a p) eqn:CH; [|reflexivity]. rewrite <- KB. apply H; auto.
  - symmetry. apply total_zero. intros p _. destruct (chosen r k a p); reflexivity.
Qed.
Lemma transmission_value carrier_of wanted r cs c k : a_round r = None -> a_across r = false -> reported c k (transmission nt wg ws wo carrier_of wanted r cs) ==
  group_total r cs (fun cl a p => if k_branch cl && transports carrier_of wanted cl a then total (fun t => per (a_time r) c t * s_p a p t) (seq 0 nt) else 0) c k.
Proof.
  intros R AC. unfold transmission. rewrite aggregate_parts by auto. apply parts_branches. intros cl a p _ E _ _ _ _. unfold val_of, transmission_func. cbn [k_name]. rewrite agg_total. apply total_ext. intros t _.
  fold (coef nt (a_time r) (weights wg ws wo (k_name cl)) t). rewrite coef_per, E. reflexivity.
Qed.
Lemma x_transmission_value carrier_of wanted r cs c k : a_round r = None -> a_across r = false -> powers_written x nt p_set efficiency_t cs -> connected r cs c k ->
  reported c k (at_solution x (x_transmission nt wg ws wo p_set efficiency_t carrier_of wanted r cs)) == - reported c k (transmission nt wg ws wo carrier_of wanted r cs).
Proof using x nt wg ws wo p_set efficiency_t.
  intros R AC PW CN. rewrite transmission_value by auto. unfold x_transmission. rewrite expressions_worth by auto.
  rewrite (parts_branches carrier_of wanted _ r cs c k (fun cl a p => -(1) * total (fun t => per (a_time r) c t * s_p a p t) (seq 0 nt))).
  - match goal with |- _ == - ?q => assert (N : - q == -(1) * q) by ring; rewrite N; clear N end. rewrite <- group_scale. apply group_ext. intros cl a p _ _ _ _ _. destruct (k_branch cl && _); ring.
  - intros cl a p I E KB Ia Ip CH. destruct (proj2 PW cl I) as [_ [BR [P0 _]]]. pose proof (proj1 BR KB) as IB. assert (NS : k_name cl <> "Store") by (intros X; rewrite X in IB; clear - IB; simpl in IB; intuition discriminate).
    destruct (operational_power x nt p_set efficiency_t cl cs PW I NS) as [op [EO W]]. unfold val_of, func_at, x_transmission_func. cbn [k_name]. rewrite EO. cbn [option_map]. rewrite over_time_worth. cbn [k_name]. rewrite E, <- total_scale. apply total_ext. intros t It.
    rewrite worth_scale, (W a t Ia (seq_lt nt t It)). pose proof (port_lt r cl p P0 Ip) as Lp. pose proof (port_power x nt p_set efficiency_t cl cs a p t PW I NS Ia Lp (seq_lt nt t It) (CN cl a p I E Ia Lp CH)) as J. unfold injected, port_efficiency_t in *. cbn [k_name k_branch]. rewrite KB in *.
    rewrite Qmult_1_r in J. assert (J' : s_p a p t == - ((match p with O => -(1) | S _ => match efficiency_t (k_name cl) p with Some f => f (s_name a) t | None => 1 end end) * s_p a 0 t)) by lra. rewrite ?E in *. rewrite J'. destruct p; ring.
Qed.
End O.

(* examples *)
Definition row (v : string) (tab : list (string * list Q)) (t : nat) : Q := match find (fun e => String.eqb v (fst e)) tab with Some e => nth t (snd e) 0 | None => 0 end.
Definition sol_of (tab : list (string * list Q)) : sol := fun v => let '(nm, t, _) := v in row nm tab t.
Definition solved : sol := sol_of
  [("Generator-p", [3; 1]); ("Generator-p_nom", [10]); ("StorageUnit-p_dispatch", [0; 2]); ("StorageUnit-p_store", [5; 0]); ("StorageUnit-p_nom", [6]);
   ("Store-p", [4; -(1)]); ("Store-e", [2; 3]); ("Store-e_nom", [9]); ("Line-s", [2; 1]); ("Line-s_nom", [7]); ("Link-p", [4; 6]); ("Link-p_nom", [8])].
Definition unit_eff (c : string) (p : nat) : option (string -> nat -> Q) := if String.eqb c "Link" && Nat.ltb 0 p then Some (fun _ _ => 1 # 2) else None.
Definition demand (nm : string) (t : nat) : Q := nth t [7; 8] 0.
Definition made (nm ca : string) (buses : list string) (sign : Q) (p : list (list Q)) : comp :=
  {| s_name := nm; s_carrier := ca; s_bus := fun k => nth k buses ""; s_sign := sign; s_active := true; s_p := fun k t => nth t (nth k p []) 0 |}.
Definition system : list class :=
  [{| k_name := "Generator"; k_branch := false; k_ports := 1; k_comps := [made "g" "wind" ["a"] 1 [[3; 1]]] |};
   {| k_name := "Load"; k_branch := false; k_ports := 1; k_comps := [made "d" "load" ["a"] (-(1)) [[7; 8]]] |};
   {| k_name := "Line"; k_branch := true; k_ports := 2; k_comps := [made "ab" "ac" ["a"; "b"] 1 [[2; 1]; [-(2); -(1)]]] |};
   {| k_name := "Link"; k_branch := true; k_ports := 3; k_comps := [made "l" "chp" ["b"; "a"; "a"] 1 [[4; 6]; [-(2); -(3)]; [-(2); -(3)]]] |}].
Ltac check_powers :=
  split; [intros c p; unfold unit_eff; destruct (String.eqb_spec c "Link"); [auto|cbn [andb]; congruence]|];
  intros cl I; simpl in I; repeat (destruct I as [<-|I]); try contradiction; (split; [simpl; tauto|]); (split; [simpl; intuition discriminate|]); (split; [simpl; lia|]); (split; [simpl; intuition discriminate|]);
  intros a p t Ia Lp Lt; simpl in Ia; repeat (destruct Ia as [<-|Ia]); try contradiction; simpl in Lp; destruct t as [|[|t]]; try lia; destruct p as [|[|[|p]]]; try lia; reflexivity.
Lemma system_powers : powers_written solved 2 demand unit_eff system.
Proof. check_powers. Qed.
Definition storing : list class := [{| k_name := "StorageUnit"; k_branch := false; k_ports := 1; k_comps := [made "s" "phs" ["a"] 1 [[-(5); 2]]] |}].
Lemma storing_powers : powers_written solved 2 demand unit_eff storing.
Proof. check_powers. Qed.
Definition keeping : list class := [{| k_name := "Store"; k_branch := false; k_ports := 1; k_comps := [made "t" "tank" ["a"] 1 [[4; -(1)]]] |}].
Lemma keeping_powers : powers_written solved 2 demand unit_eff keeping.
Proof. check_powers. Qed.
Definition halves : list class := [{| k_name := "Link"; k_branch := true; k_ports := 3; k_comps := [made "l" "chp" ["b"; "a"; "a"] 1 [[4; 6]; [-(2); -(3)]; [-(2); -(3)]]; made "m" "chp" ["b"; "a"; ""] 1 [[4; 6]; [-(2); -(3)]; [0; 0]]] |}].
Lemma halves_powers : powers_written solved 2 demand unit_eff halves.
Proof. check_powers. Qed.
Definition energy_args (d : direction) : args :=
  {| a_dir := d; a_time := Sum; a_at_port := true; a_bus_ok := fun _ => true; a_carrier_ok := fun _ => true; a_key := Some (fun a _ => Some (s_carrier a)); a_across := false; a_round := None; a_drop := Some true |}.
Lemma store_level : exists x nt wg ws wo p_set eff r cs k, a_round r = None /\ a_across r = false /\ a_dir r = Balance /\ powers_written x nt p_set eff cs /\ connected r cs "Store" k /\
  reported "Store" k (energy_balance nt wg ws wo r cs) == 3 /\ reported "Store" k (at_solution x (x_energy_balance nt wg ws wo p_set eff r cs)) == 5.
Proof.
  exists solved, 2%nat, ones, ones, ones, demand, unit_eff, (energy_args Balance), keeping, "tank". do 3 (split; [reflexivity|]). split; [exact keeping_powers|]. split; [|split; reflexivity].
  intros cl a p I _ Ia Lp _. destruct I as [<-|[]]. destruct Ia as [<-|[]]. simpl in Lp. destruct p; [discriminate|lia].
Qed.
Lemma phantom_port : exists x nt wg ws wo p_set eff r cs k, a_round r = None /\ a_across r = false /\ a_dir r = Balance /\ powers_written x nt p_set eff cs /\
  reported "Link" k (energy_balance nt wg ws wo r cs) == -(5) /\ reported "Link" k (at_solution x (x_energy_balance nt wg ws wo p_set eff r cs)) == 0.
Proof. exists solved, 2%nat, ones, ones, ones, demand, unit_eff, (energy_args Balance), halves, "chp". do 3 (split; [reflexivity|]). split; [exact halves_powers|]. split; reflexivity. Qed.
Lemma storage_supply : exists x nt wg ws wo p_set eff r cs k, a_round r = None /\ a_across r = false /\ a_dir r = Supply /\ powers_written x nt p_set eff cs /\ connected r cs "StorageUnit" k /\
  reported "StorageUnit" k (energy_balance nt wg ws wo r cs) == 2 /\ reported "StorageUnit" k (at_solution x (x_energy_balance nt wg ws wo p_set eff r cs)) == -(3) /\
  reported "StorageUnit" k (energy_balance nt wg ws wo (with_dir Withdrawal r) cs) == 5 /\ reported "StorageUnit" k (at_solution x (x_energy_balance nt wg ws wo p_set eff (with_dir Withdrawal r) cs)) == 0.
Proof.
  exists solved, 2%nat, ones, ones, ones, demand, unit_eff, (energy_args Supply), storing, "phs". do 3 (split; [reflexivity|]). split; [exact storing_powers|]. split; [|split; [|split; [|split]]; reflexivity].
  intros cl a p I _ Ia Lp _. destruct I as [<-|[]]. destruct Ia as [<-|[]]. simpl in Lp. destruct p; [discriminate|lia].
Qed.
Definition fixed_size (c nm : string) : Q := 4.
Definition opt_size (ext : string -> string -> bool) (c nm : string) : Q := if ext c nm then solved (size_name c, O, nm) else fixed_size c nm.
Lemma opt_written ext : sizes_written solved ext fixed_size (opt_size ext).
Proof. intros c nm. unfold opt_size. destruct (ext c nm); reflexivity. Qed.
Definition all_ext (c nm : string) : bool := true.
Definition no_ext_at_all (c nm : string) : bool := false.
Definition static_eff (c : string) (p : nat) : option (string -> Q) := if String.eqb c "Link" && Nat.ltb 0 p then Some (fun _ => 1 # 2) else None.
Definition one_args : args := args_at false Sum None.
Lemma fixed_dropped : exists x ext nom nom_opt hours eff r cs k, a_round r = None /\ a_across r = false /\ sizes_written x ext nom nom_opt /\
  reported "Generator" k (optimal_capacity nom_opt hours eff false r cs) == 4 /\ reported "Generator" k (at_solution x (x_capacity ext nom hours eff true false r cs)) == 0.
Proof. exists solved, no_ext_at_all, fixed_size, fixed_size, (fun _ => 1), static_eff, one_args, system, "wind". do 2 (split; [reflexivity|]). split; [exact (opt_written no_ext_at_all)|]. split; reflexivity. Qed.
Lemma lines_dropped : exists x ext nom nom_opt cost r cs k, a_round r = None /\ a_across r = false /\ sizes_written x ext nom nom_opt /\ some_extendable ext cs "Line" /\
  reported "Line" k (capex nom_opt cost r cs) == 14 /\ reported "Line" k (at_solution x (x_capex ext nom cost true r cs)) == 0 /\ reported "Line" k (at_solution x (x_capex ext nom cost false r cs)) == 14.
Proof.
  exists solved, all_ext, fixed_size, (opt_size all_ext), (fun _ _ => 2), one_args, system, "ac". do 2 (split; [reflexivity|]). split; [apply opt_written|]. split.
  - intros cl I E. simpl in I. repeat (destruct I as [<-|I]); try discriminate E; try contradiction. eexists. split; [left; reflexivity|reflexivity].
  - split; [|split]; reflexivity.
Qed.
Definition same_carrier (b : string) : option string := if String.eqb b "" then None else Some "AC".
Lemma transmission_sign : exists x nt wg ws wo p_set eff carrier_of wanted r cs k, a_round r = None /\ a_across r = false /\ powers_written x nt p_set eff cs /\ connected r cs "Line" k /\
  reported "Line" k (transmission nt wg ws wo carrier_of wanted r cs) == 3 /\ reported "Line" k (at_solution x (x_transmission nt wg ws wo p_set eff carrier_of wanted r cs)) == -(3).
Proof.
  exists solved, 2%nat, ones, ones, ones, demand, unit_eff, same_carrier, ["AC"], one_args, system, "ac". do 2 (split; [reflexivity|]). split; [exact system_powers|]. split; [|split; reflexivity].
  intros cl a p I E Ia Lp _. simpl in I. repeat (destruct I as [<-|I]); try discriminate E; try contradiction. destruct Ia as [<-|[]]. simpl in Lp. destruct p as [|[|p]]; [discriminate|discriminate|lia].
Qed.
Lemma link_curtailed : exists x nt wg ws wo ext nom nom_opt pmax p_set eff r cs k, a_round r = None /\ a_across r = false /\ sizes_written x ext nom nom_opt /\ powers_written x nt p_set eff cs /\ some_extendable ext cs "Link" /\
  reported "Link" k (curtailment nt wg ws wo nom_opt pmax r cs) == 0 /\ reported "Link" k (at_solution x (x_curtailment nt wg ws wo ext nom pmax p_set r cs)) == 6.
Proof.
  exists solved, 2%nat, ones, ones, ones, all_ext, fixed_size, (opt_size all_ext), full, demand, unit_eff, one_args, system, "chp". do 2 (split; [reflexivity|]). split; [apply opt_written|]. split; [exact system_powers|]. split; [|split; reflexivity].
  intros cl I E. simpl in I. repeat (destruct I as [<-|I]); try discriminate E; try contradiction. eexists. split; [left; reflexivity|reflexivity].
Qed.
Lemma transmission_is nt wg ws wo carrier_of wanted sel r cs c k : a_round r = None -> a_across r = false -> (forall cl a, sel cl a = true <-> links_carrier carrier_of wanted cl a) ->
  reported c k (transmission nt wg ws wo carrier_of wanted r cs) ==
  group_total r cs (fun cl a p => if k_branch cl && sel cl a then total (fun t => per_time nt (a_time r) (class_weight wg ws wo c) t * s_p a p t) (seq 0 nt) else 0) c k.
Proof.
  intros R AC S. rewrite transmission_value by auto. apply group_ext. intros cl a p _ _ _ _ _. assert (E : transports carrier_of wanted cl a = sel cl a) by (apply eq_true_iff_eq; rewrite S; apply transports_ok). now rewrite E.
Qed.
Lemma across_classes x func r cs k : a_across r = true -> NoDup (map k_name cs) ->
  reported "" k (at_solution x (expressions func r cs)) == total (fun c => reported c k (at_solution x (all_exprs func r cs))) (map k_name cs).
Proof.
  intros AC ND. rewrite across_worth by auto. rewrite total_map. apply total_ext. intros cl I. rewrite all_worth. unfold parts. symmetry.
  exact (pick_by k_name (fun cl => total (fun a => total (part (func_at x func) r cl k a) (ports r cl)) (k_comps cl)) cl cs ND I).
Qed.
