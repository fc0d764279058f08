From Coq Require Import List String Bool QArith Arith Lqa Lia.
From Verif Require Import LinModel LinProofs BalanceModel BalanceSpec BalanceProofs AssignModel AssignSpec.
Import ListNotations.
Open Scope string_scope.
Open Scope list_scope.
Open Scope Q_scope.

Lemma branch_opposite x sns v b prev t : sns t = true ->
  exists q, reports (fst (assign_branch x sns v b prev)) t q /\ reports (snd (assign_branch x sns v b prev)) t (- q) /\ q == value x (b_active b) v (b_name b) t.
Proof.
  intros S. unfold assign_branch, set_from_frame, smap, solution, value, reports. cbn [fst snd]. rewrite S. cbn [andb].
  destruct (b_active b t); eexists; (split; [eexists; split; [reflexivity|reflexivity]|]); (split; [eexists; split; [reflexivity|]; cbn [option_map]; ring|reflexivity]).
Qed.
Lemma line_opposite x sns losses b prev t : sns t = true -> b_active b t = true ->
  exists p0 p1, reports (fst (line_flows x sns losses b prev)) t p0 /\ reports (snd (line_flows x sns losses b prev)) t p1 /\
    p0 + p1 == (if losses then value x (b_active b) "Line-loss" (b_name b) t else 0) /\
    p0 - p1 == 2 * value x (b_active b) "Line-s" (b_name b) t.
Proof.
  intros S A. unfold line_flows, assign_branch, add_losses, set_from_frame, smap, szip, solution, value, reports. destruct losses; cbn [fst snd]; rewrite S, A; cbn [andb option_map].
  - do 2 eexists. split; [eexists; split; reflexivity|]. split; [eexists; split; reflexivity|]. split; field.
  - do 2 eexists. split; [eexists; split; reflexivity|]. split; [eexists; split; reflexivity|]. split; field.
Qed.
Lemma kept x sns v b prev t : sns t = false ->
  reports (fst (assign_branch x sns v b prev)) t (num (fst prev) t) /\ reports (snd (assign_branch x sns v b prev)) t (num (snd prev) t).
Proof.
  intros S. unfold assign_branch, set_from_frame, reports, num. cbn [fst snd]. rewrite S. split; eexists; split; reflexivity.
Qed.
Lemma link_ports x sns l bus eff prev0 prev t : sns t = true ->
  exists p0, reports (link_p0 x sns l prev0) t p0 /\ p0 == value x (l_active l) "Link-p" (l_name l) t /\
    reports (link_port x sns l bus eff prev) t (if String.eqb bus "" then 0 else - eff t * p0).
Proof.
  intros S. unfold link_p0, link_port, set_from_frame, solution, value, reports. rewrite S. cbn [andb].
  destruct (l_active l t); cbn [option_map]; eexists; (split; [eexists; split; reflexivity|]); (split; [reflexivity|]); destruct (String.eqb bus ""); eexists; split; try reflexivity; ring.
Qed.
Lemma unit_net x sns c pd ps t : sns t = true ->
  reports (unit_power x sns c pd ps) t (value x (c_active c) "StorageUnit-p_dispatch" (c_name c) t - value x (c_active c) "StorageUnit-p_store" (c_name c) t).
Proof.
  intros S. unfold unit_power, szip, one_port, set_from_frame, solution, value, reports. rewrite S. cbn [andb]. destruct (c_active c t); eexists; split; reflexivity.
Qed.
Lemma one_port_value x sns v c prev t : sns t = true -> reports (one_port x sns v c prev) t (value x (c_active c) v (c_name c) t).
Proof. intros S. unfold one_port, set_from_frame, solution, value, reports. rewrite S. cbn [andb]. destruct (c_active c t); eexists; split; reflexivity. Qed.

Lemma num_reports s t q : reports s t q -> num s t == q.
Proof. intros [p [E H]]. unfold num. now rewrite E. Qed.
Lemma at_same b b' q : at_ b b' q = at_bus b b' q.
Proof. reflexivity. Qed.
Lemma at_bus_scale b b' q r : q == r -> at_bus b b' q == at_bus b b' r.
Proof. unfold at_bus. destruct (String.eqb b b'); auto. reflexivity. Qed.

Lemma line_out x sns losses c t b : sns t = true ->
  at_bus (b_bus0 c) b (num (fst (line_flows x sns losses c (none, none))) t) + at_bus (b_bus1 c) b (num (snd (line_flows x sns losses c (none, none))) t)
    == - branch_at losses x t "Line-s" "Line-loss" b c.
Proof.
  intros S. unfold branch_at, flow, line_flows, assign_branch, add_losses, set_from_frame, smap, szip, solution, value, num, at_bus. cbn [fst snd].
  destruct losses; cbn [fst snd]; rewrite S; destruct (b_active c t); cbn [andb option_map]; destruct (String.eqb (b_bus0 c) b), (String.eqb (b_bus1 c) b); field.
Qed.
Lemma trafo_out x sns losses c t b : sns t = true -> (losses = true -> value x (b_active c) "Transformer-loss" (b_name c) t == 0) ->
  at_bus (b_bus0 c) b (num (fst (trafo_flows x sns c (none, none))) t) + at_bus (b_bus1 c) b (num (snd (trafo_flows x sns c (none, none))) t)
    == - branch_at losses x t "Transformer-s" "Transformer-loss" b c.
Proof.
  intros S L. unfold branch_at, flow in *. unfold trafo_flows, assign_branch, set_from_frame, smap, solution, num, at_bus. cbn [fst snd]. rewrite S. cbn [andb].
  destruct losses.
  - specialize (L eq_refl). set (l := value x (b_active c) "Transformer-loss" (b_name c) t) in *. clearbody l. unfold value. destruct (b_active c t); cbn [option_map]; destruct (String.eqb (b_bus0 c) b), (String.eqb (b_bus1 c) b); rewrite ?L; field.
  - unfold value. destruct (b_active c t); cbn [option_map]; destruct (String.eqb (b_bus0 c) b), (String.eqb (b_bus1 c) b); field.
Qed.
Lemma port_out x sns l bus eff t b : sns t = true -> b <> "" -> at_bus bus b (num (link_port x sns l bus eff none) t * -(1)) == at_bus bus b (eff t * value x (l_active l) "Link-p" (l_name l) t).
Proof.
  intros S NE. unfold at_bus. destruct (String.eqb_spec bus b) as [->|]; [|reflexivity]. unfold link_port, num, set_from_frame, solution, value. destruct (String.eqb_spec b ""); [contradiction|].
  rewrite S. destruct (l_active l t); cbn [andb option_map]; ring.
Qed.

(* Kirchhoff's current law in the reported results *)
Lemma injection n losses x sns t b : sns t = true -> b <> "" ->
  (losses = true -> forall c, In c (trafos n) -> value x (b_active c) "Transformer-loss" (b_name c) t == 0) ->
  (forall d, In d (loads n) -> d_active d = false -> d_p d t == 0) ->
  net_power n losses x t b == demand n t b ->
  bus_power x sns n b t == outflow n (fun c => line_flows x sns losses c (none, none)) (fun c => trafo_flows x sns c (none, none)) b t.
Proof.
  intros S NE L D N. unfold outflow, bus_power. change (@add_up) with (@total). change at_ with at_bus.
  assert (O : outflow n (fun c => line_flows x sns losses c (none, none)) (fun c => trafo_flows x sns c (none, none)) b t ==
     -(1) * total (branch_at losses x t "Line-s" "Line-loss" b) (lines n) + -(1) * total (branch_at losses x t "Transformer-s" "Transformer-loss" b) (trafos n)).
  { unfold outflow. rewrite <- !total_scale. apply Qplus_comp; apply total_ext; intros c I; [rewrite line_out by auto|rewrite (trafo_out x sns losses) by auto]; ring. }
  unfold outflow in O. rewrite O. unfold net_power in N.
  rewrite (total_ext (fun c => at_bus (c_bus c) b (num (one_port x sns "Generator-p" c none) t * c_sign c)) (fun c => at_bus (c_bus c) b (gen_p x t c))).
  2:{ intros c _. apply at_bus_scale. rewrite (num_reports _ _ _ (one_port_value x sns "Generator-p" c none t S)). unfold gen_p. ring. }
  rewrite (total_ext (fun c => at_bus (c_bus c) b (num (one_port x sns "Store-p" c none) t * c_sign c)) (fun c => at_bus (c_bus c) b (store_p x t c))).
  2:{ intros c _. apply at_bus_scale. rewrite (num_reports _ _ _ (one_port_value x sns "Store-p" c none t S)). unfold store_p. ring. }
  rewrite (total_ext (fun c => at_bus (c_bus c) b (num (unit_power x sns c none none) t * c_sign c)) (fun c => at_bus (c_bus c) b (unit_p x t c))).
  2:{ intros c _. apply at_bus_scale. rewrite (num_reports _ _ _ (unit_net x sns c none none t S)). unfold unit_p. ring. }
  assert (LD : total (fun d => at_bus (d_bus d) b (num (load_power sns d none) t * d_sign d)) (loads n) == - demand n t b).
  { unfold demand. transitivity (-(1) * total (fun d => at_bus (d_bus d) b (demand_of t d)) (loads n)); [|ring]. rewrite <- total_scale. apply total_ext. intros d I. unfold at_bus. destruct (String.eqb (d_bus d) b); [|ring].
    unfold load_power, set_from_frame, num. rewrite S. unfold demand_of. destruct (d_active d) eqn:A; [ring|]. rewrite (D d I A). ring. }
  rewrite LD, <- N.
  assert (LK : total (fun l => at_bus (l_bus0 l) b (num (link_p0 x sns l none) t * - (1))) (links n) +
    total (fun l => at_bus (l_bus1 l) b (num (link_port x sns l (l_bus1 l) (l_eff1 l) none) t * - (1))) (links n) +
    total (fun l => total (fun pe => at_bus (fst pe) b (num (link_port x sns l (fst pe) (snd pe) none) t * - (1))) (l_ports l)) (links n) ==
    total (fun l => total (fun pe => at_bus (fst pe) b (snd pe * link_p x t l)) (outputs t l) - at_bus (l_bus0 l) b (link_p x t l)) (links n)).
  { rewrite <- !total_plus. apply total_ext. intros l _. rewrite port_out by auto.
    assert (P0 : at_bus (l_bus0 l) b (num (link_p0 x sns l none) t * - (1)) == - at_bus (l_bus0 l) b (link_p x t l)).
    { unfold at_bus, link_p, link_p0, set_from_frame, num, solution, value. rewrite S. destruct (String.eqb (l_bus0 l) b), (l_active l t); cbn [andb]; ring. }
    rewrite P0. unfold outputs. cbn [total fold_right fst snd]. fold (total (fun pe : string * Q => at_bus (fst pe) b (snd pe * link_p x t l))).
    fold (@total (string * Q)). 
    assert (PP : total (fun pe => at_bus (fst pe) b (num (link_port x sns l (fst pe) (snd pe) none) t * - (1))) (l_ports l) ==
       total (fun pe : string * Q => at_bus (fst pe) b (snd pe * link_p x t l)) (map (fun pe => (fst pe, snd pe t)) (filter (fun pe => negb (String.eqb (fst pe) "")) (l_ports l)))).
    { rewrite total_map, total_filter. apply total_ext. intros pe _. rewrite port_out by auto. cbn [fst snd]. unfold link_p.
      destruct (String.eqb_spec (fst pe) "") as [E|]; cbn [negb]; [|reflexivity]. rewrite E. unfold at_bus. destruct (String.eqb_spec "" b); [congruence|reflexivity]. }
    rewrite PP. unfold link_p. cbn [total fold_right]. unfold total. ring. }
  rewrite <- !Qplus_assoc in *. rewrite <- LK. ring.
Qed.
Lemma injection_opt n losses x T cols thr cs sns t b : nodal_balance n losses T cols thr = Some cs -> (forall b, In b (meshed cols thr) -> In b (buses n)) -> sat x cs ->
  (t < T)%nat -> sns t = true -> In b (buses n) -> b <> "" ->
  (losses = true -> forall c, In c (trafos n) -> value x (b_active c) "Transformer-loss" (b_name c) t == 0) ->
  (forall d, In d (loads n) -> d_active d = false -> d_p d t == 0) ->
  bus_power x sns n b t == outflow n (fun c => line_flows x sns losses c (none, none)) (fun c => trafo_flows x sns c (none, none)) b t.
Proof.
  intros B M SA LT S I NE L D. apply injection; auto. apply (nodal_iff n losses x T cols thr cs B M); auto.
Qed.

(* counterexamples *)
Definition two_bus (tr : list branch) (ld : list load) : net := {| buses := ["A"; "B"]; gens := [{| c_name := "g"; c_bus := "A"; c_sign := 1; c_active := fun _ => true |}];
  stores := []; units := []; lines := []; trafos := tr; links := []; loads := ld |}.
Definition br_ab : branch := {| b_name := "t"; b_bus0 := "A"; b_bus1 := "B"; b_active := fun _ => true |}.
Lemma trafo_losses : exists n x cs b, nodal_balance n true 1 [] 45 = Some cs /\ sat x cs /\ In b (buses n) /\ (forall d, In d (loads n) -> d_active d = true) /\
  ~ bus_power x (fun _ => true) n b 0 == outflow n (fun c => line_flows x (fun _ => true) true c (none, none)) (fun c => trafo_flows x (fun _ => true) c (none, none)) b 0.
Proof.
  exists (two_bus [br_ab] [{| d_bus := "B"; d_sign := -(1); d_p := fun _ => 10; d_active := true |}]), (fun v => if String.eqb (fst (fst v)) "Generator-p" then 12 else if String.eqb (fst (fst v)) "Transformer-s" then 11 else 2).
  eexists. exists "A". split; [reflexivity|]. split; [apply satb_iff; reflexivity|]. split; [simpl; auto|]. split; [intros d [<-|[]]; reflexivity|].
  intros H. apply Qeq_bool_iff in H. vm_compute in H. discriminate.
Qed.
Lemma inactive_load : exists n x cs b, nodal_balance n false 1 [] 45 = Some cs /\ sat x cs /\ In b (buses n) /\
  ~ bus_power x (fun _ => true) n b 0 == outflow n (fun c => line_flows x (fun _ => true) false c (none, none)) (fun c => trafo_flows x (fun _ => true) c (none, none)) b 0.
Proof.
  exists (two_bus [br_ab] [{| d_bus := "B"; d_sign := -(1); d_p := fun _ => 10; d_active := false |}]), (fun v => 0).
  eexists. exists "B". split; [reflexivity|]. split; [apply satb_iff; reflexivity|]. split; [simpl; auto|].
  intros H. apply Qeq_bool_iff in H. vm_compute in H. discriminate.
Qed.
Lemma rolling_loses : exists b x, (forall t, b_active b t = true) /\ (forall t, 0 < x ("Line-s", t, b_name b)) /\
  forall prev, fst (roll_line true b [(x, fun t => Nat.ltb t 2); (x, fun t => Nat.leb 2 t)] prev) 0%nat = None.
Proof. exists br_ab, (fun _ => 5). split; [reflexivity|]. split; [reflexivity|]. intros prev. reflexivity. Qed.
Lemma rolling_keeps b ws prev t x sns : (forall w, In w ws -> snd w t = false) -> sns t = true -> b_active b t = true ->
  reports (fst (roll_line false b ws (line_flows x sns false b prev))) t (x ("Line-s", t, b_name b)) /\
  reports (snd (roll_line false b ws (line_flows x sns false b prev))) t (- x ("Line-s", t, b_name b)).
Proof.
  intros H S A.
  assert (G : forall ws prev q r, (forall w, In w ws -> snd w t = false) -> reports (fst prev) t q -> reports (snd prev) t r ->
     reports (fst (roll_line false b ws prev)) t q /\ reports (snd (roll_line false b ws prev)) t r).
  { clear. intros ws. induction ws as [|[y s] ws IH]; intros prev q r H R1 R2; [split; auto|]. cbn [roll_line]. apply IH.
    - intros w I. apply H. simpl. auto.
    - destruct (kept y s "Line-s" b prev t (H _ (or_introl eq_refl))) as [[p [E Q]] _]. exists p. split; [exact E|]. rewrite Q. now apply num_reports.
    - destruct (kept y s "Line-s" b prev t (H _ (or_introl eq_refl))) as [_ [p [E Q]]]. exists p. split; [exact E|]. rewrite Q. now apply num_reports. }
  apply G; auto.
  - unfold line_flows, assign_branch, set_from_frame, solution, reports. cbn [fst snd]. rewrite S, A. eexists; split; reflexivity.
  - unfold line_flows, assign_branch, set_from_frame, solution, smap, reports. cbn [fst snd]. rewrite S, A. eexists; split; reflexivity.
Qed.
Lemma inactive_nan b x sns t prev : b_active b t = false -> fst (line_flows x sns true b prev) t = None.
Proof. intros A. unfold line_flows, add_losses, szip, solution. cbn [fst]. rewrite A, andb_false_r. destruct (fst (assign_branch x sns "Line-s" b prev) t); reflexivity. Qed.
