From Coq Require Import List String Bool QArith ZArith Arith Lqa Lia.
From Verif Require Import LinModel LinProofs BalanceModel BalanceSpec BalanceProofs PriceSpec PriceProofs.
From Verif Require DispatchModel ObjectiveModel ObjectiveSpec LimitModel.
Import ListNotations.
Open Scope string_scope.
Open Scope list_scope.
Open Scope Q_scope.

(* the multipliers below belong to the constraints of the model: nodal balances and limits of a plant *)
Theorem C61_multipliers : forall n losses T cols thr lam cs cls a mu,
  nodal_balance n losses T cols thr = Some cs -> map fst (nodal_y n losses T cols thr lam) = cs /\
  map fst (own_y cls T a mu) = DispatchModel.all_constraints cls "p" "p_nom" DispatchModel.Other losses T [a].
Proof. intros. split; [apply nodal_fst; assumption|apply own_fst]. Qed.
Print Assumptions C61_multipliers.

(* a solution with such multipliers is optimal *)
Theorem C61_optimal : forall on x x' ps cy, ObjectiveModel.objective on = Some ps -> convex on -> kkt x ps cy -> sat x' (map fst cy) ->
  ObjectiveModel.value_of x ps <= ObjectiveModel.value_of x' ps.
Proof. exact optimal. Qed.
Print Assumptions C61_optimal.

(* the price is what a further unit of load costs at least: no solution for other loads is cheaper than the old cost plus
   weighting times price times change of the load *)
Theorem C61_load : forall n ls losses T cols thr on ps x x' price rest cs cs',
  ObjectiveModel.objective on = Some ps -> convex on -> NoDup (buses n) -> (forall b, In b cols -> b = "" \/ In b (buses n)) ->
  nodal_balance n losses T cols thr = Some cs -> nodal_balance (with_loads n ls) losses T cols thr = Some cs' ->
  kkt x ps (nodal_y n losses T cols thr (fun t b => weight on t * price b t) ++ rest) ->
  sat x' (cs' ++ map fst rest) ->
  ObjectiveModel.value_of x ps + total (fun t => weight on t * total (fun b => price b t * (demand (with_loads n ls) t b - demand n t b)) (buses n)) (seq 0 T)
    <= ObjectiveModel.value_of x' ps.
Proof. exact load_price. Qed.
Print Assumptions C61_load.

(* what loads pay is what generators, storage and links earn and what branches collect between their ends *)
Theorem C61_settlement : forall n losses T cols thr cs x t price, nodal_balance n losses T cols thr = Some cs -> (forall b, In b cols -> b = "" \/ In b (buses n)) ->
  NoDup (buses n) -> connected n -> sat x cs -> (t < T)%nat ->
  pays_load t price n ==
  paid_at x t price gen_p (gens n) + paid_at x t price store_p (stores n) + paid_at x t price unit_p (units n) +
  total (fun l => worth price (Lnk l) t * link_p x t l) (links n) +
  total (branch_rent losses x t price "Line-s" "Line-loss") (lines n) + total (branch_rent losses x t price "Transformer-s" "Transformer-loss") (trafos n).
Proof.
  intros n losses T cols thr cs x t price B MS N C S L. apply settle; [exact N|exact C|]. intros b I. exact (proj1 (nodal_iff n losses x T cols thr cs B (mesh_ok n cols thr MS)) S b t I L).
Qed.
Print Assumptions C61_settlement.

(* merit order, for generators and links: full output if a unit earns more than it costs, least output if less; in
   between earning equals cost *)
Theorem C61_merit_order : forall n losses T cols thr on o ps k a x price mu rest t,
  market n losses T cols thr on o ps k a x price mu rest -> (t < T)%nat -> pactive k t = true -> DispatchModel.fix_set a t = None ->
  let earned := earning on price rest k t in let cost := weight on t * marginal x k o t in
  let high := DispatchModel.max_pu a t * capacity x k a in let low := DispatchModel.min_pu a t * capacity x k a in
  (cost < earned -> power x k t == high) /\ (earned < cost -> power x k t == low) /\ (low < power x k t -> power x k t < high -> earned == cost).
Proof. intros n losses T cols thr on o ps k a x price mu rest t M L P N. exact (merit n losses T cols thr on o ps k a x price mu rest M t L P N). Qed.
Print Assumptions C61_merit_order.

(* without further constraints on the plant the earning is the weighted price of what it feeds in *)
Theorem C61_earning : forall on price rest k t, (forall c y, In (c, y) rest -> apart k c) -> earning on price rest k t == weight on t * worth price k t.
Proof. intros on price rest k t H. unfold earning. rewrite (toll_apart k rest _ t (or_introl eq_refl) H). ring. Qed.
Print Assumptions C61_earning.
(* limits of other components are such *)
Theorem C61_apart : forall k cls attr nattr kd losses T l, In cls ["Generator"; "Link"; "Line"; "Transformer"; "Store"; "StorageUnit"] ->
  (forall a, In a l -> cls <> pclass k \/ DispatchModel.name a <> pname k) ->
  forall c, In c (DispatchModel.all_constraints cls attr nattr kd losses T l) -> apart k c.
Proof. exact dispatch_apart. Qed.
Print Assumptions C61_apart.
(* an emission limit adds its multiplier (mu, at most zero for an upper limit) times specific emissions over efficiency *)
Theorem C61_emissions : forall ln gl c y t g, LimitModel.primary_energy ln gl = Some c -> LimitModel.inv_period gl = None -> NoDup (map fst (LimitModel.carriers ln)) ->
  split_at (LimitModel.gens ln) g (fun g' => LimitModel.g_name g' <> LimitModel.g_name g) -> (t < LimitModel.nsnaps ln)%nat -> LimitModel.g_active g t = true ->
  toll [(c, y)] ("Generator-p", t, LimitModel.g_name g) ==
  y * (match LimitModel.lookup (LimitModel.carriers ln) (LimitModel.g_carrier g) with Some q => q | None => 0 end * (LimitModel.weight ln t / LimitModel.g_eff g t)).
Proof. exact emission_toll. Qed.
Print Assumptions C61_emissions.

(* plants never run at a loss unless a minimum forces them *)
Theorem C61_no_loss : forall n losses T cols thr on o ps k a x price mu rest t,
  market n losses T cols thr on o ps k a x price mu rest -> (t < T)%nat -> DispatchModel.fix_set a t = None ->
  DispatchModel.min_pu a t <= 0 -> 0 <= DispatchModel.max_pu a t -> 0 <= capacity x k a ->
  weight on t * marginal x k o t * power x k t <= earning on price rest k t * power x k t.
Proof. intros n losses T cols thr on o ps k a x price mu rest t M L N LO UP C. exact (no_loss n losses T cols thr on o ps k a x price mu rest M t L N LO UP C). Qed.
Print Assumptions C61_no_loss.

(* extendable plants recover their investment: profits equal annual costs of the capacity, up to what its limits are worth *)
Theorem C61_recovery : forall n losses T cols thr on o ps k a x price mu rest,
  market n losses T cols thr on o ps k a x price mu rest -> DispatchModel.ext a = true -> unscheduled T k a ->
  profit T on o k x price rest + toll rest ((pclass k ++ "-p_nom")%string, O, pname k) * capacity x k a == yearly on o * capacity x k a - rent a mu.
Proof. intros n losses T cols thr on o ps k a x price mu rest M. exact (recovery n losses T cols thr on o ps k a x price mu rest M). Qed.
Print Assumptions C61_recovery.
(* exactly where the capacity is not at a limit, at least where only p_nom_max binds, at most where only p_nom_min binds *)
Theorem C61_break_even : forall n losses T cols thr on o ps k a x price mu rest,
  market n losses T cols thr on o ps k a x price mu rest -> DispatchModel.ext a = true -> unscheduled T k a -> DispatchModel.nom_set a = None ->
  let gain := profit T on o k x price rest + toll rest ((pclass k ++ "-p_nom")%string, O, pname k) * capacity x k a in
  let paid := yearly on o * capacity x k a in
  let above := DispatchModel.nom_min a < capacity x k a \/ DispatchModel.nom_min a == 0 in
  let below := forall u, DispatchModel.nom_max a = Some u -> capacity x k a < u in
  (above -> below -> gain == paid) /\ (above -> 0 <= capacity x k a -> paid <= gain) /\ (below -> 0 <= DispatchModel.nom_min a -> gain <= paid).
Proof.
  intros n losses T cols thr on o ps k a x price mu rest M E U F. split; [|split].
  - exact (breaks_even n losses T cols thr on o ps k a x price mu rest M E U F).
  - exact (gains n losses T cols thr on o ps k a x price mu rest M E U F).
  - intros B L. exact (loses n losses T cols thr on o ps k a x price mu rest M E U F L B).
Qed.
Print Assumptions C61_break_even.

(* a generator of free size at bus a, a link of efficiency 1/2 to bus b, a load there; two snapshots of weight 1 and 2 *)
Definition e_on : nat -> bool := fun _ => true.
Definition e_gen : comp := {| c_name := "g"; c_bus := "a"; c_sign := 1; c_active := e_on |}.
Definition e_link : link := {| l_name := "l"; l_bus0 := "a"; l_bus1 := "b"; l_eff1 := fun _ => 1#2; l_ports := []; l_active := e_on |}.
Definition e_net : net := {| buses := ["a"; "b"]; gens := [e_gen]; stores := []; units := []; lines := []; trafos := []; links := [e_link];
  loads := [{| d_bus := "b"; d_sign := -(1); d_p := fun _ => 1; d_active := true |}] |}.
Definition e_asset (c nm : string) (e : bool) (cap mc : Q) : ObjectiveModel.asset :=
  {| ObjectiveModel.a_class := c; ObjectiveModel.a_name := nm; ObjectiveModel.a_flag := true; ObjectiveModel.a_in := fun _ => true; ObjectiveModel.a_on := e_on; ObjectiveModel.a_ext := e; ObjectiveModel.a_com := false;
     ObjectiveModel.a_nom := 0; ObjectiveModel.a_capital := cap; ObjectiveModel.a_marginal := fun _ => mc; ObjectiveModel.a_storage := fun _ => 0; ObjectiveModel.a_spill := fun _ => 0;
     ObjectiveModel.a_quadratic := fun _ => 0; ObjectiveModel.a_standby := fun _ => 0; ObjectiveModel.a_start := 0; ObjectiveModel.a_shut := 0; ObjectiveModel.a_inflow := fun _ => 0 |}.
Definition e_cost : ObjectiveModel.net := {| ObjectiveModel.assets := [e_asset "Generator" "g" true 10 5; e_asset "Link" "l" false 0 1]; ObjectiveModel.nsnaps := 2;
  ObjectiveModel.w_snap := fun t => match t with O => 1 | _ => 2 end; ObjectiveModel.per := fun _ => 0%Z; ObjectiveModel.multi := None |}.
Definition e_limits (nm : string) (e : bool) (nom : Q) : DispatchModel.asset :=
  {| DispatchModel.name := nm; DispatchModel.nom := nom; DispatchModel.nom_min := 0; DispatchModel.nom_max := None; DispatchModel.nom_set := None; DispatchModel.nom_mod := 0;
     DispatchModel.ext := e; DispatchModel.com := false; DispatchModel.active := e_on; DispatchModel.min_pu := fun _ => 0; DispatchModel.max_pu := fun _ => 1;
     DispatchModel.max_hours := 0; DispatchModel.fix_set := fun _ => None |}.
Definition e_mu (u : Q) : multipliers := {| m_lower := fun _ => 0; m_upper := fun t => match t with O => u | _ => 0 end; m_set := fun _ => 0; m_nom_lower := 0; m_nom_upper := 0; m_nom_set := 0; m_mod := 0 |}.
Definition e_sol : sol := fun _ => 2.
Definition e_price (b : string) (t : nat) : Q := if String.eqb b "a" then match t with O => 15 | _ => 5 end else match t with O => 32 | _ => 12 end.
Definition e_ps : list ObjectiveModel.piece := match ObjectiveModel.objective e_cost with Some ps => ps | None => [] end.

Lemma e_kkt (cy : duals) : (forall e, In e cy <-> In e (nodal_y e_net false 2 [] 45 (fun t b => weight e_cost t * e_price b t) ++ own_y "Generator" 2 (e_limits "g" true 0) (e_mu (-(10))) ++ own_y "Link" 2 (e_limits "l" false 10) (e_mu 0))) ->
  (forall f, total f cy == total f (nodal_y e_net false 2 [] 45 (fun t b => weight e_cost t * e_price b t) ++ own_y "Generator" 2 (e_limits "g" true 0) (e_mu (-(10))) ++ own_y "Link" 2 (e_limits "l" false 10) (e_mu 0))) ->
  kkt e_sol e_ps cy.
Proof.
  intros I E. assert (A : forall c y, In (c, y) cy -> holds e_sol c /\ signed c y /\ y * (eval e_sol (lhs c) - rhs c) == 0).
  { intros c y J. apply I in J. vm_compute in J. repeat (destruct J as [J|J]; [injection J as <- <-; vm_compute; repeat split; intros; try discriminate; reflexivity|]). destruct J. }
  split; [|split; [|split]].
  - intros c J. apply in_map_iff in J. destruct J as ([c' y] & <- & J). apply (A c' y J).
  - intros c y J. apply (A c y J).
  - intros c y J. apply (A c y J).
  - intros d. rewrite E. cbn. ring.
Qed.

Definition e_gen_market := market e_net false 2 [] 45 e_cost (e_asset "Generator" "g" true 10 5) e_ps (Gen e_gen) (e_limits "g" true 0) e_sol e_price (e_mu (-(10)))
  (own_y "Link" 2 (e_limits "l" false 10) (e_mu 0)).
Definition e_link_market := market e_net false 2 [] 45 e_cost (e_asset "Link" "l" false 0 1) e_ps (Lnk e_link) (e_limits "l" false 10) e_sol e_price (e_mu 0)
  (own_y "Generator" 2 (e_limits "g" true 0) (e_mu (-(10)))).
Lemma e_split {A} (a : A) P : split_at [a] a P. Proof. exists [], []. split; [reflexivity|]. intros b []. Qed.
(* the generator earns its investment of 10 per unit in the first snapshot; the link runs at cost *)
Example C61_ex_gen : e_gen_market /\ DispatchModel.ext (e_limits "g" true 0) = true /\ unscheduled 2 (Gen e_gen) (e_limits "g" true 0) /\
  profit 2 e_cost (e_asset "Generator" "g" true 10 5) (Gen e_gen) e_sol e_price (own_y "Link" 2 (e_limits "l" false 10) (e_mu 0)) == 20 /\
  capacity e_sol (Gen e_gen) (e_limits "g" true 0) == 2 /\
  (forall c y, In (c, y) (own_y "Link" 2 (e_limits "l" false 10) (e_mu 0)) -> apart (Gen e_gen) c).
Proof.
  split; [|split; [reflexivity|split; [intros t _ _; reflexivity|split; [vm_compute; reflexivity|split; [reflexivity|]]]]].
  - constructor; try (intros a [<-|[<-|[]]]; (reflexivity || (cbn; lra))); try reflexivity.
    + intros F; discriminate F.
    + repeat constructor; cbn; intuition discriminate.
    + intros b [].
    + split; [intros b [<-|[]]; left; reflexivity|apply e_split].
    + repeat split; cbn; lra.
    + exists [], [e_asset "Link" "l" false 0 1]. split; [reflexivity|]. intros b [<-|[]] F. discriminate F.
    + apply e_kkt; [reflexivity|intros f; reflexivity].
  - intros c y I. apply (dispatch_apart (Gen e_gen) "Link" "p" "p_nom" DispatchModel.Other false 2 [e_limits "l" false 10]).
    + right. left. reflexivity.
    + intros a [<-|[]]. left. discriminate.
    + rewrite <- (own_fst "Link" 2 (e_limits "l" false 10) (e_mu 0)). apply in_map_iff. exists (c, y). auto.
Qed.
Example C61_ex_link : e_link_market /\ DispatchModel.fix_set (e_limits "l" false 10) 0 = None /\
  0 * capacity e_sol (Lnk e_link) (e_limits "l" false 10) < power e_sol (Lnk e_link) 0 < 1 * capacity e_sol (Lnk e_link) (e_limits "l" false 10) /\ worth e_price (Lnk e_link) 0 == 1.
Proof.
  split; [|split; [reflexivity|split; [split; vm_compute; reflexivity|vm_compute; reflexivity]]].
  constructor; try (intros a [<-|[<-|[]]]; (reflexivity || (cbn; lra))); try reflexivity.
  - intros F; discriminate F.
  - repeat constructor; cbn; intuition discriminate.
  - intros b [].
  - split; [intros b [<-|[<-|[]]]; [left|right; left]; reflexivity|apply e_split].
  - repeat split; cbn; lra.
  - exists [e_asset "Generator" "g" true 10 5], []. split; [reflexivity|]. intros b [<-|[]] F. discriminate F.
  - apply e_kkt.
    + intros e. rewrite !in_app_iff. tauto.
    + intros f. cbn [pclass]. rewrite !total_app. ring.
Qed.
Example C61_ex_load : convex e_cost /\ ObjectiveModel.objective e_cost = Some e_ps /\ exists cs, nodal_balance e_net false 2 [] 45 = Some cs /\ connected e_net /\ sat e_sol cs.
Proof.
  split; [split; [intros t _; destruct t; cbn; lra|intros a t [<-|[<-|[]]] _; cbn; lra]|]. split; [reflexivity|].
  eexists. split; [reflexivity|]. split.
  - split; [intros c [<-|[]]; left; reflexivity|]. split; [intros b []|]. split; [|intros d [<-|[]]; right; left; reflexivity].
    intros l [<-|[]]. split; [left; reflexivity|]. split; [right; left; reflexivity|]. intros pe [].
  - intros c I. vm_compute in I. repeat (destruct I as [<-|I]; [vm_compute; reflexivity|]). destruct I.
Qed.
(* an emission limit with carrier gas at 1/5 per unit of primary energy, efficiency 1/2 *)
Definition e_ln : LimitModel.net := {| LimitModel.gens := [{| LimitModel.g_name := "g"; LimitModel.g_carrier := "gas"; LimitModel.g_active := e_on; LimitModel.g_eff := fun _ => 1#2 |}];
  LimitModel.units := []; LimitModel.stores := []; LimitModel.carriers := [("sun", 0); ("gas", 1#5)]; LimitModel.weight := fun _ => 2; LimitModel.nsnaps := 2; LimitModel.period := None |}.
Example C61_ex_emissions : exists c, LimitModel.primary_energy e_ln {| LimitModel.constant := 3; LimitModel.sense_of := Le; LimitModel.inv_period := None; LimitModel.carrier_attr := "co2_emissions" |} = Some c /\
  toll [(c, -(10))] ("Generator-p", 1%nat, "g") == -(8).
Proof. eexists. split; [reflexivity|]. vm_compute. reflexivity. Qed.
