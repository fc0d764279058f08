From Coq Require Import List String Bool QArith ZArith Arith Lqa Lia.
From Verif Require Import LinModel LinProofs BalanceModel BalanceSpec BalanceProofs PriceSpec PriceProofs StopriceSpec StopriceProofs.
From Verif Require DispatchModel ObjectiveModel ObjectiveSpec StorageModel StorageSpec StorageProofs.
Import ListNotations.
Open Scope string_scope.
Open Scope list_scope.
Open Scope Q_scope.

(* the multipliers below belong to the constraints of the model: limits of size, power and level, energy balances, bounds of spilling *)
Theorem C73_multipliers : forall T periods c d h s a ser mu,
  (exists sp, map fst (device_y T periods (Unit c d) s a ser mu) =
    (DispatchModel.nominal "StorageUnit" "p_nom" [a] ++ DispatchModel.fixed_nominal "StorageUnit" "p_nom" [a]) ++
    (DispatchModel.non_extendables "StorageUnit" "p_dispatch" DispatchModel.Storage_dispatch false T [with_set a (set_out ser)] ++
     DispatchModel.extendables "StorageUnit" "p_dispatch" "p_nom" DispatchModel.Storage_dispatch false T [with_set a (set_out ser)] ++
     DispatchModel.fixed_operation "StorageUnit" "p_dispatch" T [with_set a (set_out ser)]) ++
    (DispatchModel.non_extendables "StorageUnit" "p_store" DispatchModel.Storage_store false T [with_set a (set_in ser)] ++
     DispatchModel.extendables "StorageUnit" "p_store" "p_nom" DispatchModel.Storage_store false T [with_set a (set_in ser)] ++
     DispatchModel.fixed_operation "StorageUnit" "p_store" T [with_set a (set_in ser)]) ++
    (DispatchModel.non_extendables "StorageUnit" "state_of_charge" DispatchModel.Storage_soc false T [with_set a (set_level ser)] ++
     DispatchModel.extendables "StorageUnit" "state_of_charge" "p_nom" DispatchModel.Storage_soc false T [with_set a (set_level ser)] ++
     DispatchModel.fixed_operation "StorageUnit" "state_of_charge" T [with_set a (set_level ser)]) ++
    StorageModel.unit_balance T periods s d ++ sp /\ forall x, sat x sp <-> StorageModel.spill_bounds T s d x) /\
  map fst (device_y T periods (Sto c h) s a ser mu) =
    (DispatchModel.nominal "Store" "e_nom" [a] ++ DispatchModel.fixed_nominal "Store" "e_nom" [a]) ++
    (DispatchModel.non_extendables "Store" "e" DispatchModel.Other false T [with_set a (set_level ser)] ++
     DispatchModel.extendables "Store" "e" "e_nom" DispatchModel.Other false T [with_set a (set_level ser)] ++
     DispatchModel.fixed_operation "Store" "e" T [with_set a (set_level ser)]) ++
    StorageModel.store_balance T periods s h.
Proof. intros. split; [eexists; split; [apply unit_fst|apply spill_iff]|apply store_fst]. Qed.
Print Assumptions C73_multipliers.

(* a storage unit sends out power when the price covers what the energy drawn is worth and what the operation costs, fully when
   it is above and not at all when it is below *)
Theorem C73_discharge : forall n losses T cols thr on o ps periods c d s a ser x price mu rest t, let k := Unit c d in
  storage_market n losses T cols thr on o ps periods k s a ser x price mu rest -> (t < T)%nat -> dactive k t = true -> set_out ser t = None ->
  let earned := sale on k price rest t in let cost := weight on t * cost_out o k x t + of_energy mu t * drawn k t in let high := DispatchModel.max_pu a t * size x k a in
  (cost < earned -> discharge x k t == high) /\ (earned < cost -> discharge x k t == 0) /\ (0 < discharge x k t -> cost <= earned) /\ (discharge x k t < high -> earned <= cost).
Proof. intros n losses T cols thr on o ps periods c d s a ser x price mu rest t k M. exact (merit_out n losses T cols thr on o ps periods k s a ser x price mu rest M t I). Qed.
Print Assumptions C73_discharge.

(* it takes in power when the energy gained is worth the price *)
Theorem C73_charge : forall n losses T cols thr on o ps periods c d s a ser x price mu rest t, let k := Unit c d in
  storage_market n losses T cols thr on o ps periods k s a ser x price mu rest -> (t < T)%nat -> dactive k t = true -> set_in ser t = None ->
  let paid := purchase on k price rest t in let worth := of_energy mu t * gained k t in let high := - DispatchModel.min_pu a t * size x k a in
  (paid < worth -> charge x k t == high) /\ (worth < paid -> charge x k t == 0) /\ (0 < charge x k t -> paid <= worth) /\ (charge x k t < high -> worth <= paid).
Proof. intros n losses T cols thr on o ps periods c d s a ser x price mu rest t k M. exact (merit_in n losses T cols thr on o ps periods k s a ser x price mu rest M t I). Qed.
Print Assumptions C73_charge.

(* the power of a store is not limited: the value of its energy is the price at its bus less the cost of operation *)
Theorem C73_store : forall n losses T cols thr on o ps periods c h s a ser x price mu rest t, let k := Sto c h in
  storage_market n losses T cols thr on o ps periods k s a ser x price mu rest -> (t < T)%nat -> dactive k t = true ->
  sale on k price rest t == weight on t * cost_out o k x t + of_energy mu t * h t.
Proof. intros n losses T cols thr on o ps periods c h s a ser x price mu rest t k M. exact (store_power n losses T cols thr on o ps periods k s a ser x price mu rest M t I). Qed.
Print Assumptions C73_store.

(* without further constraints on the device these are the prices at its bus *)
Theorem C73_prices : forall on price rest k t, (forall c y, In (c, y) rest -> unrelated k c) ->
  sale on k price rest t == weight on t * local k price t /\
  match k with Unit _ _ => purchase on k price rest t == weight on t * local k price t | Sto _ _ => True end.
Proof.
  intros on price rest k t U. unfold sale, purchase. rewrite (toll_unrelated k rest (out_name k) t); [|destruct k; cbn; auto|exact U]. split; [ring|].
  destruct k as [c d|]; [|exact I]. rewrite (toll_unrelated (Unit c d) rest "StorageUnit-p_store" t); [ring|cbn; auto|exact U].
Qed.
Print Assumptions C73_prices.

(* energy is worth now what is left of it is worth at the snapshot it is passed on to, less the cost of holding it: at most that while the
   device holds more than it must, at least that while it could hold more; nothing if it is passed on to none *)
Theorem C73_level : forall n losses T cols thr on o ps periods k s a ser x price mu rest t q,
  storage_market n losses T cols thr on o ps periods k s a ser x price mu rest -> StorageSpec.regular periods -> (t < T)%nat -> dactive k t = true -> set_level ser t = None ->
  (forall u, (u < T)%nat -> dactive k u = true -> StorageSpec.comes_from T periods s u (StorageSpec.From t) -> q == StorageModel.s_stand s u * of_energy mu u) ->
  ((forall u, (u < T)%nat -> dactive k u = true -> ~ StorageSpec.comes_from T periods s u (StorageSpec.From t)) -> q == 0) ->
  (low_level k a t * size x k a < energy x k t -> of_energy mu t + holding on o k rest t <= q) /\
  (energy x k t < high_level k a t * size x k a -> q <= of_energy mu t + holding on o k rest t).
Proof. intros n losses T cols thr on o ps periods k s a ser x price mu rest t q M R L P N. exact (level_value n losses T cols thr on o ps periods k s a ser x price mu rest M t R L P N q). Qed.
Print Assumptions C73_level.
(* there is one such value: energy of a snapshot is passed on to at most one other *)
Theorem C73_level_defined : forall n losses T cols thr on o ps periods k s a ser x price mu rest t,
  storage_market n losses T cols thr on o ps periods k s a ser x price mu rest -> StorageSpec.regular periods -> (t < T)%nat -> dactive k t = true ->
  exists q, (forall u, (u < T)%nat -> dactive k u = true -> StorageSpec.comes_from T periods s u (StorageSpec.From t) -> q == StorageModel.s_stand s u * of_energy mu u) /\
    ((forall u, (u < T)%nat -> dactive k u = true -> ~ StorageSpec.comes_from T periods s u (StorageSpec.From t)) -> q == 0).
Proof.
  intros n losses T cols thr on o ps periods k s a ser x price mu rest t M R L P. exists (next T periods k s mu t). split.
  - intros u Lu Pu C. exact (next_is n losses T cols thr on o ps periods k s a ser x price mu rest M t u R P Lu Pu C).
  - exact (next_none n losses T cols thr on o ps periods k s a ser x price mu rest M t R P).
Qed.
Print Assumptions C73_level_defined.

(* what is bought at r and sold at t pays: the price at t, less the cost of operation, covers the price at r and the cost of holding after all losses *)
Theorem C73_arbitrage : forall n losses T cols thr on o ps periods c d s a ser x price mu rest r t f h, let k := Unit c d in
  storage_market n losses T cols thr on o ps periods k s a ser x price mu rest -> StorageSpec.regular periods ->
  (forall u, (u < T)%nat -> dactive k u = true -> 0 <= StorageModel.s_stand s u) -> (r < T)%nat -> (t < T)%nat -> dactive k r = true -> dactive k t = true ->
  set_in ser r = None -> set_out ser t = None -> 0 <= gained k r -> 0 <= drawn k t ->
  0 < charge x k r -> 0 < discharge x k t -> path T periods k s (filled k a ser x) (holding on o k rest) r t f h ->
  (purchase on k price rest r + gained k r * h) * drawn k t <= f * gained k r * (sale on k price rest t - weight on t * cost_out o k x t).
Proof. intros n losses T cols thr on o ps periods c d s a ser x price mu rest r t f h k M. exact (arbitrage n losses T cols thr on o ps periods k s a ser x price mu rest M r t f h I). Qed.
Print Assumptions C73_arbitrage.
(* nothing more is to be earned that way: with room in the device at r, at t and between, it would not pay *)
Theorem C73_no_arbitrage : forall n losses T cols thr on o ps periods c d s a ser x price mu rest r t f h, let k := Unit c d in
  storage_market n losses T cols thr on o ps periods k s a ser x price mu rest -> StorageSpec.regular periods ->
  (forall u, (u < T)%nat -> dactive k u = true -> 0 <= StorageModel.s_stand s u) -> (r < T)%nat -> (t < T)%nat -> dactive k r = true -> dactive k t = true ->
  set_in ser r = None -> set_out ser t = None -> 0 <= gained k r -> 0 <= drawn k t ->
  charge x k r < - DispatchModel.min_pu a r * size x k a -> discharge x k t < DispatchModel.max_pu a t * size x k a ->
  path T periods k s (roomy k a ser x) (holding on o k rest) r t f h ->
  f * gained k r * (sale on k price rest t - weight on t * cost_out o k x t) <= (purchase on k price rest r + gained k r * h) * drawn k t.
Proof. intros n losses T cols thr on o ps periods c d s a ser x price mu rest r t f h k M. exact (no_arbitrage n losses T cols thr on o ps periods k s a ser x price mu rest M r t f h I). Qed.
Print Assumptions C73_no_arbitrage.

(* a lossy storage unit charges and discharges at the same time only where the price is not positive *)
Theorem C73_both_ways : forall n losses T cols thr on o ps periods c d s a ser x price mu rest t, let k := Unit c d in
  storage_market n losses T cols thr on o ps periods k s a ser x price mu rest -> (t < T)%nat -> dactive k t = true -> set_in ser t = None -> set_out ser t = None ->
  (forall c q, In (c, q) rest -> unrelated k c) -> 0 <= gained k t -> gained k t < drawn k t -> 0 <= weight on t * cost_out o k x t ->
  0 < charge x k t -> 0 < discharge x k t -> of_energy mu t <= 0 /\ weight on t * local k price t <= 0.
Proof. intros n losses T cols thr on o ps periods c d s a ser x price mu rest t k M. exact (both_ways n losses T cols thr on o ps periods k s a ser x price mu rest M t I). Qed.
Print Assumptions C73_both_ways.

(* an extendable device earns its investment back: surplus equals annual costs of the size, up to what its limits and what it receives are worth *)
Theorem C73_recovery : forall n losses T cols thr on o ps periods k s a ser x price mu rest start,
  storage_market n losses T cols thr on o ps periods k s a ser x price mu rest -> StorageSpec.regular periods -> starts T periods k s start ->
  (forall c q, In (c, q) rest -> unrelated k c) -> DispatchModel.ext a = true -> unset T ser ->
  surplus on o k x price rest T == yearly on o * size x k a - size_rent a mu + endowment T start k s mu.
Proof. intros n losses T cols thr on o ps periods k s a ser x price mu rest start M. exact (recovery_s n losses T cols thr on o ps periods k s a ser x price mu rest M start). Qed.
Print Assumptions C73_recovery.
Theorem C73_break_even : forall n losses T cols thr on o ps periods k s a ser x price mu rest,
  storage_market n losses T cols thr on o ps periods k s a ser x price mu rest -> StorageSpec.regular periods ->
  (forall c q, In (c, q) rest -> unrelated k c) -> DispatchModel.ext a = true -> unset T ser ->
  match k with Unit _ d => forall t, (t < T)%nat -> StorageModel.inflow d t == 0 | Sto _ _ => True end -> StorageModel.s_init s == 0 ->
  DispatchModel.nom_set a = None -> (DispatchModel.nom_min a == 0 \/ DispatchModel.nom_min a < size x k a) ->
  match DispatchModel.nom_max a with Some u => size x k a < u | None => True end -> surplus on o k x price rest T == yearly on o * size x k a.
Proof. intros n losses T cols thr on o ps periods k s a ser x price mu rest M. exact (break_even_s n losses T cols thr on o ps periods k s a ser x price mu rest M). Qed.
Print Assumptions C73_break_even.
(* one of given size makes no loss on what it buys and sells *)
Theorem C73_no_loss : forall n losses T cols thr on o ps periods k s a ser x price mu rest start,
  storage_market n losses T cols thr on o ps periods k s a ser x price mu rest -> StorageSpec.regular periods -> starts T periods k s start ->
  (forall c q, In (c, q) rest -> unrelated k c) -> DispatchModel.ext a = false -> unset T ser -> may_idle T k a ->
  endowment T start k s mu <= surplus on o k x price rest T.
Proof. intros n losses T cols thr on o ps periods k s a ser x price mu rest start M. exact (no_loss_s n losses T cols thr on o ps periods k s a ser x price mu rest M start). Qed.
Print Assumptions C73_no_loss.

(* the multiplier of the energy balance is what energy is worth: no solution for another initial level is cheaper than the old cost less the change times the multiplier *)
Theorem C73_initial : forall n losses T cols thr on o ps periods k s a ser x price mu rest start q x',
  storage_market n losses T cols thr on o ps periods k s a ser x price mu rest -> StorageSpec.regular periods -> starts T periods k s start -> convex on ->
  sat x' (map fst (nodal_y n losses T cols thr (fun t b => weight on t * price b t)) ++ map fst (device_y T periods k (with_init s q) a ser mu) ++ map fst rest) ->
  ObjectiveModel.value_of x ps - (q - StorageModel.s_init s) * total (fun t => if dactive k t && start t then of_energy mu t else 0) (seq 0 T) <= ObjectiveModel.value_of x' ps.
Proof. intros n losses T cols thr on o ps periods k s a ser x price mu rest start q x' M. exact (initial_value n losses T cols thr on o ps periods k s a ser x price mu rest M start q x'). Qed.
Print Assumptions C73_initial.

(* two snapshots, a generator of cost 10 and 100, loads 1 and 1 (unit) or 1 and 2 (store) at one bus *)
Definition e_on : nat -> bool := fun _ => true.
Definition e_comp (nm : string) : comp := {| c_name := nm; c_bus := "b"; c_sign := 1; c_active := e_on |}.
Definition e_net (u : bool) (l : Q) : net := {| buses := ["b"]; gens := [e_comp "g"]; stores := if u then [] else [e_comp "s"]; units := if u then [e_comp "s"] else []; lines := []; trafos := []; links := [];
  loads := [{| d_bus := "b"; d_sign := -(1); d_p := fun t => match t with O => 1 | _ => l end; d_active := true |}] |}.
Definition e_price (_ : string) (t : nat) : Q := match t with O => 10 | _ => 100 end.
Definition e_asset (c nm : string) (e : bool) (cap : Q) (mc : nat -> Q) : ObjectiveModel.asset :=
  {| ObjectiveModel.a_class := c; ObjectiveModel.a_name := nm; ObjectiveModel.a_flag := true; ObjectiveModel.a_in := fun _ => true; ObjectiveModel.a_on := e_on; ObjectiveModel.a_ext := e; ObjectiveModel.a_com := false;
     ObjectiveModel.a_nom := 0; ObjectiveModel.a_capital := cap; ObjectiveModel.a_marginal := mc; ObjectiveModel.a_storage := fun _ => 0; ObjectiveModel.a_spill := fun _ => 0;
     ObjectiveModel.a_quadratic := fun _ => 0; ObjectiveModel.a_standby := fun _ => 0; ObjectiveModel.a_start := 0; ObjectiveModel.a_shut := 0; ObjectiveModel.a_inflow := fun _ => 0 |}.
Definition e_o (u : bool) : ObjectiveModel.asset := if u then e_asset "StorageUnit" "s" true 40 (fun _ => 0) else e_asset "Store" "s" false 0 (fun _ => 0).
Definition e_cost (u : bool) : ObjectiveModel.net := {| ObjectiveModel.assets := [e_asset "Generator" "g" false 0 (e_price "b"); e_o u]; ObjectiveModel.nsnaps := 2;
  ObjectiveModel.w_snap := fun _ => 1; ObjectiveModel.per := fun _ => 0%Z; ObjectiveModel.multi := None |}.
Definition e_ps (u : bool) : list ObjectiveModel.piece := match ObjectiveModel.objective (e_cost u) with Some ps => ps | None => [] end.
Definition e_limits (nm : string) (e : bool) (nom lo : Q) : DispatchModel.asset :=
  {| DispatchModel.name := nm; DispatchModel.nom := nom; DispatchModel.nom_min := 0; DispatchModel.nom_max := None; DispatchModel.nom_set := None; DispatchModel.nom_mod := 0;
     DispatchModel.ext := e; DispatchModel.com := false; DispatchModel.active := e_on; DispatchModel.min_pu := fun _ => lo; DispatchModel.max_pu := fun _ => 1;
     DispatchModel.max_hours := 1; DispatchModel.fix_set := fun _ => None |}.
Definition e_s : StorageModel.storage := {| StorageModel.s_name := "s"; StorageModel.s_active := e_on; StorageModel.s_stand := fun _ => 1; StorageModel.s_init := 0;
  StorageModel.s_cyclic := false; StorageModel.s_cyclic_pp := false; StorageModel.s_init_pp := false |}.
Definition e_d : StorageModel.unit_data := {| StorageModel.eh := fun _ => 1; StorageModel.eff_dispatch := fun _ => 1#2; StorageModel.eff_store := fun _ => 1; StorageModel.inflow := fun _ => 0 |}.
Definition e_ser : series := {| set_out := fun _ => None; set_in := fun _ => None; set_level := fun _ => None |}.
Definition two (a b : Q) : nat -> Q := fun t => match t with O => a | S O => b | _ => 0 end.
Definition e_lim (l h : nat -> Q) : limit := {| l_low := l; l_high := h; l_set := two 0 0 |}.
Definition e_umu : sduals := {| of_energy := two 50 50; of_out := e_lim (two 90 0) (two 0 0); of_in := e_lim (two 0 50) (two (-(40)) 0); of_level := e_lim (two 0 50) (two 0 0);
  of_spill_low := two 0 0; of_spill_high := two 0 0; of_nom_low := 0; of_nom_high := 0; of_nom_set := 0 |}.
Definition e_smu : sduals := {| of_energy := two 10 100; of_out := e_lim (two 0 0) (two 0 0); of_in := e_lim (two 0 0) (two 0 0); of_level := e_lim (two 0 100) (two (-(90)) 0);
  of_spill_low := two 0 0; of_spill_high := two 0 0; of_nom_low := 0; of_nom_high := 0; of_nom_set := 0 |}.
Definition e_gmu : multipliers := {| m_lower := two 0 0; m_upper := two 0 0; m_set := two 0 0; m_nom_lower := 0; m_nom_upper := 0; m_nom_set := 0; m_mod := 0 |}.
Definition e_rest : duals := own_y "Generator" 2 (e_limits "g" false 10 0) e_gmu.
Definition e_ux : sol := fun v => let '(n, t, _) := v in
  if String.eqb n "Generator-p" then two 2 (1#2) t else if String.eqb n "StorageUnit-p_store" then two 1 0 t else if String.eqb n "StorageUnit-p_dispatch" then two 0 (1#2) t else
  if String.eqb n "StorageUnit-state_of_charge" then two 1 0 t else if String.eqb n "StorageUnit-p_nom" then 1 else 0.
Definition e_sx : sol := fun v => let '(n, t, _) := v in
  if String.eqb n "Generator-p" then two 2 1 t else if String.eqb n "Store-p" then two (-(1)) 1 t else if String.eqb n "Store-e" then two 1 0 t else 0.

Ltac solved := split; [|split; [|split]];
  [intros c J; vm_compute in J; repeat (destruct J as [<-|J]; [vm_compute; (reflexivity || (intros; discriminate))|]); destruct J
  |intros c y J; vm_compute in J; repeat (destruct J as [J|J]; [injection J as <- <-; vm_compute; (exact I || (intros; discriminate))|]); destruct J
  |intros c y J; vm_compute in J; repeat (destruct J as [J|J]; [injection J as <- <-; vm_compute; reflexivity|]); destruct J
  |intros d; cbn; field].
Definition e_unit := storage_market (e_net true 1) false 2 [] 45 (e_cost true) (e_o true) (e_ps true) None (Unit (e_comp "s") e_d) e_s (e_limits "s" true 0 (-(1))) e_ser e_ux e_price e_umu e_rest.
Definition e_store := storage_market (e_net false 2) false 2 [] 45 (e_cost false) (e_o false) (e_ps false) None (Sto (e_comp "s") (fun _ => 1)) e_s (e_limits "s" false 1 0) e_ser e_sx e_price e_smu e_rest.
Lemma e_split {A} (a : A) P : split_at [a] a P. Proof. exists [], []. split; [reflexivity|]. intros b []. Qed.
Lemma e_unit_ok : e_unit.
Proof.
  constructor; try (intros a [<-|[<-|[]]]; (reflexivity || (cbn; lra))); try reflexivity.
  - intros F; discriminate F.
  - repeat constructor; cbn; intuition discriminate.
  - intros b [].
  - split; [left; reflexivity|apply e_split].
  - repeat split; cbn; lra.
  - exists [e_asset "Generator" "g" false 0 (e_price "b")], []. split; [reflexivity|]. intros b [<-|[]] F. discriminate F.
  - solved.
Qed.
Lemma e_store_ok : e_store.
Proof.
  constructor; try (intros a [<-|[<-|[]]]; (reflexivity || (cbn; lra))); try reflexivity.
  - intros F; discriminate F.
  - repeat constructor; cbn; intuition discriminate.
  - intros b [].
  - split; [left; reflexivity|apply e_split].
  - repeat split; cbn; lra.
  - exists [e_asset "Generator" "g" false 0 (e_price "b")], []. split; [reflexivity|]. intros b [<-|[]] F. discriminate F.
  - solved.
Qed.
Lemma e_apart k : dname k = "s" -> forall c q, In (c, q) e_rest -> unrelated k c.
Proof. intros E c q J p v K. left. rewrite E. vm_compute in J. repeat (destruct J as [J|J]; [injection J as <- <-; cbn in K; destruct K as [K|[]]; injection K as <- <-; discriminate|]). destruct J. Qed.
Lemma e_next : StorageSpec.comes_from 2 None e_s 1 (StorageSpec.From 0).
Proof. left. split; [lia|]. split; [reflexivity|]. intros r H. lia. Qed.
(* bought at 10, sold at 100 after losing half: earns the 40 that a unit of its size costs *)
Example C73_ex_unit : e_unit /\ (forall c q, In (c, q) e_rest -> unrelated (Unit (e_comp "s") e_d) c) /\ unset 2 e_ser /\ starts 2 None (Unit (e_comp "s") e_d) e_s (fun t => Nat.eqb t 0) /\
  0 < charge e_ux (Unit (e_comp "s") e_d) 0 /\ 0 < discharge e_ux (Unit (e_comp "s") e_d) 1 < 1 * size e_ux (Unit (e_comp "s") e_d) (e_limits "s" true 0 (-(1))) /\
  path 2 None (Unit (e_comp "s") e_d) e_s (filled (Unit (e_comp "s") e_d) (e_limits "s" true 0 (-(1))) e_ser e_ux) (holding (e_cost true) (e_o true) (Unit (e_comp "s") e_d) e_rest) 0 1 (1 * 1)
    (holding (e_cost true) (e_o true) (Unit (e_comp "s") e_d) e_rest 0 + 1 * 0) /\
  surplus (e_cost true) (e_o true) (Unit (e_comp "s") e_d) e_ux e_price e_rest 2 == 40 /\ yearly (e_cost true) (e_o true) * size e_ux (Unit (e_comp "s") e_d) (e_limits "s" true 0 (-(1))) == 40.
Proof.
  split; [exact e_unit_ok|]. split; [apply e_apart; reflexivity|]. split; [intros t _; repeat split|]. split.
  { intros t L _. destruct t as [|[|t]]; [| |lia].
    - split; [intros _|reflexivity]. split; [reflexivity|]. intros r H. lia.
    - split; [discriminate|]. intros (_ & F). specialize (F O ltac:(lia)). discriminate F. }
  split; [vm_compute; reflexivity|]. split; [split; vm_compute; reflexivity|]. split; [|split; vm_compute; reflexivity].
  exact (path_next 2 None (Unit (e_comp "s") e_d) e_s _ _ 0 1 1 1 0 ltac:(lia) eq_refl ltac:(lia) eq_refl e_next (conj eq_refl eq_refl) (path_here _ _ _ _ _ _ _)).
Qed.
Example C73_ex_store : e_store /\ (forall c q, In (c, q) e_rest -> unrelated (Sto (e_comp "s") (fun _ => 1)) c) /\ unset 2 e_ser /\ may_idle 2 (Sto (e_comp "s") (fun _ => 1)) (e_limits "s" false 1 0) /\
  surplus (e_cost false) (e_o false) (Sto (e_comp "s") (fun _ => 1)) e_sx e_price e_rest 2 == 90 /\ convex (e_cost false).
Proof.
  split; [exact e_store_ok|]. split; [apply e_apart; reflexivity|]. split; [intros t _; repeat split|]. split; [split; [cbn; lra|]; intros t _; cbn; lra|]. split; [vm_compute; reflexivity|].
  split; [intros t _; cbn; lra|]. intros a t [<-|[<-|[]]] _; cbn; lra.
Qed.
(* a generator that pays for being used, one snapshot, a unit that cannot hold energy: it takes in 1 and sends out 1/2 at a price of -10 *)
Definition b_cost (q : Q) (m : nat) : ObjectiveModel.net := {| ObjectiveModel.assets := [e_asset "Generator" "g" false 0 (fun _ => q); e_asset "StorageUnit" "s" false 0 (fun _ => 0)]; ObjectiveModel.nsnaps := m;
  ObjectiveModel.w_snap := fun _ => 1; ObjectiveModel.per := fun _ => 0%Z; ObjectiveModel.multi := None |}.
Definition b_ps q m : list ObjectiveModel.piece := match ObjectiveModel.objective (b_cost q m) with Some ps => ps | None => [] end.
Definition b_limits (mh : Q) : DispatchModel.asset :=
  {| DispatchModel.name := "s"; DispatchModel.nom := 1; DispatchModel.nom_min := 0; DispatchModel.nom_max := None; DispatchModel.nom_set := None; DispatchModel.nom_mod := 0;
     DispatchModel.ext := false; DispatchModel.com := false; DispatchModel.active := e_on; DispatchModel.min_pu := fun _ => -(1); DispatchModel.max_pu := fun _ => 1;
     DispatchModel.max_hours := mh; DispatchModel.fix_set := fun _ => None |}.
Definition b_mu : sduals := {| of_energy := two (-(5)) 0; of_out := e_lim (two 0 0) (two 0 0); of_in := e_lim (two 0 0) (two (-(5)) 0); of_level := e_lim (two 0 0) (two (-(5)) 0);
  of_spill_low := two 0 0; of_spill_high := two 0 0; of_nom_low := 0; of_nom_high := 0; of_nom_set := 0 |}.
Definition b_x : sol := fun v => let '(n, t, _) := v in
  if String.eqb n "Generator-p" then 3#2 else if String.eqb n "StorageUnit-p_store" then 1 else if String.eqb n "StorageUnit-p_dispatch" then 1#2 else 0.
Definition b_rest (m : nat) : duals := own_y "Generator" m (e_limits "g" false 10 0) e_gmu.
Example C73_ex_both : storage_market (e_net true 1) false 1 [] 45 (b_cost (-(10)) 1) (e_asset "StorageUnit" "s" false 0 (fun _ => 0)) (b_ps (-(10)) 1) None (Unit (e_comp "s") e_d) e_s (b_limits 0) e_ser b_x
    (fun _ _ => -(10)) b_mu (b_rest 1) /\
  0 < charge b_x (Unit (e_comp "s") e_d) 0 /\ 0 < discharge b_x (Unit (e_comp "s") e_d) 0 /\ gained (Unit (e_comp "s") e_d) 0 < drawn (Unit (e_comp "s") e_d) 0.
Proof.
  split; [|split; [|split]; vm_compute; reflexivity].
  constructor; try (intros a [<-|[<-|[]]]; (reflexivity || (cbn; lra))); try reflexivity.
  - intros F; discriminate F.
  - repeat constructor; cbn; intuition discriminate.
  - intros b [].
  - split; [left; reflexivity|apply e_split].
  - repeat split; cbn; lra.
  - exists [e_asset "Generator" "g" false 0 (fun _ => -(10))], []. split; [reflexivity|]. intros b [<-|[]] F. discriminate F.
  - solved.
Qed.
(* the same price at both snapshots: the unit stands idle with room *)
Definition r_mu : sduals := {| of_energy := two 5 5; of_out := e_lim (two 0 0) (two 0 0); of_in := e_lim (two 5 5) (two 0 0); of_level := e_lim (two 0 5) (two 0 0);
  of_spill_low := two 0 0; of_spill_high := two 0 0; of_nom_low := 0; of_nom_high := 0; of_nom_set := 0 |}.
Definition r_x : sol := fun v => let '(n, t, _) := v in if String.eqb n "Generator-p" then 1 else 0.
Example C73_ex_room : storage_market (e_net true 1) false 2 [] 45 (b_cost 10 2) (e_asset "StorageUnit" "s" false 0 (fun _ => 0)) (b_ps 10 2) None (Unit (e_comp "s") e_d) e_s (b_limits 1) e_ser r_x
    (fun _ _ => 10) r_mu (b_rest 2) /\
  charge r_x (Unit (e_comp "s") e_d) 0 < - -(1) * size r_x (Unit (e_comp "s") e_d) (b_limits 1) /\ discharge r_x (Unit (e_comp "s") e_d) 1 < 1 * size r_x (Unit (e_comp "s") e_d) (b_limits 1) /\
  path 2 None (Unit (e_comp "s") e_d) e_s (roomy (Unit (e_comp "s") e_d) (b_limits 1) e_ser r_x) (holding (b_cost 10 2) (e_asset "StorageUnit" "s" false 0 (fun _ => 0)) (Unit (e_comp "s") e_d) (b_rest 2)) 0 1 (1 * 1)
    (holding (b_cost 10 2) (e_asset "StorageUnit" "s" false 0 (fun _ => 0)) (Unit (e_comp "s") e_d) (b_rest 2) 0 + 1 * 0).
Proof.
  split; [|split; [|split]; [vm_compute; reflexivity|vm_compute; reflexivity|]].
  2: exact (path_next 2 None (Unit (e_comp "s") e_d) e_s _ _ 0 1 1 1 0 ltac:(lia) eq_refl ltac:(lia) eq_refl e_next (conj eq_refl eq_refl) (path_here _ _ _ _ _ _ _)).
  constructor; try (intros a [<-|[<-|[]]]; (reflexivity || (cbn; lra))); try reflexivity.
  - intros F; discriminate F.
  - repeat constructor; cbn; intuition discriminate.
  - intros b [].
  - split; [left; reflexivity|apply e_split].
  - repeat split; cbn; lra.
  - exists [e_asset "Generator" "g" false 0 (fun _ => 10)], []. split; [reflexivity|]. intros b [<-|[]] F. discriminate F.
  - solved.
Qed.
