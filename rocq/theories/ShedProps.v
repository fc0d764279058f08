From Coq Require Import List String Bool QArith ZArith Arith Lqa Lia Setoid.
From Verif Require Import LinModel BalanceModel BalanceSpec ShedModel ShedSpec ShedProofs.
From Verif Require DispatchModel DispatchSpec DispatchProofs ObjectiveModel ObjectiveSpec PriceSpec PriceProofs.
Import ListNotations.
Open Scope string_scope.
Open Scope list_scope.
Open Scope Q_scope.

(* it fails exactly where a bus is named twice *)
Theorem C69_defined : forall p F, add_load_shedding p F <> None <-> NoDup (s_buses p).
Proof. exact defined. Qed.
Print Assumptions C69_defined.

(* an operation of everything else can be completed by shedding exactly where no bus has too much power, and none lacks more than p_nom in
   units of sign; buses without shedding must be balanced *)
Theorem C69_completes : forall p F F' names, add_load_shedding p F = Some (F', names) -> free p F -> forall losses T cols thr cs rest x,
  same_generators F -> silent p rest -> (forall b, In b (s_buses p) -> 0 < s_sign p b) ->
  nodal_balance (bal F') losses T cols thr = Some cs -> (forall b, In b cols -> b = "" \/ In b (buses (bal F))) -> (forall b, In b (s_buses p) -> In b (buses (bal F))) ->
  ((exists x', but_shedding p x x' /\ sat x' (cs ++ limits F' losses T ++ rest)) <->
   sat x (limits F losses T ++ rest) /\ forall b t, In b (buses (bal F)) -> (t < T)%nat ->
     if known_name (s_buses p) b then 0 <= missing (bal F) losses x t b /\ missing (bal F) losses x t b <= s_sign p b * s_nom p b
     else missing (bal F) losses x t b == 0).
Proof. exact completes. Qed.
Print Assumptions C69_completes.

(* with shedding at every bus the balance is never refused for unserved load *)
Theorem C69_built : forall p F F' names, add_load_shedding p F = Some (F', names) -> free p F -> forall losses T cols thr,
  (forall b, In b (buses (bal F)) -> In b (s_buses p)) -> buses (bal F) <> [] -> (forall b, In b cols -> b = "" \/ In b (buses (bal F))) ->
  nodal_balance (bal F') losses T cols thr <> None.
Proof. exact built. Qed.
Print Assumptions C69_built.

(* the objective exists where it did, and grows by the cost of the shedding; the rest of it does not see the shedding *)
Theorem C69_cost : forall p F F' names, add_load_shedding p F = Some (F', names) -> free p F -> forall ps x, same_generators F -> costed F x -> ObjectiveModel.objective (obj F) = Some ps ->
  exists ps', ObjectiveModel.objective (obj F') = Some ps' /\ costed F' x /\
    ObjectiveModel.value_of x ps' == ObjectiveModel.value_of x ps + shedding_cost p F x /\
    forall x', but_shedding p x x' -> ObjectiveModel.value_of x' ps == ObjectiveModel.value_of x ps.
Proof.
  intros p F F' names A FR ps x SG C O. destruct (ObjectiveModel.objective (obj F')) as [ps'|] eqn:O'.
  - exists ps'. split; [reflexivity|]. split; [exact (costed_new p F F' names A FR x C)|]. split; [exact (cost_new p F F' names A FR x ps ps' C O O')|].
    intros x' B. exact (value_same p F FR x x' ps SG C B O).
  - exfalso. apply (objective_exists p F F' names A FR); [rewrite O; discriminate|exact O'].
Qed.
Print Assumptions C69_cost.

(* where the network had an optimum with prices below the costs of shedding (per unit of sign), shedding makes nothing cheaper:
   no solution with shedding costs less than the old optimum, which itself remains a solution *)
Theorem C69_optimum_stays : forall p F F' names, add_load_shedding p F = Some (F', names) -> free p F -> forall losses T cols thr own others cs cs' ps ps' x x' price,
  same_generators F -> T = ObjectiveModel.nsnaps (obj F) -> NoDup (buses (bal F)) -> (forall b, In b cols -> b = "" \/ In b (buses (bal F))) ->
  (forall b, In b (s_buses p) -> In b (buses (bal F))) ->
  ObjectiveModel.objective (obj F) = Some ps -> ObjectiveModel.objective (obj F') = Some ps' -> PriceSpec.convex (obj F) -> costed F x' ->
  nodal_balance (bal F) losses T cols thr = Some cs -> forall cols' thr', (forall b, In b cols' -> b = "" \/ In b (buses (bal F))) -> nodal_balance (bal F') losses T cols' thr' = Some cs' ->
  map fst own = limits F losses T ->
  PriceSpec.kkt x ps (PriceSpec.nodal_y (bal F) losses T cols thr (fun t b => PriceSpec.weight (obj F) t * price b t) ++ own ++ others) ->
  (forall b t, In b (s_buses p) -> (t < T)%nat -> s_sign p b * price b t <= s_cost p b) ->
  sat x' (cs' ++ limits F' losses T ++ map fst others) ->
  ObjectiveModel.value_of x ps <= ObjectiveModel.value_of x' ps'.
Proof. exact stays_optimal. Qed.
Print Assumptions C69_optimum_stays.
Theorem C69_no_shedding : forall p F F' names, add_load_shedding p F = Some (F', names) -> free p F -> forall losses T cols thr cols' thr' cs cs' rest ps ps' x,
  same_generators F -> (forall b, In b cols -> b = "" \/ In b (buses (bal F))) -> (forall b, In b cols' -> b = "" \/ In b (buses (bal F))) ->
  (forall b, In b (s_buses p) -> 0 <= s_nom p b) -> costed F x -> ObjectiveModel.objective (obj F) = Some ps -> ObjectiveModel.objective (obj F') = Some ps' ->
  nodal_balance (bal F) losses T cols thr = Some cs -> nodal_balance (bal F') losses T cols' thr' = Some cs' -> without_shedding p x ->
  sat x (cs ++ limits F losses T ++ rest) -> sat x (cs' ++ limits F' losses T ++ rest) /\ ObjectiveModel.value_of x ps' == ObjectiveModel.value_of x ps.
Proof.
  intros p F F' names A FR losses T cols thr cols' thr' cs cs' rest ps ps' x SG CO CO' NP C O O' B B' W S.
  apply sat_app in S as [S1 S]. apply sat_app in S as [S2 S3]. assert (BB : buses (bal F') = buses (bal F)) by (rewrite (bal_is p F F' names A FR); reflexivity). split.
  - apply sat_app. split; [|apply sat_app; split; [|exact S3]].
    + apply (BalanceProofs.nodal_iff (bal F') losses x T cols' thr' cs' B'); [rewrite BB; apply PriceProofs.mesh_ok; exact CO'|]. rewrite BB. intros b t I L.
      rewrite (net_new p F F' names A FR), (demand_new p F F' names A FR).
      rewrite (proj1 (BalanceProofs.nodal_iff (bal F) losses x T cols thr cs B (PriceProofs.mesh_ok _ cols thr CO)) S1 b t I L).
      destruct (known_name (s_buses p) b) eqn:K; [|ring]. apply known_name_iff in K. rewrite (W b t K). ring.
    + apply (limits_new p F F' names A FR). split; [exact S2|]. intros b t I L. assert (N := NP b I). assert (Z := W b t I). split; lra.
  - rewrite (cost_new p F F' names A FR x ps ps' C O O'). unfold shedding_cost. rewrite total_zero_eq_all; [ring|]. intros t. apply BalanceProofs.total_zero. intros b I. rewrite (W b t I). ring.
Qed.
Print Assumptions C69_no_shedding.

(* where shedding is below its limit the price per unit of sign is at most its cost, where it is used at least; and it is used only then *)
Theorem C69_price_cap : forall p F F' names, add_load_shedding p F = Some (F', names) -> free p F -> forall losses T cols thr o ps c a x price mu rest b t,
  same_generators F -> In b (s_buses p) -> PriceSpec.market (bal F') losses T cols thr (obj F') o ps (PriceSpec.Gen c) a x price mu rest ->
  c_name c = shed_name p b -> In a (dis F') -> (forall k y, In (k, y) rest -> PriceSpec.apart (PriceSpec.Gen c) k) ->
  (t < T)%nat -> 0 < PriceSpec.weight (obj F) t ->
  (shedding p x b t < s_nom p b -> s_sign p b * price b t <= s_cost p b) /\
  (0 < shedding p x b t -> s_cost p b <= s_sign p b * price b t) /\
  (s_sign p b * price b t < s_cost p b -> shedding p x b t == 0).
Proof. exact price_cap. Qed.
Print Assumptions C69_price_cap.

(* a generator that already has the name is kept as it is; a second call with other parameters changes nothing, but returns the names *)
Theorem C69_taken : forall p F F' names b, add_load_shedding p F = Some (F', names) -> In (shed_name p b) (map c_name (gens (bal F))) ->
  forall c, In c (gens (bal F')) -> c_name c = shed_name p b -> In c (gens (bal F)).
Proof. exact taken. Qed.
Print Assumptions C69_taken.
Theorem C69_again : forall p q F F1 n1 F2 n2, add_load_shedding p F = Some (F1, n1) -> add_load_shedding q F1 = Some (F2, n2) -> s_suffix q = s_suffix p ->
  (forall b, In b (s_buses q) -> In b (s_buses p)) ->
  gens (bal F2) = gens (bal F1) /\ dis F2 = dis F1 /\ ObjectiveModel.assets (obj F2) = ObjectiveModel.assets (obj F1) /\ n2 = map (shed_name q) (s_buses q).
Proof. exact again. Qed.
Print Assumptions C69_again.

(* one bus, a generator of the given size at cost 10 that must run at the share mn, a load of 8; shedding in halves at cost 50, at most 20 *)
Definition s_on : nat -> bool := fun _ => true.
Definition s_gen (mn cap : Q) : DispatchModel.asset :=
  {| DispatchModel.name := "g"; DispatchModel.nom := cap; DispatchModel.nom_min := 0; DispatchModel.nom_max := None; DispatchModel.nom_set := None; DispatchModel.nom_mod := 0;
     DispatchModel.ext := false; DispatchModel.com := false; DispatchModel.active := s_on; DispatchModel.min_pu := fun _ => mn; DispatchModel.max_pu := fun _ => 1;
     DispatchModel.max_hours := 0; DispatchModel.fix_set := fun _ => None |}.
Definition s_price (nm : string) (mc : Q) : ObjectiveModel.asset :=
  {| ObjectiveModel.a_class := "Generator"; ObjectiveModel.a_name := nm; ObjectiveModel.a_flag := true; ObjectiveModel.a_in := fun _ => true; ObjectiveModel.a_on := s_on; ObjectiveModel.a_ext := false; ObjectiveModel.a_com := false;
     ObjectiveModel.a_nom := 0; ObjectiveModel.a_capital := 0; ObjectiveModel.a_marginal := fun _ => mc; ObjectiveModel.a_storage := fun _ => 0; ObjectiveModel.a_spill := fun _ => 0;
     ObjectiveModel.a_quadratic := fun _ => 0; ObjectiveModel.a_standby := fun _ => 0; ObjectiveModel.a_start := 0; ObjectiveModel.a_shut := 0; ObjectiveModel.a_inflow := fun _ => 0 |}.
Definition s_frame (mn cap : Q) : frame :=
  {| bal := {| buses := ["a"]; gens := [{| c_name := "g"; c_bus := "a"; c_sign := 1; c_active := s_on |}]; stores := []; units := []; lines := []; trafos := []; links := [];
               loads := [{| d_bus := "a"; d_sign := -(1); d_p := fun _ => 8; d_active := true |}] |};
     dis := [s_gen mn cap];
     obj := {| ObjectiveModel.assets := [s_price "g" 10]; ObjectiveModel.nsnaps := 1; ObjectiveModel.w_snap := fun _ => 2; ObjectiveModel.per := fun _ => 0%Z; ObjectiveModel.multi := None |};
     carriers := ["gas"]; gcarriers := [("g", "gas")] |}.
Definition s_plan : plan := {| s_suffix := " shed"; s_buses := ["a"]; s_sign := fun _ => 1#2; s_cost := fun _ => 50; s_nom := fun _ => 20 |}.
Definition s_after (mn cap : Q) : frame := match add_load_shedding s_plan (s_frame mn cap) with Some (F', _) => F' | None => s_frame mn cap end.
Definition s_sol (q r : Q) : sol := fun v => if String.eqb (snd v) "g" then q else r.
Lemma s_free mn cap : free s_plan (s_frame mn cap). Proof. intros b [<-|[]] [E|[]]. discriminate E. Qed.
Lemma s_same mn cap : same_generators (s_frame mn cap). Proof. split; [intros a [<-|[]]; left; reflexivity|intros o [<-|[]] _; left; reflexivity]. Qed.
Lemma s_costed mn cap x : costed (s_frame mn cap) x.
Proof. split; [intros a [<-|[]]; reflexivity|]. split; [intros E; discriminate E|]. split; intros a [<-|[]]; cbn; lra. Qed.
Definition s_ps (F : frame) : list ObjectiveModel.piece := match ObjectiveModel.objective (obj F) with Some ps => ps | None => [] end.
Definition s_mu (u : Q) : PriceSpec.multipliers :=
  {| PriceSpec.m_lower := fun _ => 0; PriceSpec.m_upper := fun _ => u; PriceSpec.m_set := fun _ => 0; PriceSpec.m_nom_lower := 0; PriceSpec.m_nom_upper := 0; PriceSpec.m_nom_set := 0; PriceSpec.m_mod := 0 |}.

(* a generator that is large enough: no shedding at price 10; too small a one: 3 are missing *)
Example C69_ex : add_load_shedding s_plan (s_frame 0 10) = Some (s_after 0 10, ["a shed"]) /\ free s_plan (s_frame 0 10) /\ same_generators (s_frame 0 10) /\
  (exists cs cs', nodal_balance (bal (s_frame 0 10)) false 1 ["a"] 45 = Some cs /\ nodal_balance (bal (s_after 0 10)) false 1 ["a"; "a"] 45 = Some cs' /\
     sat (s_sol 8 0) (cs' ++ limits (s_after 0 10) false 1) /\ sat (s_sol 4 8) (cs' ++ limits (s_after 0 10) false 1)) /\
  ObjectiveModel.objective (obj (s_frame 0 10)) = Some (s_ps (s_frame 0 10)) /\ PriceSpec.convex (obj (s_frame 0 10)) /\ costed (s_frame 0 10) (s_sol 8 0) /\
  map fst (PriceSpec.own_y "Generator" 1 (s_gen 0 10) (s_mu 0)) = limits (s_frame 0 10) false 1 /\
  PriceSpec.kkt (s_sol 8 0) (s_ps (s_frame 0 10)) (PriceSpec.nodal_y (bal (s_frame 0 10)) false 1 ["a"] 45 (fun t b => PriceSpec.weight (obj (s_frame 0 10)) t * 10) ++
    PriceSpec.own_y "Generator" 1 (s_gen 0 10) (s_mu 0) ++ []) /\ (1#2) * 10 <= 50 /\
  ObjectiveModel.value_of (s_sol 8 0) (s_ps (s_after 0 10)) == 160 /\ ObjectiveModel.value_of (s_sol 4 8) (s_ps (s_after 0 10)) == 880.
Proof.
  split; [reflexivity|]. split; [apply s_free|]. split; [apply s_same|]. split.
  { eexists. eexists. split; [reflexivity|]. split; [reflexivity|]. split; intros c I; vm_compute in I; repeat (destruct I as [<-|I]; [vm_compute; (reflexivity || (intros; discriminate))|]); destruct I. }
  split; [reflexivity|]. split; [split; [intros t _; vm_compute; discriminate|intros a t [<-|[]] _; vm_compute; discriminate]|]. split; [apply s_costed|]. split; [reflexivity|]. split.
  { assert (A : forall c y, In (c, y) (PriceSpec.nodal_y (bal (s_frame 0 10)) false 1 ["a"] 45 (fun t b => PriceSpec.weight (obj (s_frame 0 10)) t * 10) ++
      PriceSpec.own_y "Generator" 1 (s_gen 0 10) (s_mu 0) ++ []) -> holds (s_sol 8 0) c /\ PriceSpec.signed c y /\ y * (eval (s_sol 8 0) (lhs c) - rhs c) == 0).
    { intros c y J. vm_compute in J. repeat (destruct J as [J|J]; [injection J as <- <-; vm_compute; repeat split; intros; try discriminate; reflexivity|]). destruct J. }
    split; [|split; [|split]].
    - intros c J. apply in_map_iff in J. destruct J as ([c' y] & <- & J). apply (A c' y J).
    - intros c y J. apply (A c y J).
    - intros c y J. apply (A c y J).
    - intros d. cbn. ring. }
  split; [lra|]. split; vm_compute; reflexivity.
Qed.
Example C69_ex_completes : missing (bal (s_frame 0 5)) false (s_sol 5 0) 0 "a" == 3 /\ sat (s_sol 5 0) (limits (s_frame 0 5) false 1) /\ ~ sat (s_sol 8 0) (limits (s_frame 0 5) false 1).
Proof.
  split; [vm_compute; reflexivity|]. split.
  - intros c I; vm_compute in I; repeat (destruct I as [<-|I]; [vm_compute; intros; discriminate|]); destruct I.
  - intros H. specialize (H (DispatchModel.mk [(1, Some ("Generator-p", O, "g"))] Le (1 * 5))). apply H; [vm_compute; auto|reflexivity].
Qed.
(* the small generator runs at its limit, 6 halves are shed, the price is 100 *)
Example C69_ex_price : let F' := s_after 0 5 in let k := comp_of s_plan "a" in
  PriceSpec.market (bal F') false 1 ["a"; "a"] 45 (obj F') (cost_of s_plan "a") (s_ps F') (PriceSpec.Gen k) (limits_of s_plan "a") (s_sol 5 6) (fun _ _ => 100) (s_mu 0)
    (PriceSpec.own_y "Generator" 1 (s_gen 0 5) (s_mu (-(180)))) /\
  c_name k = shed_name s_plan "a" /\ In (limits_of s_plan "a") (dis F') /\
  (forall c y, In (c, y) (PriceSpec.own_y "Generator" 1 (s_gen 0 5) (s_mu (-(180)))) -> PriceSpec.apart (PriceSpec.Gen k) c) /\
  0 < shedding s_plan (s_sol 5 6) "a" 0 < s_nom s_plan "a".
Proof.
  cbv zeta. split; [|split; [reflexivity|split; [right; left; reflexivity|split; [|split; vm_compute; reflexivity]]]].
  - constructor; try (intros a [<-|[<-|[]]]; (reflexivity || (cbn; lra))); try reflexivity.
    + intros E; discriminate E.
    + repeat constructor; cbn; intuition discriminate.
    + intros b [<-|[<-|[]]]; right; left; reflexivity.
    + split; [intros b [<-|[]]; left; reflexivity|]. exists [{| c_name := "g"; c_bus := "a"; c_sign := 1; c_active := s_on |}], []. split; [reflexivity|]. intros c [<-|[]] E. discriminate E.
    + repeat split; cbn; lra.
    + exists [s_price "g" 10], []. split; [reflexivity|]. intros o [<-|[]] _ E. discriminate E.
    + match goal with |- PriceSpec.kkt _ _ ?l => assert (A : forall c y, In (c, y) l -> holds (s_sol 5 6) c /\ PriceSpec.signed c y /\ y * (eval (s_sol 5 6) (lhs c) - rhs c) == 0) end.
      { intros c y J. vm_compute in J. repeat (destruct J as [J|J]; [injection J as <- <-; vm_compute; repeat split; intros; try discriminate; reflexivity|]). destruct J. }
      split; [|split; [|split]].
      * intros c J. apply in_map_iff in J. destruct J as ([c' y] & <- & J). apply (A c' y J).
      * intros c y J. apply (A c y J).
      * intros c y J. apply (A c y J).
      * intros d. cbn. ring.
  - intros c y I. apply (PriceProofs.dispatch_apart (PriceSpec.Gen (comp_of s_plan "a")) "Generator" "p" "p_nom" DispatchModel.Other false 1 [s_gen 0 5]).
    + left. reflexivity.
    + intros a [<-|[]]. right. discriminate.
    + rewrite <- (PriceProofs.own_fst "Generator" 1 (s_gen 0 5) (s_mu (-(180)))). apply in_map_iff. exists (c, y). auto.
Qed.

(* shedding only adds power: a generator that must run at 10 against a load of 8 leaves no solution *)
Theorem C69_excess_refuted : exists F p F' names cs, add_load_shedding p F = Some (F', names) /\ free p F /\ (forall b, In b (buses (bal F)) -> In b (s_buses p)) /\
  nodal_balance (bal F') false 1 [] 45 = Some cs /\ forall x, ~ sat x (cs ++ limits F' false 1).
Proof.
  exists (s_frame 1 10), (default_plan (bal (s_frame 1 10))). eexists. eexists. eexists. split; [reflexivity|].
  split; [intros b [<-|[]] [E|[]]; discriminate E|]. split; [auto|]. split; [reflexivity|]. intros x S.
  assert (S1 := S (DispatchModel.mk [(1, Some ("Generator-p", O, "g"))] Ge (1 * 10)) ltac:(vm_compute; auto)).
  assert (S2 := S (DispatchModel.mk [(1, Some ("Generator-p", O, "a load shedding"))] Ge (0 * 1000000000)) ltac:(vm_compute; auto)).
  assert (S3 := S _ ltac:(left; reflexivity)). unfold holds in S1, S2, S3. cbn in S1, S2, S3. lra.
Qed.
Print Assumptions C69_excess_refuted.
(* a carrier is added for the new generators, but they get another one, unknown to the network *)
Theorem C69_carrier_refuted : forall p F F' names b, add_load_shedding p F = Some (F', names) -> free p F -> In b (s_buses p) -> ~ In "load" (carriers F) -> ~ carriers_known F'.
Proof. exact carrier_row. Qed.
Print Assumptions C69_carrier_refuted.
Example C69_carrier_ex : carriers_known (s_frame 0 10) /\ carriers (s_after 0 10) = ["gas"; "Load"].
Proof. split; [intros g c [E|[]]; injection E as <- <-; left; reflexivity|reflexivity]. Qed.
