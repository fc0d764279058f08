From Coq Require Import List String Bool QArith ZArith Arith Lia Lqa.
From Verif Require Import LinModel WholeModel IdleSpec MixSpec.
From Verif Require LinProofs DispatchModel CommitModel StorageModel CapModel ObjectiveModel ObjectiveProofs IdleProofs UnitProofs.
Import ListNotations.
Open Scope string_scope.
Open Scope list_scope.
Open Scope Q_scope.

Section M.
Variables (s : Q) (x y : sol).
Hypothesis S0 : 0 <= s.
Hypothesis S1 : s <= 1.
Notation z := (mix s x y).
Lemma val_mix v : val z v == s * val x v + (1 - s) * val y v.
Proof. destruct v as [v|]; cbn [val]; [reflexivity|ring]. Qed.
Lemma eval_mix l : eval z l == s * eval x l + (1 - s) * eval y l.
Proof. induction l as [|[c v] r IH]; cbn [eval]; [ring|]. rewrite IH, val_mix. ring. Qed.
Lemma between a b lo hi : lo <= a -> a <= hi -> lo <= b -> b <= hi -> lo <= s * a + (1 - s) * b /\ s * a + (1 - s) * b <= hi.
Proof. intros. nra. Qed.
Lemma holds_mix c : holds x c -> holds y c -> holds z c.
Proof. unfold holds. destruct (sns c); rewrite eval_mix; intros H K; [nra|nra|]. rewrite H, K. ring. Qed.
Lemma sat_mix cs : sat x cs -> sat y cs -> sat z cs.
Proof. intros H K c I. apply holds_mix; auto. Qed.

Variable n : net.
Lemma domains_mix : no_integers n -> domains n x -> domains n y -> domains n z.
Proof.
  intros [NM NU] (M & C & SP & L & K) (M' & C' & SP' & L' & K'). split; [|split; [|split; [|split]]].
  - intros a I _ G. exfalso. pose proof (NM a I) as Z. apply Qle_bool_iff in Z. congruence.
  - intros a I CO. destruct NU as [NU|NU]; [|unfold com in CO; rewrite (NU a I) in CO; discriminate CO]. specialize (C a I CO). specialize (C' a I CO). rewrite NU in *.
    destruct C as (C1 & C2 & C3), C' as (D1 & D2 & D3). split; [|split]; intros t T U; rewrite val_mix;
      [destruct (C1 t T U), (D1 t T U)|destruct (C2 t T U), (D2 t T U)|destruct (C3 t T U), (D3 t T U)]; apply between; assumption.
  - intros a I E t v T V. destruct (SP a I E t v T V), (SP' a I E t v T V). apply between; assumption.
  - intros a t I P LO T F. specialize (L a t I P LO T F). specialize (L' a t I P LO T F). unfold mix. nra.
  - intros NZ. specialize (K NZ). specialize (K' NZ). rewrite val_mix, K, K'. ring.
Qed.
Lemma feasible_mix kvl : no_integers n -> feasible kvl n x -> feasible kvl n y -> feasible kvl n z.
Proof.
  intros NI (cs & E & H & D) (cs' & E' & H' & D'). rewrite E in E'. injection E' as <-. exists cs. split; [exact E|]. split; [now apply sat_mix|now apply domains_mix].
Qed.

(* costs *)
Definition rising (ps : list ObjectiveModel.piece) : Prop := forall l c v, In (ObjectiveModel.Square l) ps -> In (c, v) l -> 0 <= c.
Lemma square_mix l : (forall c v, In (c, v) l -> 0 <= c) -> ObjectiveModel.square z l <= s * ObjectiveModel.square x l + (1 - s) * ObjectiveModel.square y l.
Proof.
  induction l as [|[c v] r IH]; intros H; cbn [ObjectiveModel.square]; [lra|]. specialize (IH (fun c' v' I => H c' v' (or_intror I))). pose proof (H c v (or_introl eq_refl)) as C. rewrite !val_mix.
  generalize dependent (val x v). intros a. generalize dependent (val y v). intros b.
  assert (E : c * ((s * a + (1 - s) * b) * (s * a + (1 - s) * b)) <= s * (c * (a * a)) + (1 - s) * (c * (b * b))).
  { assert (D : s * (c * (a * a)) + (1 - s) * (c * (b * b)) - c * ((s * a + (1 - s) * b) * (s * a + (1 - s) * b)) == c * (s * (1 - s)) * ((a - b) * (a - b))) by ring.
    assert (P : 0 <= c * (s * (1 - s)) * ((a - b) * (a - b))); [|lra]. apply Qmult_le_0_compat; [apply Qmult_le_0_compat; [exact C|apply Qmult_le_0_compat; lra]|]. generalize (a - b). intros d. nra. }
  lra.
Qed.
Lemma value_mix ps : rising ps -> ObjectiveModel.value_of z ps <= s * ObjectiveModel.value_of x ps + (1 - s) * ObjectiveModel.value_of y ps.
Proof.
  unfold ObjectiveModel.value_of. induction ps as [|p r IH]; intros H; cbn [fold_right]; [lra|]. specialize (IH (fun l c v I => H l c v (or_intror I))).
  assert (P : ObjectiveModel.piece_value z p <= s * ObjectiveModel.piece_value x p + (1 - s) * ObjectiveModel.piece_value y p); [|lra].
  destruct p as [l|l|]; cbn [ObjectiveModel.piece_value]; [rewrite eval_mix; lra| |lra]. apply square_mix. intros c v I. apply (H l c v); [now left|exact I].
Qed.
Lemma value_linear ps : (forall l, ~ In (ObjectiveModel.Square l) ps) -> ObjectiveModel.value_of z ps == s * ObjectiveModel.value_of x ps + (1 - s) * ObjectiveModel.value_of y ps.
Proof.
  unfold ObjectiveModel.value_of. induction ps as [|p r IH]; intros H; cbn [fold_right]; [ring|]. rewrite (IH (fun l I => H l (or_intror I))).
  destruct p as [l|l|]; cbn [ObjectiveModel.piece_value]; [rewrite eval_mix; ring| |ring]. exfalso. apply (H l). now left.
Qed.
End M.

Lemma squares n ps l : define_objective n = Some ps -> In (ObjectiveModel.Square l) ps -> exists ca, In ca ObjectiveModel.of_marginal /\
  filter (ObjectiveModel.charged (o_net n) ObjectiveModel.a_quadratic) (ObjectiveModel.cls (o_net n) (fst ca)) <> [] /\
  l = ObjectiveModel.terms (o_net n) ObjectiveModel.a_quadratic (ObjectiveModel.op_label (fst ca) (snd ca)) (filter (ObjectiveModel.charged (o_net n) ObjectiveModel.a_quadratic) (ObjectiveModel.cls (o_net n) (fst ca))).
Proof.
  unfold define_objective. intros E I. apply ObjectiveProofs.objective_pieces in E. destruct E as [-> _]. unfold ObjectiveModel.pieces in I. rewrite !in_app_iff in I.
  assert (LI : forall f rows, ~ In (ObjectiveModel.Square l) (ObjectiveModel.operation (o_net n) ObjectiveModel.Linear f rows)).
  { intros f rows J. unfold ObjectiveModel.operation in J. apply in_flat_map in J. destruct J as (ca & _ & J). cbn zeta in J. destruct (ObjectiveModel.nonempty _); [|destruct J]. destruct J as [J|[]]. destruct (ObjectiveModel.exists_array _ _ _); discriminate J. }
  destruct I as [I|[I|[I|[I|[I|[I|[I|[I|I]]]]]]]].
  - destruct (Qeq_bool _ 0); [destruct I|destruct I as [I|[]]; discriminate I].
  - now apply LI in I.
  - now apply LI in I.
  - now apply LI in I.
  - unfold ObjectiveModel.operation in I. apply in_flat_map in I. destruct I as (ca & J & I). cbn zeta in I. exists ca. split; [exact J|].
    destruct (filter _ _) as [|a r] eqn:F; cbn [ObjectiveModel.nonempty] in I; [destruct I|]. destruct I as [I|[]]. destruct (ObjectiveModel.exists_array _ _ _); [|discriminate I]. injection I as <-. split; [discriminate|reflexivity].
  - apply in_flat_map in I. destruct I as (c & _ & I). destruct (ObjectiveModel.nonempty _); [destruct I as [I|[]]; discriminate I|destruct I].
  - apply in_flat_map in I. destruct I as (c & _ & I). destruct (ObjectiveModel.nonempty _); [destruct I as [I|[]]; discriminate I|destruct I].
  - apply in_flat_map in I. destruct I as (c & _ & I). destruct (Qeq_bool _ 0); [destruct I|destruct I as [I|[]]; discriminate I].
  - apply in_flat_map in I. destruct I as (c & _ & I). destruct (Qeq_bool _ 0); [destruct I|destruct I as [I|[]]; discriminate I].
Qed.
Lemma rising_objective n ps : convex_costs n -> define_objective n = Some ps -> rising ps.
Proof.
  intros [CQ CW] E l c v I J. destruct (squares n ps l E I) as (ca & _ & _ & ->). unfold ObjectiveModel.terms in J. apply in_flat_map in J. destruct J as (o & Jo & J). apply filter_In in Jo. destruct (IdleProofs.o_in n _ _ (proj1 Jo)) as (b & Ib & -> & _).
  apply in_map_iff in J. destruct J as (t & J & _). injection J as <- _. cbn [o_view ObjectiveModel.a_quadratic]. unfold ObjectiveModel.weighting. cbn [o_net ObjectiveModel.multi ObjectiveModel.w_snap]. apply Qmult_le_0_compat; auto.
Qed.
Lemma linear_objective n ps : linear_costs n -> define_objective n = Some ps -> forall l, ~ In (ObjectiveModel.Square l) ps.
Proof.
  intros LC E l I. destruct (squares n ps l E I) as (ca & _ & NE & _). apply NE. destruct (filter _ _) as [|o r] eqn:F; [reflexivity|]. exfalso.
  assert (J : In o (filter (ObjectiveModel.charged (o_net n) ObjectiveModel.a_quadratic) (ObjectiveModel.cls (o_net n) (fst ca)))) by (rewrite F; now left). apply filter_In in J. destruct J as [J C].
  destruct (IdleProofs.o_in n _ _ J) as (b & Ib & -> & _). unfold ObjectiveModel.charged in C. apply existsb_exists in C. destruct C as (t & _ & C). cbn [o_view ObjectiveModel.a_quadratic] in C. apply negb_true_iff in C. pose proof (LC b t Ib) as Z. apply Qeq_bool_iff in Z. congruence.
Qed.
Lemma cost_mix s x y n p q : 0 <= s -> s <= 1 -> convex_costs n -> cost n x = Some p -> cost n y = Some q -> exists r, cost n (mix s x y) = Some r /\ r <= s * p + (1 - s) * q.
Proof.
  intros S0 S1 CC. unfold cost. destruct (define_objective n) as [ps|] eqn:E; [|discriminate]. cbn [option_map]. intros P R. injection P as <-. injection R as <-.
  eexists. split; [reflexivity|]. apply value_mix; auto. now apply (rising_objective n).
Qed.
Lemma cost_linear s x y n p q : linear_costs n -> cost n x = Some p -> cost n y = Some q -> exists r, cost n (mix s x y) = Some r /\ r == s * p + (1 - s) * q.
Proof.
  intros LC. unfold cost. destruct (define_objective n) as [ps|] eqn:E; [|discriminate]. cbn [option_map]. intros P R. injection P as <-. injection R as <-.
  eexists. split; [reflexivity|]. apply value_linear. now apply (linear_objective n).
Qed.
Lemma optimal_mix kvl s x y n : 0 <= s -> s <= 1 -> no_integers n -> convex_costs n -> optimal kvl n x -> optimal kvl n y -> optimal kvl n (mix s x y).
Proof.
  intros S0 S1 NI CC [FX (p & EX & BX)] [FY (q & EY & BY)]. split; [now apply feasible_mix|]. destruct (cost_mix s x y n p q S0 S1 CC EX EY) as (r & ER & R). exists r. split; [exact ER|].
  intros w q' FW EW. pose proof (BX w q' FW EW). pose proof (BY w q' FW EW). nra.
Qed.
Lemma improve kvl s x y n p q : 0 < s -> s <= 1 -> no_integers n -> convex_costs n -> feasible kvl n x -> feasible kvl n y -> cost n x = Some p -> cost n y = Some q -> q < p ->
  feasible kvl n (mix s y x) /\ exists r, cost n (mix s y x) = Some r /\ r < p.
Proof.
  intros S0 S1 NI CC FX FY EX EY L. split; [apply feasible_mix; auto; lra|]. destruct (cost_mix s y x n q p ltac:(lra) S1 CC EY EX) as (r & ER & R). exists r. split; [exact ER|]. nra.
Qed.

(* cases *)
Definition with_uc (a : asset) (b : bool) (m : Q) : asset :=
  {| cls := cls a; nm := nm a; bus0 := bus0 a; bus1 := bus1 a; sgn := sgn a; ports := ports a; carrier := carrier a; flag := flag a; ext := ext a; committable := b;
     nom := nom a; nom_min := nom_min a; nom_max := nom_max a; nom_set := nom_set a; nom_mod := m; min_pu := min_pu a; max_pu := max_pu a; max_hours := max_hours a;
     op_set := op_set a; up := up a; down := down a; up_static := up_static a; down_static := down_static a; start_lim := start_lim a; shut_lim := shut_lim a;
     min_up := min_up a; min_down := min_down a; up_before := up_before a; down_before := down_before a; eff := eff a; stand := stand a; init := init a; cyclic := cyclic a;
     eff_dispatch := eff_dispatch a; eff_store := eff_store a; inflow := inflow a; capital := capital a; marginal := marginal a; storage_cost := storage_cost a;
     spill_cost := spill_cost a; quadratic := fun _ => 1; standby := standby a; start_cost := start_cost a; shut_cost := shut_cost a; len := len a; e_min := e_min a; e_max := e_max a; r_eff := r_eff a |}.
Definition unit_net : net := IdleProofs.small 1 [IdleProofs.gen_; with_uc (IdleProofs.blank "Generator" "h" "a" true false) true 0] (fun _ => 1) 0 [] [].
Definition module_net : net := IdleProofs.small 1 [IdleProofs.gen_; with_uc (IdleProofs.blank "Generator" "h" "a" true true) false 2] (fun _ => 1) 0 [] [].
Definition on_x : sol := fun v => match v with (f, _, i) => if String.eqb f "Generator-status" then 1 else if String.eqb f "Generator-p" && String.eqb i "g" then 1 else 0 end.
Definition off_x : sol := fun v => match v with (f, _, i) => if String.eqb f "Generator-shut_down" then 1 else if String.eqb f "Generator-p" && String.eqb i "g" then 1 else 0 end.
Definition two_x : sol := fun v => match v with (f, _, i) => if String.eqb f "Generator-p_nom" then 2 else if String.eqb f "Generator-n_mod" then 1 else if String.eqb f "Generator-p" && String.eqb i "g" then 1 else 0 end.
Definition zero_x : sol := fun v => match v with (f, _, i) => if String.eqb f "Generator-p" && String.eqb i "g" then 1 else 0 end.
Lemma units_refuted : feasible IdleProofs.no_kvl unit_net on_x /\ feasible IdleProofs.no_kvl unit_net off_x /\ ~ feasible IdleProofs.no_kvl unit_net (mix (1#2) on_x off_x).
Proof.
  assert (D : forall v, (forall f, v (("Generator-" ++ f)%string, 0%nat, "h") == 0 \/ v (("Generator-" ++ f)%string, 0%nat, "h") == 1) -> domains unit_net v).
  { intros v H. split; [|split; [|split; [|split]]]; cbn [unit_net IdleProofs.small assets In linear nsnaps].
    - intros a [<-|[<-|[]]] E; discriminate E.
    - intros a [<-|[<-|[]]] E; [discriminate E|]. split; [|split]; intros t T _; (replace t with 0%nat by lia); apply H.
    - intros a [<-|[<-|[]]] E; discriminate E.
    - intros a t [<-|[<-|[]]] E; discriminate E.
    - intros E. vm_compute in E. discriminate E. }
  split; [|split].
  - eexists. split; [vm_compute; reflexivity|]. split; [apply LinProofs.satb_iff; vm_compute; reflexivity|]. apply D. intros f. unfold on_x. destruct (String.eqb _ "Generator-status"); [right; reflexivity|]. destruct (_ && _); [right|left]; reflexivity.
  - eexists. split; [vm_compute; reflexivity|]. split; [apply LinProofs.satb_iff; vm_compute; reflexivity|]. apply D. intros f. unfold off_x. destruct (String.eqb _ "Generator-shut_down"); [right; reflexivity|]. destruct (_ && _); [right|left]; reflexivity.
  - intros (cs & _ & _ & (_ & C & _)). specialize (C (with_uc (IdleProofs.blank "Generator" "h" "a" true false) true 0) ltac:(cbn; auto) eq_refl). cbn [unit_net IdleProofs.small linear nsnaps] in C.
    destruct C as (C & _). destruct (C 0%nat ltac:(lia) eq_refl) as [Z|Z]; vm_compute in Z; discriminate Z.
Qed.
Lemma modules_refuted : feasible IdleProofs.no_kvl module_net two_x /\ feasible IdleProofs.no_kvl module_net zero_x /\ ~ feasible IdleProofs.no_kvl module_net (mix (1#2) two_x zero_x).
Proof.
  assert (D : forall v (k : nat), v ("Generator-n_mod", 0%nat, "h") == inject_Z (Z.of_nat k) -> domains module_net v).
  { intros v k H. split; [|split; [|split; [|split]]]; cbn [module_net IdleProofs.small assets In linear nsnaps].
    - intros a [<-|[<-|[]]] E; [discriminate E|]. intros _. exists k. exact H.
    - intros a [<-|[<-|[]]] E; discriminate E.
    - intros a [<-|[<-|[]]] E; discriminate E.
    - intros a t [<-|[<-|[]]] E; discriminate E.
    - intros E. vm_compute in E. discriminate E. }
  split; [|split].
  - eexists. split; [vm_compute; reflexivity|]. split; [apply LinProofs.satb_iff; vm_compute; reflexivity|]. apply (D two_x 1%nat). reflexivity.
  - eexists. split; [vm_compute; reflexivity|]. split; [apply LinProofs.satb_iff; vm_compute; reflexivity|]. apply (D zero_x 0%nat). reflexivity.
  - intros (cs & _ & _ & (M & _)). destruct (M (with_uc (IdleProofs.blank "Generator" "h" "a" true true) false 2) ltac:(cbn; auto) eq_refl eq_refl) as (k & Z). assert (E : mix (1#2) two_x zero_x (("Generator" ++ "-n_mod")%string, O, "h") == 1#2) by reflexivity.
    change (mix (1#2) two_x zero_x (("Generator" ++ "-n_mod")%string, O, "h") == inject_Z (Z.of_nat k)) in Z. rewrite E in Z. unfold Qeq in Z. cbn [Qnum Qden inject_Z] in Z. lia.
Qed.
(* two generators with quadratic costs: all from one, half from each *)
Definition curve_net : net := IdleProofs.small 1 [with_uc IdleProofs.gen_ false 0; with_uc (IdleProofs.blank "Generator" "h" "a" true false) false 0] (fun _ => 2) 0 [] [].
Definition g_x : sol := fun v => match v with (_, _, i) => if String.eqb i "g" then 2 else 0 end.
Definition h_x : sol := fun v => match v with (_, _, i) => if String.eqb i "h" then 2 else 0 end.
Lemma curve_case : no_integers curve_net /\ convex_costs curve_net /\ feasible IdleProofs.no_kvl curve_net g_x /\ feasible IdleProofs.no_kvl curve_net h_x /\
  (exists p, cost curve_net g_x = Some p /\ p == 6) /\ (exists p, cost curve_net h_x = Some p /\ p == 6) /\ (exists p, cost curve_net (mix (1#2) g_x h_x) = Some p /\ p == 4).
Proof.
  split; [split; [intros a [<-|[<-|[]]]; cbn; lra|right; intros a [<-|[<-|[]]]; reflexivity]|]. split; [split; [intros a t [<-|[<-|[]]]; cbn; lra|intros t; cbn; lra]|].
  split; [eexists; split; [vm_compute; reflexivity|split; [apply LinProofs.satb_iff; vm_compute; reflexivity|apply IdleProofs.easy_domains; vm_compute; reflexivity]]|].
  split; [eexists; split; [vm_compute; reflexivity|split; [apply LinProofs.satb_iff; vm_compute; reflexivity|apply IdleProofs.easy_domains; vm_compute; reflexivity]]|].
  split; [eexists; split; [vm_compute; reflexivity|reflexivity]|]. split; (eexists; split; [vm_compute; reflexivity|reflexivity]).
Qed.
