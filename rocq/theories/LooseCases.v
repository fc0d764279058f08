From Coq Require Import List String Bool QArith ZArith Arith Lia Lqa.
From Verif Require Import LinModel WholeModel IdleSpec LooseSpec LooseProofs.
From Verif Require LinProofs CapModel BalanceModel ObjectiveModel IdleProofs UnitProofs.
Import ListNotations.
Open Scope string_scope.
Open Scope list_scope.
Open Scope Q_scope.

(* another capacity, no ramp limits, another lower limit *)
Definition with_nom (a : asset) (q : Q) : asset := relimit a
  {| z_nom := q; z_nom_min := nom_min a; z_nom_max := nom_max a; z_nom_set := nom_set a; z_min_pu := min_pu a; z_max_pu := max_pu a; z_hours := max_hours a; z_set := op_set a;
     z_up := up a; z_down := down a; z_ups := up_static a; z_downs := down_static a; z_min_up := min_up a; z_min_down := min_down a; z_e_min := e_min a; z_e_max := e_max a |}.
Definition unramped (a : asset) : asset := relimit a
  {| z_nom := nom a; z_nom_min := nom_min a; z_nom_max := nom_max a; z_nom_set := nom_set a; z_min_pu := min_pu a; z_max_pu := max_pu a; z_hours := max_hours a; z_set := op_set a;
     z_up := fun _ => None; z_down := fun _ => None; z_ups := None; z_downs := None; z_min_up := min_up a; z_min_down := min_down a; z_e_min := e_min a; z_e_max := e_max a |}.
Definition must_run (a : asset) (q : Q) : asset := relimit a
  {| z_nom := nom a; z_nom_min := nom_min a; z_nom_max := nom_max a; z_nom_set := nom_set a; z_min_pu := fun _ => q; z_max_pu := max_pu a; z_hours := max_hours a; z_set := op_set a;
     z_up := up a; z_down := down a; z_ups := up_static a; z_downs := down_static a; z_min_up := min_up a; z_min_down := min_down a; z_e_min := e_min a; z_e_max := e_max a |}.
Definition with_assets (n : net) (l : list asset) : net :=
  {| assets := l; loads := loads n; buses := buses n; nsnaps := nsnaps n; w_obj := w_obj n; w_gen := w_gen n; w_sto := w_sto n; tangents := tangents n; linear := linear n;
     emission := emission n; carriers := carriers n; limits := limits n; columns := columns n |}.
Lemma self a : a = relimit a {| z_nom := nom a; z_nom_min := nom_min a; z_nom_max := nom_max a; z_nom_set := nom_set a; z_min_pu := min_pu a; z_max_pu := max_pu a; z_hours := max_hours a; z_set := op_set a;
     z_up := up a; z_down := down a; z_ups := up_static a; z_downs := down_static a; z_min_up := min_up a; z_min_down := min_down a; z_e_min := e_min a; z_e_max := e_max a |}.
Proof. destruct a; reflexivity. Qed.

(* two parallel lines: one gets a larger capacity *)
Definition wide_net : net :=
  {| assets := [UnitProofs.at_ (IdleProofs.blank "Generator" "g" "a" true false) "a" "a" 5 1; UnitProofs.at_ (IdleProofs.blank "Generator" "h" "b" true false) "b" "b" 5 2;
     with_nom (UnitProofs.at_ (IdleProofs.blank "Line" "l" "a" true false) "a" "b" 1 0) (3#2); UnitProofs.at_ (IdleProofs.blank "Line" "r" "a" true false) "a" "b" 5 0];
     loads := loads UnitProofs.mesh_net; buses := buses UnitProofs.mesh_net; nsnaps := 1; w_obj := w_obj UnitProofs.mesh_net; w_gen := w_gen UnitProofs.mesh_net; w_sto := w_sto UnitProofs.mesh_net; tangents := 0; linear := false;
     emission := emission UnitProofs.mesh_net; carriers := carriers UnitProofs.mesh_net; limits := [Primary "co2" Le 12]; columns := [] |}.
Definition wide_x : sol := fun v => match v with (s, _, i) => if String.eqb s "Line-s" then 3#2 else if String.eqb i "g" then 3 else 0 end.
Lemma raised_refl o : raised o o. Proof. intros v ->. exists v. split; [reflexivity|lra]. Qed.
Lemma lowered_refl o : lowered o o. Proof. intros v ->. exists v. split; [reflexivity|lra]. Qed.
Lemma same_ok n a : ext a = false -> commits a = false -> (exists z, a = relimit a z) /\ looser_asset n a a.
Proof.
  intros E C. split; [eexists; apply self|]. constructor; try (rewrite ?E, ?C; intros; discriminate).
  - intros; repeat split; intros; lra.
  - rewrite E, C. intros [G|G]; discriminate G.
  - intros; left; reflexivity.
  - intros t v U. rewrite E. exists v. split; [exact U|lra].
  - intros t v U. rewrite E. exists v. split; [exact U|lra].
  - lia.
  - split; [apply lowered_refl|apply raised_refl].
  - intros; repeat split.
Qed.
Lemma nom_ok n a q : tangents n = O -> ext a = false -> commits a = false -> passive a = true -> nom a <= q -> (forall t, 0 <= max_pu a t) -> (forall t, up a t = None /\ down a t = None) -> (exists z, with_nom a q = relimit a z) /\ looser_asset n a (with_nom a q).
Proof.
  intros TA E C P LE M0 R. split; [eexists; reflexivity|]. constructor; try (rewrite ?E, ?C; intros; discriminate).
  - intros _ _ t _. rewrite P. split; [discriminate|]. cbn [with_nom relimit max_pu z_max_pu nom z_nom]. split; [specialize (M0 t); nra|]. unfold passive in P. intros CL. rewrite CL in P. discriminate P.
  - rewrite E, C. intros [G|G]; discriminate G.
  - intros; left; reflexivity.
  - intros t v U. cbn in U. rewrite (proj1 (R t)) in U. discriminate U.
  - intros t v U. cbn in U. rewrite (proj2 (R t)) in U. discriminate U.
  - cbn. lia.
  - split; [apply lowered_refl|apply raised_refl].
  - rewrite TA. intros []. reflexivity.
Qed.
Lemma wide_looser : looser UnitProofs.loop UnitProofs.mesh_net wide_net.
Proof.
  constructor.
  - repeat split; reflexivity.
  - constructor; [now apply same_ok|]. constructor; [now apply same_ok|]. constructor; [apply nom_ok; try reflexivity; [cbn; lra|intros; cbn; lra|intros; split; reflexivity]|]. constructor; [now apply same_ok|constructor].
  - intros l' [<-|[]]. eexists. split; [left; reflexivity|]. cbn. repeat split. lra.
  - intros c' [].
  - intros x S. exact S.
  - intros c [CC|CC] U b J E t LT; subst c; cbn in J.
    + exfalso. destruct (U _ (or_introl eq_refl) eq_refl O ltac:(cbn; lia)) as (u & d & E' & _). discriminate E'.
    + exfalso. destruct J as [<-|[<-|[<-|[<-|[]]]]]; discriminate E.
Qed.
Lemma wide_case : looser UnitProofs.loop UnitProofs.mesh_net wide_net /\ optimal UnitProofs.loop UnitProofs.mesh_net UnitProofs.mesh_x /\ optimal UnitProofs.loop wide_net wide_x /\
  cost UnitProofs.mesh_net UnitProofs.mesh_x = Some 4 /\ (exists q, cost wide_net wide_x = Some q /\ q == 3).
Proof.
  split; [apply wide_looser|]. split; [apply UnitProofs.mesh_case|]. split; [|split; [vm_compute; reflexivity|eexists; split; [vm_compute; reflexivity|reflexivity]]]. split.
  - eexists. split; [vm_compute; reflexivity|]. split; [apply LinProofs.satb_iff; vm_compute; reflexivity|]. split; [|split; [|split; [|split]]]; cbn [wide_net assets In]; intros a.
    * intros I E. repeat (destruct I as [<-|I]; [discriminate E|]). destruct I.
    * intros I E. repeat (destruct I as [<-|I]; [discriminate E|]). destruct I.
    * intros I E. repeat (destruct I as [<-|I]; [discriminate E|]). destruct I.
    * intros t _ _ E. discriminate E.
    * vm_compute in a. discriminate a.
  - exists 3. split; [vm_compute; reflexivity|]. intros y q' [cs [E [S _]]] C. vm_compute in E. injection E as <-.
    pose proof (IdleProofs.row_holds y _ {| lhs := [(1, Some ("Generator-p", O, "g")); (-1, Some ("Line-s", O, "l")); (-1, Some ("Line-s", O, "r"))]; sns := Eq; rhs := 0 |} S ltac:(cbn; tauto)) as H2.
    pose proof (IdleProofs.row_holds y _ {| lhs := [(1, Some ("Generator-p", O, "h")); (1, Some ("Line-s", O, "l")); (1, Some ("Line-s", O, "r"))]; sns := Eq; rhs := 3 |} S ltac:(cbn; tauto)) as H3.
    pose proof (IdleProofs.row_holds y _ {| lhs := [(1, Some ("Generator-p", O, "h"))]; sns := Ge; rhs := 0 |} S ltac:(cbn; tauto)) as H4.
    unfold holds in *. cbn [sns lhs rhs eval val] in *. unfold cost in C.
    assert (OB : define_objective wide_net = Some [ObjectiveModel.Linear [(1, Some ("Generator-p", O, "g")); (2, Some ("Generator-p", O, "h"))]]) by (vm_compute; reflexivity).
    rewrite OB in C. unfold ObjectiveModel.value_of in C. cbn [option_map fold_right ObjectiveModel.piece_value eval val] in C. injection C as <-. lra.
Qed.

(* a generator that has to run at half its capacity or more *)
Definition run_net : net := IdleProofs.small 1 [must_run (with_nom IdleProofs.gen_ 2) (1#2)] (fun _ => 1) 0 [] [].
Lemma must_run_refuted : feasible IdleProofs.no_kvl run_net (fun _ => 1) /\ ~ exists y, feasible IdleProofs.no_kvl (with_assets run_net [with_nom (must_run (with_nom IdleProofs.gen_ 2) (1#2)) 3]) y.
Proof.
  split; [eexists; split; [vm_compute; reflexivity|split; [apply LinProofs.satb_iff; vm_compute; reflexivity|apply IdleProofs.easy_domains; vm_compute; reflexivity]]|].
  intros [y [cs [E [S _]]]]. vm_compute in E. injection E as <-.
  pose proof (IdleProofs.row_holds y _ {| lhs := [(1, Some ("Generator-p", 0%nat, "g"))]; sns := Ge; rhs := 3#2 |} S ltac:(cbn; tauto)) as H1.
  pose proof (IdleProofs.row_holds y _ {| lhs := [(1, Some ("Generator-p", 0%nat, "g"))]; sns := Eq; rhs := 1 |} S ltac:(cbn; tauto)) as H2.
  unfold holds in *. cbn [sns lhs rhs eval val] in *. lra.
Qed.

(* ramp limits of one: one of them is given up *)
Definition ramp_g : asset := IdleProofs.with_ramps IdleProofs.gen_ (-(1)) (fun _ => Some 1).
Definition ramp_h : asset := with_nom (IdleProofs.with_ramps (IdleProofs.blank "Generator" "h" "a" true false) 0 (fun _ => Some 1)) (1#2).
Definition ramp_net : net := IdleProofs.small 2 [ramp_g; ramp_h] (fun t => match t with O => 1 | _ => -(1) end) 0 [] [].
Definition ramp_x : sol := fun v => match v with (_, t, i) => if String.eqb i "g" then match t with O => 1 | _ => -(1) end else 0 end.
Lemma ramps_refuted : looser_asset ramp_net ramp_h (unramped ramp_h) /\ feasible IdleProofs.no_kvl ramp_net ramp_x /\ ~ exists y, feasible IdleProofs.no_kvl (with_assets ramp_net [ramp_g; unramped ramp_h]) y.
Proof.
  split; [|split; [eexists; split; [vm_compute; reflexivity|split; [apply LinProofs.satb_iff; vm_compute; reflexivity|apply IdleProofs.easy_domains; vm_compute; reflexivity]]|]].
  - constructor; try discriminate.
    + intros; repeat split; intros; cbn; lra.
    + intros [G|G]; discriminate G.
    + intros; left; reflexivity.
    + cbn. lia.
    + split; intros v G; discriminate G.
  - intros [y [cs [E [S _]]]]. vm_compute in E. injection E as <-.
    pose proof (IdleProofs.row_holds y _ {| lhs := [(1, Some ("Generator-p", 0%nat, "g")); (1, Some ("Generator-p", 0%nat, "h"))]; sns := Eq; rhs := 1 |} S ltac:(cbn; tauto)) as H1.
    pose proof (IdleProofs.row_holds y _ {| lhs := [(1, Some ("Generator-p", 1%nat, "g")); (1, Some ("Generator-p", 1%nat, "h"))]; sns := Eq; rhs := -1 |} S ltac:(cbn; tauto)) as H2.
    pose proof (IdleProofs.row_holds y _ {| lhs := [(1, Some ("Generator-p", 1%nat, "g")); (-1, Some ("Generator-p", 0%nat, "g"))]; sns := Ge; rhs := -1 |} S ltac:(cbn; tauto)) as H3.
    pose proof (IdleProofs.row_holds y _ {| lhs := [(1, Some ("Generator-p", 0%nat, "h"))]; sns := Le; rhs := 1#2 |} S ltac:(cbn; tauto)) as H4.
    pose proof (IdleProofs.row_holds y _ {| lhs := [(1, Some ("Generator-p", 1%nat, "h"))]; sns := Ge; rhs := 0#2 |} S ltac:(cbn; tauto)) as H5.
    unfold holds in *. cbn [sns lhs rhs eval val] in *. lra.
Qed.

(* a line with losses *)
Definition loss_net (q : Q) : net :=
  {| assets := [UnitProofs.at_ (IdleProofs.blank "Generator" "g" "a" true false) "a" "a" 5 1; with_nom (UnitProofs.at_ (IdleProofs.blank "Line" "l" "a" true false) "a" "b" 1 0) q];
     loads := [{| BalanceModel.d_bus := "b"; BalanceModel.d_sign := -(1); BalanceModel.d_p := fun _ => 241#2048; BalanceModel.d_active := true |}];
     buses := ["a"; "b"]; nsnaps := 1; w_obj := fun _ => 1; w_gen := fun _ => 1; w_sto := fun _ => 1; tangents := 2; linear := false;
     emission := fun _ => []; carriers := ["AC"]; limits := []; columns := [] |}.
Definition loss_x (l : Q) : sol := fun v => match v with (s, _, i) => if String.eqb s "Line-s" then (241#2048) + l / 2 else if String.eqb s "Line-loss" then l else (241#2048) + l end.
Lemma loss_domains q l : 0 <= l -> domains (loss_net q) (loss_x l).
Proof.
  intros L. split; [|split; [|split; [|split]]]; cbn [loss_net assets In]; intros a.
  - intros I E. repeat (destruct I as [<-|I]; [discriminate E|]). destruct I.
  - intros I E. repeat (destruct I as [<-|I]; [discriminate E|]). destruct I.
  - intros I E. repeat (destruct I as [<-|I]; [discriminate E|]). destruct I.
  - intros t I E _ _ _. destruct I as [<-|[<-|[]]]; [discriminate E|]. exact L.
  - vm_compute in a. discriminate a.
Qed.
Lemma losses_refuted : exists x y p q, feasible IdleProofs.no_kvl (loss_net (3#16)) x /\ cost (loss_net (3#16)) x = Some p /\ optimal IdleProofs.no_kvl (loss_net (1#4)) y /\ cost (loss_net (1#4)) y = Some q /\ p < q.
Proof.
  exists (loss_x (15#1024)), (loss_x (113#7168)), ((241#2048) + (15#1024)), ((241#2048) + (113#7168)).
  assert (OB : forall q x, cost (loss_net q) x = Some (1 * x ("Generator-p", O, "g") + 0 + 0)) by reflexivity.
  split; [|split; [vm_compute; reflexivity|split; [|split; [vm_compute; reflexivity|reflexivity]]]].
  - eexists. split; [vm_compute; reflexivity|]. split; [apply LinProofs.satb_iff; vm_compute; reflexivity|]. apply loss_domains. lra.
  - split; [eexists; split; [vm_compute; reflexivity|]; split; [apply LinProofs.satb_iff; vm_compute; reflexivity|]; apply loss_domains; lra|].
    eexists. split; [vm_compute; reflexivity|]. intros z q' [cs [E [S _]]] C. vm_compute in E. injection E as <-. rewrite OB in C. injection C as <-.
    pose proof (IdleProofs.row_holds z _ {| lhs := [(1, Some ("Generator-p", O, "g")); (-1, Some ("Line-s", O, "l")); (-1#2, Some ("Line-loss", O, "l"))]; sns := Eq; rhs := 0 |} S ltac:(cbn; tauto)) as H1.
    pose proof (IdleProofs.row_holds z _ {| lhs := [(1, Some ("Line-s", O, "l")); (-1#2, Some ("Line-loss", O, "l"))]; sns := Eq; rhs := 241#2048 |} S ltac:(cbn; tauto)) as H2.
    pose proof (IdleProofs.row_holds z _ {| lhs := [(1, Some ("Line-loss", O, "l")); (-2#8, Some ("Line-s", O, "l"))]; sns := Ge; rhs := -64#4096 |} S ltac:(cbn; tauto)) as H3.
    unfold holds in *. cbn [sns lhs rhs eval val] in *. lra.
Qed.
