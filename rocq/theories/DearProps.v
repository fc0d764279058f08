From Coq Require Import List String Bool QArith Arith Lia Lqa.
From Verif Require Import LinModel WholeModel IdleSpec DearSpec DearProofs.
From Verif Require BalanceSpec LinProofs IdleProofs MixProofs.
Import ListNotations.
Open Scope string_scope.
Open Scope list_scope.
Open Scope Q_scope.

(* C97: marginal costs do not bear on what is feasible *)
Theorem C97_feasible : forall m n kvl x, feasible kvl (repriced m n) x <-> feasible kvl n x.
Proof. exact feasible_s. Qed.
Print Assumptions C97_feasible.
(* C97: a solution costs more by the price differences times what the assets put out *)
Theorem C97_cost : forall m n, (forall a, In a (assets n) -> In (cls a) classes) -> costs_sane n ->
  forall x p p', domains n x -> cost n x = Some p -> cost (repriced m n) x = Some p' -> p' == p + extra m n x.
Proof. exact cost_s. Qed.
Print Assumptions C97_cost.
(* C97: the optimum answers changed costs by moving away from what got dearer *)
Theorem C97_less : forall m n, (forall a, In a (assets n) -> In (cls a) classes) -> costs_sane n ->
  forall kvl x y, optimal kvl n x -> optimal kvl (repriced m n) y -> extra m n y <= extra m n x.
Proof. exact less. Qed.
Print Assumptions C97_less.
(* C97: and the least costs change by no more than the old and no less than the new operation says *)
Theorem C97_bounds : forall m n, (forall a, In a (assets n) -> In (cls a) classes) -> costs_sane n ->
  forall kvl x y p q, optimal kvl n x -> optimal kvl (repriced m n) y -> cost n x = Some p -> cost (repriced m n) y = Some q ->
  p + extra m n y <= q /\ q <= p + extra m n x.
Proof. exact bounds. Qed.
Print Assumptions C97_bounds.
(* C97: an asset that gets dearer does not run more, as weighted by the rise *)
Theorem C97_single : forall kvl n x y a0 d, (forall a, In a (assets n) -> In (cls a) classes) -> costs_sane n -> NoDup (map (fun a => (cls a, nm a)) (assets n)) -> In a0 (assets n) ->
  optimal kvl n x -> optimal kvl (repriced (raised (cls a0) (nm a0) d) n) y ->
  BalanceSpec.total (fun t => w_obj n t * (d t * output y a0 t)) (seq 0 (nsnaps n)) <= BalanceSpec.total (fun t => w_obj n t * (d t * output x a0 t)) (seq 0 (nsnaps n)).
Proof. exact single. Qed.
Print Assumptions C97_single.

(* C97: the least costs are a concave function of the marginal costs *)
Theorem C97_concave : forall kvl n s m m' x y z c p q r, (forall a, In a (assets n) -> In (cls a) classes) -> costs_sane n -> 0 <= s -> s <= 1 ->
  optimal kvl (repriced m n) x -> optimal kvl (repriced m' n) y -> feasible kvl (repriced (blend s m m') n) z -> cost n z = Some c ->
  cost (repriced m n) x = Some p -> cost (repriced m' n) y = Some q -> cost (repriced (blend s m m') n) z = Some r -> s * p + (1 - s) * q <= r.
Proof. exact concave. Qed.
Print Assumptions C97_concave.
(* C97: higher marginal costs do not make the system cheaper, as long as nothing puts out less than 0 *)
Theorem C97_rise : forall kvl n m x y p q, (forall a, In a (assets n) -> In (cls a) classes) -> costs_sane n -> (forall t, 0 <= w_obj n t) ->
  (forall a t, In a (assets n) -> (t < nsnaps n)%nat -> marginal a t <= m a t /\ 0 <= output y a t) ->
  optimal kvl n x -> optimal kvl (repriced m n) y -> cost n x = Some p -> cost (repriced m n) y = Some q -> p <= q.
Proof. exact rise. Qed.
Print Assumptions C97_rise.

(* two generators with quadratic costs: g gets dearer by 1 and runs at 3/4 instead of 1; the costs rise from 4 to 39/8 *)
Definition before_x : sol := fun _ => 1.
Definition after_x : sol := fun v => match v with (_, _, i) => if String.eqb i "g" then 3 # 4 else 5 # 4 end.
Definition dearer : net := repriced (raised "Generator" "g" (fun _ => 1)) MixProofs.curve_net.
Example C97_ex : (forall a, In a (assets MixProofs.curve_net) -> In (cls a) classes) /\ costs_sane MixProofs.curve_net /\ NoDup (map (fun a => (cls a, nm a)) (assets MixProofs.curve_net)) /\
  optimal IdleProofs.no_kvl MixProofs.curve_net before_x /\ optimal IdleProofs.no_kvl dearer after_x /\
  (exists p, cost MixProofs.curve_net before_x = Some p /\ p == 4) /\ (exists p, cost dearer after_x = Some p /\ p == 39 # 8) /\
  extra (raised "Generator" "g" (fun _ => 1)) MixProofs.curve_net before_x == 1 /\ extra (raised "Generator" "g" (fun _ => 1)) MixProofs.curve_net after_x == 3 # 4.
Proof.
  assert (Sq : forall a : Q, 0 <= a * a) by (intros a; destruct (Qlt_le_dec a 0); nra).
  split; [intros a [<-|[<-|[]]]; cbn; tauto|]. split; [intros a [<-|[<-|[]]]; cbn; lra|]. split; [cbn; repeat (constructor; [cbn; intuition discriminate|]); constructor|].
  split; [|split; [|split; [|split; [|split]]]]; [| |eexists; split; [vm_compute; reflexivity|reflexivity]..|vm_compute; reflexivity|vm_compute; reflexivity].
  - split; [eexists; split; [vm_compute; reflexivity|split; [apply LinProofs.satb_iff; vm_compute; reflexivity|apply IdleProofs.easy_domains; vm_compute; reflexivity]]|].
    eexists. split; [vm_compute; reflexivity|]. intros y q (cs & E & S & _) C. vm_compute in E. injection E as <-.
    pose proof (IdleProofs.row_holds y _ {| lhs := [(1, Some ("Generator-p", O, "g")); (1, Some ("Generator-p", O, "h"))]; sns := Eq; rhs := 2 |} S ltac:(cbn; tauto)) as H.
    unfold holds in H. cbn [sns lhs rhs eval val] in H. cbv -[Qplus Qmult Qle] in C. injection C as <-. clear S.
    set (g := y ("Generator-p", O, "g")) in *. set (h := y ("Generator-p", O, "h")) in *. clearbody g h. assert (Z : h == 2 - g) by lra. rewrite Z. specialize (Sq (g - 1)). nra.
  - split; [eexists; split; [vm_compute; reflexivity|split; [apply LinProofs.satb_iff; vm_compute; reflexivity|apply IdleProofs.easy_domains; vm_compute; reflexivity]]|].
    eexists. split; [vm_compute; reflexivity|]. intros y q (cs & E & S & _) C. vm_compute in E. injection E as <-.
    pose proof (IdleProofs.row_holds y _ {| lhs := [(1, Some ("Generator-p", O, "g")); (1, Some ("Generator-p", O, "h"))]; sns := Eq; rhs := 2 |} S ltac:(cbn; tauto)) as H.
    unfold holds in H. cbn [sns lhs rhs eval val] in H. cbv -[Qplus Qmult Qle] in C. injection C as <-. clear S.
    set (g := y ("Generator-p", O, "g")) in *. set (h := y ("Generator-p", O, "h")) in *. clearbody g h. assert (Z : h == 2 - g) by lra. rewrite Z. specialize (Sq (g - (3 # 4))). nra.
Qed.
(* half the rise: 9/2 is more than half of 39/8 and 4 *)
Example C97_ex_blend : (exists p, cost (repriced (blend (1 # 2) (raised "Generator" "g" (fun _ => 1)) marginal) MixProofs.curve_net) after_x = Some p /\ p == 9 # 2) /\
  feasible IdleProofs.no_kvl (repriced (blend (1 # 2) (raised "Generator" "g" (fun _ => 1)) marginal) MixProofs.curve_net) after_x /\
  (forall t, 0 <= w_obj MixProofs.curve_net t) /\ (forall a t, In a (assets MixProofs.curve_net) -> marginal a t <= raised "Generator" "g" (fun _ => 1) a t /\ 0 <= output after_x a t).
Proof.
  split; [eexists; split; [vm_compute; reflexivity|reflexivity]|]. split; [eexists; split; [vm_compute; reflexivity|split; [apply LinProofs.satb_iff; vm_compute; reflexivity|apply IdleProofs.easy_domains; vm_compute; reflexivity]]|].
  split; [intros t; vm_compute; discriminate|]. intros a t [<-|[<-|[]]]; split; vm_compute; discriminate.
Qed.
