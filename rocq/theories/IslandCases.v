From Coq Require Import List String Bool QArith ZArith Arith Lia Lqa.
From Verif Require Import LinModel WholeModel IdleSpec IslandSpec IslandProofs.
From Verif Require LinProofs CapModel BalanceModel ObjectiveModel IdleProofs UnitProofs.
Import ListNotations.
Open Scope string_scope.
Open Scope list_scope.
Open Scope Q_scope.

Definition load_at (b : string) (p : nat -> Q) : BalanceModel.load := {| BalanceModel.d_bus := b; BalanceModel.d_sign := -(1); BalanceModel.d_p := p; BalanceModel.d_active := true |}.
Definition map_net (T : nat) (l : list asset) (ds : list BalanceModel.load) (lims : list limit) : net :=
  {| assets := l; loads := ds; buses := ["a"; "b"; "c"]; nsnaps := T; w_obj := fun _ => 1; w_gen := fun _ => 1; w_sto := fun _ => 1; tangents := 0; linear := false;
     emission := fun _ => []; carriers := ["AC"]; limits := lims; columns := [] |}.
Definition gen_a := UnitProofs.at_ (IdleProofs.blank "Generator" "g" "a" true false) "a" "a" 5 1.
Definition gen_b := UnitProofs.at_ (IdleProofs.blank "Generator" "h" "b" true false) "b" "b" 5 2.
Definition link_bc := UnitProofs.at_ (IdleProofs.blank "Link" "l" "b" true false) "b" "c" 4 0.
Definition isles (lims : list limit) : net := map_net 1 [gen_a; gen_b; link_bc] [load_at "a" (fun _ => 1); load_at "c" (fun _ => 2)] lims.
Definition left_ : string -> bool := String.eqb "a".
Definition isle_x : sol := fun v => match v with (_, _, i) => if String.eqb i "g" then 1 else 2 end.
Lemma apart_any m l : assets m = [gen_a; gen_b; link_bc] \/ assets m = l /\ (forall a, In a l -> cls a = "Generator") /\ NoDup (map (fun a => (cls a, nm a)) l) /\ (exists a b, In a l /\ In b l /\ bus0 a = "a" /\ bus0 b = "b") -> buses m = ["a"; "b"; "c"] -> separated left_ m.
Proof.
  intros H BS. constructor.
  - split.
    + destruct H as [->|[-> [_ [N _]]]]; [|exact N]. cbn. repeat (constructor; [cbn; intuition discriminate|]). constructor.
    + intros a I. destruct H as [H|[H [G _]]]; rewrite H in I; [|rewrite (G a I); cbn; auto]. cbn [In] in I. repeat (destruct I as [<-|I]; [cbn; auto 10|]). destruct I.
  - intros a I C. destruct H as [H|[H [G _]]]; rewrite H in I; [|rewrite (G a I) in C; cbn in C; intuition discriminate]. cbn [In] in I. repeat (destruct I as [<-|I]; [reflexivity|]). destruct I.
  - intros a pe I C. destruct H as [H|[H [G _]]]; rewrite H in I; [|rewrite (G a I) in C; discriminate C]. cbn [In] in I. repeat (destruct I as [<-|I]; [intros []|]). destruct I.
  - rewrite BS. destruct H as [->|[-> [_ [_ (a & b & Ia & Ib & Ea & Eb)]]]].
    + intros [|]; [exists gen_a|exists gen_b]; cbn; auto 10.
    + intros [|]; [exists a|exists b]; rewrite ?Ea, ?Eb; cbn; auto 10.
Qed.
Lemma no_cycles m : cycles_apart IdleProofs.no_kvl left_ m.
Proof. split; [|intros l v (c & q & [] & _)]. intros x. split; [intros _; split; intros c []|intros _ c []]. Qed.
Lemma no_ramp_limits m : limits m = [] -> (1 <= nsnaps m)%nat -> (forall a, In a (assets m) -> up a 0%nat = None /\ no_static_ramps a) -> uncoupled left_ m.
Proof.
  intros L T H. split; [exact L|].
  assert (G : forall R, ramps_alike m (island R m)).
  { intros R c C. split.
    - intros U (a & I & K). exfalso. destruct (U a I K 0%nat ltac:(lia)) as (u & d & E & _). cbn [island assets] in I. apply filter_In in I. destruct (H a (proj1 I)) as [N _]. congruence.
    - intros _ a I _. cbn [island assets] in I. apply filter_In in I. apply (H a (proj1 I)). }
  auto.
Qed.
Ltac feas := eexists; split; [vm_compute; reflexivity|split; [apply LinProofs.satb_iff; vm_compute; reflexivity|apply IdleProofs.easy_domains; vm_compute; reflexivity]].
Lemma isle_ok : separated left_ (isles []) /\ uncoupled left_ (isles []) /\ cycles_apart IdleProofs.no_kvl left_ (isles []) /\ costs_sane (isles []) /\
  define_objective (island left_ (isles [])) <> None /\ define_objective (island (other left_) (isles [])) <> None.
Proof.
  split; [apply (apart_any _ []); auto|]. split; [apply no_ramp_limits; [reflexivity|cbn; lia|]; intros a I; cbn [isles map_net assets In] in I; repeat (destruct I as [<-|I]; [repeat split|]); destruct I|].
  split; [apply no_cycles|]. split; [intros a I; cbn [isles map_net assets In] in I; repeat (destruct I as [<-|I]; [cbn; lra|]); destruct I|]. split; vm_compute; discriminate.
Qed.
Lemma isle_optimal : optimal IdleProofs.no_kvl (island left_ (isles [])) isle_x /\ optimal IdleProofs.no_kvl (island (other left_) (isles [])) isle_x /\
  cost (island left_ (isles [])) isle_x = Some 1 /\ cost (island (other left_) (isles [])) isle_x = Some 4 /\ cost (isles []) isle_x = Some 5.
Proof.
  split; [|split; [|split; [|split]]]; [| |vm_compute; reflexivity..].
  - split; [feas|]. exists 1. split; [vm_compute; reflexivity|]. intros y q' (cs & E & S_ & _) C. vm_compute in E. injection E as <-.
    pose proof (IdleProofs.row_holds y _ {| lhs := [(1, Some ("Generator-p", 0%nat, "g"))]; sns := Eq; rhs := 1 |} S_ ltac:(cbn; tauto)) as H1.
    unfold holds in H1. cbn [sns lhs rhs eval val] in H1. unfold cost in C.
    assert (OO : define_objective (island left_ (isles [])) = Some [ObjectiveModel.Linear [(1, Some ("Generator-p", 0%nat, "g"))]]) by (vm_compute; reflexivity).
    rewrite OO in C. unfold ObjectiveModel.value_of in C. cbn [option_map fold_right ObjectiveModel.piece_value eval val] in C. injection C as <-. lra.
  - split; [feas|]. exists 4. split; [vm_compute; reflexivity|]. intros y q' (cs & E & S_ & _) C. vm_compute in E. injection E as <-.
    pose proof (IdleProofs.row_holds y _ {| lhs := [(1, Some ("Generator-p", 0%nat, "h")); (-(1), Some ("Link-p", 0%nat, "l"))]; sns := Eq; rhs := 0 |} S_ ltac:(cbn; tauto)) as H1.
    pose proof (IdleProofs.row_holds y _ {| lhs := [(1, Some ("Link-p", 0%nat, "l"))]; sns := Eq; rhs := 2 |} S_ ltac:(cbn; tauto)) as H2.
    unfold holds in H1, H2. cbn [sns lhs rhs eval val] in H1, H2. unfold cost in C.
    assert (OO : define_objective (island (other left_) (isles [])) = Some [ObjectiveModel.Linear [(2, Some ("Generator-p", 0%nat, "h"))]]) by (vm_compute; reflexivity).
    rewrite OO in C. unfold ObjectiveModel.value_of in C. cbn [option_map fold_right ObjectiveModel.piece_value eval val] in C. injection C as <-. lra.
Qed.

(* a limit of the whole network is met by the parts, not by both *)
Lemma limit_couples : let n := isles [Operational "AC" Le 2] in
  separated left_ n /\ cycles_apart IdleProofs.no_kvl left_ n /\ ramps_alike n (island left_ n) /\ ramps_alike n (island (other left_) n) /\
  feasible IdleProofs.no_kvl (island left_ n) isle_x /\ feasible IdleProofs.no_kvl (island (other left_) n) isle_x /\ ~ exists z, feasible IdleProofs.no_kvl n z.
Proof.
  cbn zeta. split; [apply (apart_any _ []); auto|]. split; [apply no_cycles|].
  split; [exact (proj1 (proj2 (proj1 (proj2 isle_ok))))|]. split; [exact (proj2 (proj2 (proj1 (proj2 isle_ok))))|]. split; [feas|]. split; [feas|].
  intros (z & cs & E & S_ & _). vm_compute in E. injection E as <-.
  pose proof (IdleProofs.row_holds z _ {| lhs := [(1, Some ("Generator-p", 0%nat, "g"))]; sns := Eq; rhs := 1 |} S_ ltac:(cbn; tauto)) as H1.
  pose proof (IdleProofs.row_holds z _ {| lhs := [(1, Some ("Generator-p", 0%nat, "h")); (-(1), Some ("Link-p", 0%nat, "l"))]; sns := Eq; rhs := 0 |} S_ ltac:(cbn; tauto)) as H2.
  pose proof (IdleProofs.row_holds z _ {| lhs := [(1, Some ("Link-p", 0%nat, "l"))]; sns := Eq; rhs := 2 |} S_ ltac:(cbn; tauto)) as H3.
  pose proof (IdleProofs.row_holds z _ {| lhs := [(1, Some ("Generator-p", 0%nat, "g")); (1, Some ("Generator-p", 0%nat, "h"))]; sns := Le; rhs := 2 |} S_ ltac:(cbn; tauto)) as H4.
  unfold holds in *. cbn [sns lhs rhs eval val] in *. lra.
Qed.

(* a ramp limit of one is dropped unless some generator elsewhere has another or none *)
Definition steep := IdleProofs.with_ramps gen_a (-(1)) (fun _ => Some 1).
Definition steep_net : net := map_net 2 [steep; gen_b] [load_at "a" (fun t => match t with O => 1 | _ => -(1) end); load_at "b" (fun _ => 1)] [].
Definition steep_x : sol := fun v => match v with (_, t, i) => if String.eqb i "g" then match t with O => 1 | _ => -(1) end else 1 end.
Lemma ramps_couple : separated left_ steep_net /\ cycles_apart IdleProofs.no_kvl left_ steep_net /\ limits steep_net = [] /\
  feasible IdleProofs.no_kvl (island left_ steep_net) steep_x /\ feasible IdleProofs.no_kvl (island (other left_) steep_net) steep_x /\ ~ exists z, feasible IdleProofs.no_kvl steep_net z.
Proof.
  split.
  { apply (apart_any _ [steep; gen_b]); [right|reflexivity]. split; [reflexivity|]. split; [intros a [<-|[<-|[]]]; reflexivity|]. split; [cbn; repeat (constructor; [cbn; intuition discriminate|]); constructor|].
    exists steep, gen_b. cbn. auto 10. }
  split; [apply no_cycles|]. split; [reflexivity|]. split; [feas|]. split; [feas|].
  intros (z & cs & E & S_ & _). vm_compute in E. injection E as <-.
  pose proof (IdleProofs.row_holds z _ {| lhs := [(1, Some ("Generator-p", 0%nat, "g"))]; sns := Eq; rhs := 1 |} S_ ltac:(cbn; tauto)) as H1.
  pose proof (IdleProofs.row_holds z _ {| lhs := [(1, Some ("Generator-p", 1%nat, "g"))]; sns := Eq; rhs := -(1) |} S_ ltac:(cbn; tauto)) as H2.
  pose proof (IdleProofs.row_holds z _ {| lhs := [(1, Some ("Generator-p", 1%nat, "g")); (-(1), Some ("Generator-p", 0%nat, "g"))]; sns := Ge; rhs := -(1) |} S_ ltac:(cbn; tauto)) as H3.
  unfold holds in *. cbn [sns lhs rhs eval val] in *. lra.
Qed.
