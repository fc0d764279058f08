From Coq Require Import List String Bool QArith ZArith Arith Lia Lqa.
From Verif Require Import LinModel LinProofs WholeModel IdleSpec OrderSpec StretchSpec StretchProofs StretchParts StretchWhole.
From Verif Require IdleProofs UnitProofs ObjectiveModel CapModel.
Import ListNotations.
Open Scope string_scope.
Open Scope list_scope.
Open Scope Q_scope.

(* three snapshots of equal data for one of the network with two parallel lines *)
Definition mesh_cycles (l : list asset) : list (list (Q * (string * string))) := [[(1, ("Line-s", "l")); (-(1), ("Line-s", "r"))]].
Definition sixths (t : nat) : Q := match t with O => 1 # 6 | 1%nat => 1 # 3 | _ => 1 # 2 end.
Definition thrice : net := stretched (fun _ => O) 3 sixths sixths sixths UnitProofs.mesh_net.
Lemma mesh_cycles_ok rep : cycles_ok rep mesh_cycles.
Proof. intros l. split; [reflexivity|]. intros cy e [<-|[]] [<-|[<-|[]]]; now left. Qed.
Lemma mesh_groups : groups (fun _ => O) 3 sixths sixths UnitProofs.mesh_net.
Proof.
  constructor.
  - intros t _. cbn. lia.
  - intros s L. cbn in L. exists O. split; lia.
  - intros t _. destruct t as [|[|t]]; vm_compute; reflexivity.
  - intros s L. cbn in L. assert (s = O) as -> by lia. vm_compute. reflexivity.
  - intros s L. cbn in L. assert (s = O) as -> by lia. vm_compute. reflexivity.
  - intros t _. reflexivity.
Qed.
Lemma mesh_decoupled : decoupled UnitProofs.mesh_net.
Proof.
  constructor.
  - intros a J. cbn [UnitProofs.mesh_net UnitProofs.two_buses assets In] in J. repeat (destruct J as [<-|J]; [cbn; tauto|]). destruct J.
  - intros a J. cbn [UnitProofs.mesh_net UnitProofs.two_buses assets In] in J. repeat (destruct J as [<-|J]; [reflexivity|]). destruct J.
  - intros a t J. cbn [UnitProofs.mesh_net UnitProofs.two_buses assets In] in J. repeat (destruct J as [<-|J]; [split; reflexivity|]). destruct J.
Qed.
Lemma mesh_convex : convex UnitProofs.mesh_net.
Proof. intros a t J. cbn [UnitProofs.mesh_net UnitProofs.two_buses assets In] in J. repeat (destruct J as [<-|J]; [vm_compute; discriminate|]). destruct J. Qed.
Lemma mesh_stretch : optimal (kirchhoff mesh_cycles 3) thrice (repeated (fun _ => O) UnitProofs.mesh_x).
Proof. apply (optimal_rep _ _ _ _ _ _ mesh_groups mesh_decoupled mesh_cycles (mesh_cycles_ok _)); [exact mesh_convex|]. exact (proj1 (proj2 (proj2 UnitProofs.mesh_case))). Qed.

(* two days of a day and a night, a store just large enough for one night *)
Definition days (t : nat) : nat := match t with O => 0 | 1 => 1 | 2 => 0 | _ => 1 end%nat.
Definition half (t : nat) : Q := 1 # 2.
Definition tank : asset :=
  {| cls := "Store"; nm := "h"; bus0 := "a"; bus1 := "a"; sgn := 1; ports := []; carrier := "AC"; flag := true; ext := false; committable := false;
     nom := 1 # 2; nom_min := 0; nom_max := None; nom_set := None; nom_mod := 0; min_pu := fun _ => 0; max_pu := fun _ => 1; max_hours := 1;
     op_set := fun _ _ => None; up := fun _ => None; down := fun _ => None; up_static := None; down_static := None; start_lim := 1; shut_lim := 1;
     min_up := 0; min_down := 0; up_before := 1; down_before := 0; eff := fun _ => 1; stand := fun _ => 1; init := 0; cyclic := false;
     eff_dispatch := fun _ => 1; eff_store := fun _ => 1; inflow := fun _ => 0; capital := 0; marginal := fun _ => 0; storage_cost := fun _ => 0;
     spill_cost := fun _ => 0; quadratic := fun _ => 0; standby := fun _ => 0; start_cost := 0; shut_cost := 0; len := 1; e_min := None; e_max := None; r_eff := 1 |}.
Definition night_net : net := IdleProofs.small 2
  [UnitProofs.at_ IdleProofs.gen_ "a" "a" 1 1; tank]
  (fun t => match t with O => 0 | _ => 2 end) 0 [] [].
Definition no_cycles (l : list asset) : list (list (Q * (string * string))) := [].
Definition night_x : sol := fun v => let '(s, t, i) := v in
  if String.eqb s "Generator-p" then 1 else if String.eqb s "Store-p" then (if Nat.eqb (days t) 0 then -(1) else 1) else (if Nat.eqb (days t) 0 then 1 # 2 else 0).
Lemma night_groups : groups days 4 half half night_net.
Proof.
  constructor.
  - intros t _. destruct t as [|[|[|t]]]; cbn; lia.
  - intros s L. cbn in L. destruct s as [|[|s]]; [exists 0%nat|exists 1%nat|lia]; split; cbn; lia.
  - intros t _. vm_compute. reflexivity.
  - intros s L. cbn in L. destruct s as [|[|s]]; [vm_compute; reflexivity|vm_compute; reflexivity|lia].
  - intros s L. cbn in L. destruct s as [|[|s]]; [vm_compute; reflexivity|vm_compute; reflexivity|lia].
  - intros t _. reflexivity.
Qed.
Lemma storage_refuted : groups days 4 half half night_net /\ (forall s, (s < 2)%nat -> w_sto night_net s == sum half (group days 4 s)) /\
  (forall a t, In a (assets night_net) -> committable a = false /\ up a t = None /\ down a t = None) /\ cycles_ok days no_cycles /\
  feasible (kirchhoff no_cycles 4) (stretched days 4 half half half night_net) night_x /\ ~ exists y, feasible (kirchhoff no_cycles 2) night_net y.
Proof.
  split; [exact night_groups|]. split; [intros s L; destruct s as [|[|s]]; [vm_compute; reflexivity|vm_compute; reflexivity|lia]|]. split; [|split; [|split]].
  - intros a t J. cbn [night_net IdleProofs.small assets In] in J. repeat (destruct J as [<-|J]; [repeat split; reflexivity|]). destruct J.
  - intros l. split; [reflexivity|]. intros cy e [].
  - eexists. split; [vm_compute; reflexivity|]. split; [apply satb_iff; vm_compute; reflexivity|]. apply IdleProofs.easy_domains; vm_compute; reflexivity.
  - intros [y [cs [E [S _]]]]. vm_compute in E. injection E as <-.
    pose proof (IdleProofs.row_holds y _ {| lhs := [(1, Some ("Generator-p", 1%nat, "g"))]; sns := Le; rhs := 1 |} S ltac:(cbn; tauto)) as H1.
    pose proof (IdleProofs.row_holds y _ {| lhs := [(1, Some ("Generator-p", 1%nat, "g")); (1, Some ("Store-p", 1%nat, "h"))]; sns := Eq; rhs := 2 |} S ltac:(cbn; tauto)) as H2.
    pose proof (IdleProofs.row_holds y _ {| lhs := [(1, Some ("Store-e", 1%nat, "h"))]; sns := Ge; rhs := 0 # 2 |} S ltac:(cbn; tauto)) as H3.
    pose proof (IdleProofs.row_holds y _ {| lhs := [(1, Some ("Store-e", 0%nat, "h"))]; sns := Le; rhs := 1 # 2 |} S ltac:(cbn; tauto)) as H4.
    pose proof (IdleProofs.row_holds y _ {| lhs := [(-1, Some ("Store-e", 1%nat, "h")); (-1, Some ("Store-p", 1%nat, "h")); (1, Some ("Store-e", 0%nat, "h"))]; sns := Eq; rhs := 0 |} S ltac:(cbn; tauto)) as H5.
    unfold holds in *. cbn [sns lhs rhs eval val] in *. lra.
Qed.

(* demand rising over the day, and a generator that cannot fall back at once *)
Definition rising_net : net := IdleProofs.small 3 [IdleProofs.with_ramps IdleProofs.gen_ 0 (fun _ => Some (1 # 2))] (fun t => match t with O => 0 | 1%nat => 1 # 2 | _ => 1 end) 0 [] [].
Definition again_ (t : nat) : nat := match t with O => 0 | 1 => 1 | 2 => 2 | 3 => 0 | 4 => 1 | _ => 2 end%nat.
Definition rising_y : sol := fun v => match v with (_, O, _) => 0 | (_, 1%nat, _) => 1 # 2 | _ => 1 end.
Lemma ramps_refuted : groups again_ 6 half half rising_net /\ (forall a, In a (assets rising_net) -> cls a = "Generator" /\ committable a = false) /\ cycles_ok again_ no_cycles /\
  feasible (kirchhoff no_cycles 3) rising_net rising_y /\ ~ exists x, feasible (kirchhoff no_cycles 6) (stretched again_ 6 half half half rising_net) x.
Proof.
  split; [|split; [|split; [|split]]].
  - constructor.
    + intros t _. destruct t as [|[|[|[|[|t]]]]]; cbn; lia.
    + intros s L. cbn in L. exists s. destruct s as [|[|[|s]]]; [split; cbn; lia|split; cbn; lia|split; cbn; lia|lia].
    + intros t _. vm_compute. reflexivity.
    + intros s L. cbn in L. destruct s as [|[|[|s]]]; [vm_compute; reflexivity|vm_compute; reflexivity|vm_compute; reflexivity|lia].
    + intros s L. cbn in L. destruct s as [|[|[|s]]]; [vm_compute; reflexivity|vm_compute; reflexivity|vm_compute; reflexivity|lia].
    + intros t _. reflexivity.
  - intros a [<-|[]]. split; reflexivity.
  - intros l. split; [reflexivity|]. intros cy e [].
  - eexists. split; [vm_compute; reflexivity|]. split; [apply satb_iff; vm_compute; reflexivity|]. apply IdleProofs.easy_domains; vm_compute; reflexivity.
  - intros [x [cs [E [S _]]]]. vm_compute in E. injection E as <-.
    pose proof (IdleProofs.row_holds x _ {| lhs := [(1, Some ("Generator-p", 2%nat, "g"))]; sns := Eq; rhs := 1 |} S ltac:(cbn; tauto)) as H1.
    pose proof (IdleProofs.row_holds x _ {| lhs := [(1, Some ("Generator-p", 3%nat, "g"))]; sns := Eq; rhs := 0 |} S ltac:(cbn; tauto)) as H2.
    pose proof (IdleProofs.row_holds x _ {| lhs := [(1, Some ("Generator-p", 3%nat, "g")); (-1, Some ("Generator-p", 2%nat, "g"))]; sns := Ge; rhs := -1 # 2 |} S ltac:(cbn; tauto)) as H3.
    unfold holds in *. cbn [sns lhs rhs eval val] in *. lra.
Qed.
