From Coq Require Import List String Bool ZArith QArith Relations.
From Verif Require Import Assoc TablesModel TablesSpec TablesProofs PeriodsModel PeriodsProofs TopologyModel TopologySpec TopologyProofs.
Import ListNotations.
Open Scope string_scope.
Open Scope list_scope.

(* C15: every bus gets one label; two buses get the same iff a path of usable passive branches connects
   them; the sub-network table lists exactly the labels in use (without single buses if asked for), with
   the carrier of the first bus; a usable branch gets the label both its ends have; an unusable one gets
   none if a period was given (and the one of bus0 otherwise). *)
Theorem C15_sub_networks :
  forall (known : list Z) (period : option Z) (skip : bool) (passive : list string) (n : tnet),
    topo_wf known period passive n -> last_class_counts period passive n ->
    exists t, determine_network_topology known period skip passive n = inl t /\
      map fst (bus_sub t) = busnames n /\
      (forall x y i j, dget (bus_sub t) x = Some i -> dget (bus_sub t) y = Some j ->
         (i = j <-> connected period passive n x y)) /\
      NoDup (map fst (sub_networks t)) /\
      (forall i, In i (map fst (sub_networks t)) <->
         exists x rest, sub_buses t i = x :: rest /\ (skip = true -> rest <> [])) /\
      (forall i c, In (i, c) (sub_networks t) ->
         exists x rest, sub_buses t i = x :: rest /\ dget (tbuses n) x = Some c) /\
      (forall cls brs k b, In cls passive -> dget (tbranches n) cls = Some brs -> nth_error brs k = Some b ->
         exists l, dget (branch_sub t) cls = Some l /\ List.length l = List.length brs /\
           (usable period b ->
              nth_error l k = Some (aname (basset b), dget (bus_sub t) (bus0 b)) /\
              dget (bus_sub t) (bus1 b) = dget (bus_sub t) (bus0 b) /\ dget (bus_sub t) (bus0 b) <> None) /\
           (~ usable period b ->
              nth_error l k = Some (aname (basset b),
                                    match period with None => dget (bus_sub t) (bus0 b) | Some _ => None end))).
Proof. exact topology_spec. Qed.
Print Assumptions C15_sub_networks.

(* SubNetwork.branches(): the branches whose bus0 has the label, with a period only those usable in it *)
Theorem C15_members :
  forall (known : list Z) (period : option Z) (skip : bool) (passive : list string) (n : tnet) (t : topology) (cls : string) (brs : list branch) (i : nat) (nm : string),
    topo_wf known period passive n -> last_class_counts period passive n -> determine_network_topology known period skip passive n = inl t ->
    In cls passive -> dget (tbranches n) cls = Some brs ->
    (In nm (sub_branches t i cls) <->
     exists b, In b brs /\ aname (basset b) = nm /\ dget (bus_sub t) (bus0 b) = Some i /\ (period <> None -> usable period b)).
Proof. exact members. Qed.
Print Assumptions C15_members.

(* Python visits the passive classes in the order of a set: labels do not depend on it *)
Theorem C15_class_order_irrelevant :
  forall (known : list Z) (period : option Z) (skip : bool) (p1 p2 : list string) (n : tnet) (t1 t2 : topology),
    topo_wf known period p1 n -> last_class_counts period p1 n -> last_class_counts period p2 n ->
    (forall c, In c p1 <-> In c p2) ->
    determine_network_topology known period skip p1 n = inl t1 ->
    determine_network_topology known period skip p2 n = inl t2 ->
    bus_sub t1 = bus_sub t2 /\ sub_networks t1 = sub_networks t2.
Proof. exact topology_order. Qed.
Print Assumptions C15_class_order_irrelevant.

(* a usable branch ending at an unknown bus is reported *)
Theorem C15_unknown_bus :
  forall (known : list Z) (period : option Z) (skip : bool) (passive : list string) (n : tnet) (x y : string),
    period_ok known period -> last_class_counts period passive n -> joined period passive n x y ->
    ~ (In x (busnames n) /\ In y (busnames n)) ->
    determine_network_topology known period skip passive n = inr ValueErr.
Proof. exact topology_unknown. Qed.
Print Assumptions C15_unknown_bus.

Definition tp_asset (nm : string) (on : bool) : asset :=
  {| aname := nm; aactive := on; build_year := 2020; lifetime := Some 20%Q |}.
Definition tp_br (nm : string) (on : bool) (a b : string) : branch :=
  {| basset := tp_asset nm on; bus0 := a; bus1 := b |}.
Definition tp_net (trafo_on : bool) : tnet :=
  {| tbuses := [("a", "AC"); ("b", "AC"); ("c", "DC"); ("d", "AC"); ("e", "AC")];
     tbranches := [("Line", [tp_br "l0" true "a" "b"; tp_br "l1" true "d" "b"; tp_br "l2" false "a" "c"]);
                   ("Link", [tp_br "k" true "c" "e"]);
                   ("Transformer", [tp_br "t" trafo_on "d" "a"])] |}.
Definition tp_out (on : bool) (passive : list string) : list (string * nat) :=
  match determine_network_topology [2030]%Z None false passive (tp_net on) with inl t => bus_sub t | inr _ => [] end.

Example C15_example :
  tp_out true ["Line"; "Transformer"] = [("a", 0); ("b", 0); ("c", 1); ("d", 0); ("e", 2)]%nat /\
  tp_out true ["Transformer"; "Line"] = tp_out true ["Line"; "Transformer"] /\
  match determine_network_topology [2030]%Z (Some 2030%Z) true ["Line"; "Transformer"] (tp_net true) with
  | inl t => sub_networks t = [(0, "AC")]%nat /\ sub_branches t 0 "Line" = ["l0"; "l1"] /\
             sub_buses t 0 = ["a"; "b"; "d"]
  | inr _ => False
  end /\
  determine_network_topology [2030]%Z (Some 2031%Z) true ["Line"; "Transformer"] (tp_net true) = inr ValueErr.
Proof. repeat split; reflexivity. Qed.

Example C15_hypotheses :
  topo_wf [2030]%Z (Some 2030%Z) ["Line"; "Transformer"] (tp_net true) /\
  last_class_counts (Some 2030%Z) ["Line"; "Transformer"] (tp_net true).
Proof.
  split.
  - split; [apply nodupb_spec; reflexivity|]. split; [intros p E; injection E as <-; simpl; auto|].
    intros x y [cls [b [[brs [I [D B]]] [_ [<- <-]]]]]. simpl in I.
    destruct I as [<-|[<-|[]]]; vm_compute in D; injection D as <-; simpl in B.
    + destruct B as [<-|[<-|[<-|[]]]]; vm_compute; intuition congruence.
    + destruct B as [<-|[]]; vm_compute; intuition congruence.
  - intros cls b last _ _ [pre [post [E [[b0 _] P]]]].
    destruct pre as [|p0 [|p1 [|p2 pre]]]; simpl in E; try discriminate.
    + injection E as <- <-. destruct (P "Transformer"); simpl; auto; discriminate.
    + injection E as <- <- <-. exists (tp_br "t" true "d" "a"). split.
      * eexists. split; [simpl; auto|]. split; [reflexivity|simpl; auto].
      * split; [reflexivity|]. vm_compute. intuition congruence.
Qed.

(* DEFECT (graph.py:146, 154): the count of branches is overwritten by each class; when the class visited
   last has branches but none is usable, all usable branches of the other classes are forgotten *)
Theorem C15_last_class_unused_refuted :
  exists n passive x y, topo_wf [] None passive n /\ connected None passive n x y /\
    match determine_network_topology [] None false passive n with
    | inl t => exists i j, dget (bus_sub t) x = Some i /\ dget (bus_sub t) y = Some j /\ i <> j
    | inr _ => False
    end.
Proof.
  exists (tp_net false), ["Line"; "Transformer"], "a", "b". split; [|split].
  - split; [apply nodupb_spec; reflexivity|]. split; [discriminate|].
    intros x y [cls [b [[brs [I [D B]]] [_ [<- <-]]]]]. simpl in I.
    destruct I as [<-|[<-|[]]]; vm_compute in D; injection D as <-; simpl in B.
    + destruct B as [<-|[<-|[<-|[]]]]; vm_compute; intuition congruence.
    + destruct B as [<-|[]]; vm_compute; intuition congruence.
  - apply rst_step. exists "Line", (tp_br "l0" true "a" "b"). split.
    + eexists. split; [simpl; auto|]. split; [reflexivity|simpl; auto].
    + repeat split; reflexivity.
  - vm_compute. exists 0%nat, 1%nat. repeat split; discriminate.
Qed.
Print Assumptions C15_last_class_unused_refuted.

(* in general: every bus then becomes a sub-network of its own *)
Theorem C15_last_class_unused :
  forall (known : list Z) (period : option Z) (skip : bool) (passive : list string) (n : tnet) (last : string),
    NoDup (busnames n) -> period_ok known period -> visited_last passive n last ->
    (forall b, passive_branch passive n last b -> ~ usable period b) ->
    exists t, determine_network_topology known period skip passive n = inl t /\
      forall x y i, dget (bus_sub t) x = Some i -> dget (bus_sub t) y = Some i -> x = y.
Proof. exact topology_lost. Qed.
Print Assumptions C15_last_class_unused.

(* without a period a branch that is switched off still counts as part of the sub-network of its bus0,
   even when its other end belongs to another one *)
Theorem C15_inactive_branch_refuted :
  exists n passive b t, passive_branch passive n "Line" b /\
    determine_network_topology [] None false passive n = inl t /\
    (exists i, dget (bus_sub t) (bus0 b) = Some i /\ In (aname (basset b)) (sub_branches t i "Line") /\
               ~ In (bus1 b) (sub_buses t i)).
Proof.
  exists (tp_net true), ["Line"; "Transformer"], (tp_br "l2" false "a" "c"). eexists.
  split; [eexists; split; [simpl; auto|]; split; [reflexivity|simpl; auto]|].
  split; [vm_compute; reflexivity|]. exists 0%nat. split; [reflexivity|]. split; [vm_compute; auto|].
  vm_compute. intuition congruence.
Qed.
Print Assumptions C15_inactive_branch_refuted.
