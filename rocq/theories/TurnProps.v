From Coq Require Import List String Bool QArith Qabs ZArith Arith Lqa.
From Verif Require Import LinModel WholeModel IdleSpec TurnSpec TurnProofs UnitProofs CyclesModel KirchhoffModel KirchhoffProofs.
From Verif Require CapModel BalanceModel IdleProofs BalanceProofs ObjectiveModel LinProofs.
Import ListNotations.
Open Scope string_scope.
Open Scope list_scope.
Open Scope Q_scope.

(* C91: the solutions are the same, with the flows of the turned branches counted the other way *)
Theorem C91_feasible : forall d kvl n x, kvl_follows d kvl (filter passive (assets n)) -> (forall a, In a (assets n) -> In (cls a) classes) ->
  (feasible kvl (turned d n) x <-> feasible kvl n (against d x)).
Proof. exact (fun d kvl n x K C => feasible_turn d n kvl K C x). Qed.
Print Assumptions C91_feasible.

(* C91: at the same costs *)
Theorem C91_cost : forall d n x, cost (turned d n) x = cost n (against d x).
Proof. exact (fun d n x => cost_turn d n x). Qed.
Print Assumptions C91_cost.

(* C91: the cheapest solutions are the same *)
Theorem C91_optimal : forall d kvl n x, kvl_follows d kvl (filter passive (assets n)) -> (forall a, In a (assets n) -> In (cls a) classes) ->
  (optimal kvl (turned d n) x <-> optimal kvl n (against d x)).
Proof. exact (fun d kvl n x K C => optimal_turn d n kvl K C x). Qed.
Print Assumptions C91_optimal.

(* C91: every solution has its counterpart; only flows change, and only their signs *)
Theorem C91_onto : forall d y, (exists x, forall v, against d x v == y v) /\
  (forall s t i, s <> "Line-s" -> s <> "Transformer-s" -> against d y (s, t, i) = y (s, t, i)) /\
  (forall v, Qabs.Qabs (against d y v) == Qabs.Qabs (y v)).
Proof. exact (fun d y => conj (ex_intro _ (against d y) (ag_ag d y)) (conj (ag_only d y) (ag_abs d y))). Qed.
Print Assumptions C91_onto.

(* C91: no direction makes create_model fail *)
Theorem C91_defined : forall d kvl n, kvl_follows d kvl (filter passive (assets n)) -> (create_model kvl (turned d n) = None <-> create_model kvl n = None).
Proof. exact (fun d kvl n K => defined_turn d n kvl K). Qed.
Print Assumptions C91_defined.

(* C91: the rows that the code builds from the cycles of the network do follow the turned branches *)
Theorem C91_kirchhoff : forall d place fin weight basis T l,
  undirected basis -> (forall a, weight (reverse a) = weight a) -> (forall a, fin (reverse a) = fin a) ->
  (forall a, In a l -> passive a = true) -> (forall a, In a l -> place (bus0 a) <> place (bus1 a)) ->
  kvl_follows d (kirchhoff place fin weight basis T) l.
Proof. exact (fun d place fin weight basis T l U W Fi P NL => kirchhoff_follows d place fin weight basis T U W Fi l P NL). Qed.
Print Assumptions C91_kirchhoff.

(* C91: hence the optimum of the network with the voltage law of the code *)
Theorem C91_optimal_kirchhoff : forall d place fin weight basis T n x,
  undirected basis -> (forall a, weight (reverse a) = weight a) -> (forall a, fin (reverse a) = fin a) ->
  (forall a, In a (assets n) -> In (cls a) classes) -> (forall a, In a (assets n) -> passive a = true -> place (bus0 a) <> place (bus1 a)) ->
  (optimal (kirchhoff place fin weight basis T) (turned d n) x <-> optimal (kirchhoff place fin weight basis T) n (against d x)).
Proof.
  exact (fun d place fin weight basis T n x U W Fi C NL =>
    optimal_turn d n _ (kirchhoff_follows d place fin weight basis T U W Fi _
      (fun a J => proj2 (proj1 (filter_In passive a (assets n)) J))
      (fun a J => NL a (proj1 (proj1 (filter_In passive a (assets n)) J)) (proj2 (proj1 (filter_In passive a (assets n)) J)))) C x).
Qed.
Print Assumptions C91_optimal_kirchhoff.

(* a triangle with a second line beside one of its sides *)
Definition number (b : string) : nat := if String.eqb b "a" then 0 else if String.eqb b "b" then 1 else 2.
Definition line (i b0 b1 : string) : asset := at_ (IdleProofs.blank "Line" i "a" true false) b0 b1 5 0.
Definition triangle : list asset := [line "ab" "a" "b"; line "bc" "b" "c"; line "ac" "a" "c"; line "ab2" "a" "b"].
Definition tri (l : list asset) : list con := kirchhoff number (fun _ => true) (fun _ => 1) (fun _ => [[0%nat; 1%nat; 2%nat]]) 1 l.
Definition some_of : choice := fun _ i => String.eqb i "ab" || String.eqb i "ac".
Example C91_ex_kirchhoff : undirected (fun _ => [[0%nat; 1%nat; 2%nat]]) /\ (forall a, In a triangle -> passive a = true) /\ (forall a, In a triangle -> number (bus0 a) <> number (bus1 a)) /\
  map lhs (tri triangle) = [[(100000, Some ("Line-s", O, "ab")); (100000, Some ("Line-s", O, "bc")); (-(100000), Some ("Line-s", O, "ac"))];
                            [(100000, Some ("Line-s", O, "ab")); (-(100000), Some ("Line-s", O, "ab2"))]] /\
  map lhs (tri (map (turn some_of) triangle)) = [[(-(100000), Some ("Line-s", O, "ab")); (100000, Some ("Line-s", O, "bc")); (100000, Some ("Line-s", O, "ac"))];
                            [(100000, Some ("Line-s", O, "ab")); (100000, Some ("Line-s", O, "ab2"))]].
Proof.
  split; [intros B B' _; reflexivity|]. split; [|split; [|split; vm_compute; reflexivity]].
  - intros a J. repeat (destruct J as [<-|J]; [reflexivity|]). destruct J.
  - intros a J. repeat (destruct J as [<-|J]; [vm_compute; discriminate|]). destruct J.
Qed.

(* two branches between two buses: the same flow through both, from the same end *)
Definition ring (l : list asset) : list con :=
  match l with
  | [a; b] =>
      let row (q : Q) := [{| lhs := [(1, Some ((cls a ++ "-" ++ "s")%string, O, nm a)); (q, Some ((cls b ++ "-" ++ "s")%string, O, nm b))]; sns := Eq; rhs := 0 |}] in
      if String.eqb (bus0 a) (bus1 a) then []
      else if String.eqb (bus0 a) (bus0 b) && String.eqb (bus1 a) (bus1 b) then row (-(1))
      else if String.eqb (bus0 a) (bus1 b) && String.eqb (bus1 a) (bus0 b) then row 1
      else []
  | _ => []
  end.
Lemma one_row x c : CapModel.has_term c = true -> (sat x (CapModel.problem [c]) <-> holds x c).
Proof.
  intros H. unfold CapModel.problem. cbn [filter map]. rewrite H. split.
  - intros S. exact (S c (or_introl eq_refl)).
  - intros S b [<-|[]]. exact S.
Qed.
Lemma flow_ag d x a : passive a = true -> against d x ((cls a ++ "-" ++ "s")%string, O, nm a) == (if d (cls a) (nm a) then -(1) else 1) * x ((cls a ++ "-" ++ "s")%string, O, nm a).
Proof.
  intros Pa. unfold passive in Pa. apply orb_true_iff in Pa. destruct Pa as [Pa|Pa]; apply String.eqb_eq in Pa; rewrite Pa.
  - change (("Line" ++ "-" ++ "s")%string) with "Line-s".
    change (against d x ("Line-s", O, nm a)) with (if (d "Line" (nm a) || false)%bool then - x ("Line-s", O, nm a) else x ("Line-s", O, nm a)).
    rewrite orb_false_r. destruct (d "Line" (nm a)); ring.
  - change (("Transformer" ++ "-" ++ "s")%string) with "Transformer-s".
    change (against d x ("Transformer-s", O, nm a)) with (if (d "Transformer" (nm a))%bool then - x ("Transformer-s", O, nm a) else x ("Transformer-s", O, nm a)).
    destruct (d "Transformer" (nm a)); ring.
Qed.
Lemma ring_follows d l : (forall a, In a l -> passive a = true) -> kvl_follows d ring l.
Proof.
  intros Hp x. assert (N : sat x (CapModel.problem []) <-> sat (against d x) (CapModel.problem [])) by (split; intros _ b []).
  destruct l as [|a [|b [|e l]]]; try exact N.
  pose proof (flow_ag d x a (Hp a (or_introl eq_refl))) as Fa. pose proof (flow_ag d x b (Hp b (or_intror (or_introl eq_refl)))) as Fb.
  cbn [map]. unfold ring. rewrite !F_cls.
  assert (Ea := ends d a). assert (Eb := ends d b). unfold same_ends in Ea, Eb.
  rewrite (Hp a (or_introl eq_refl)) in Ea. rewrite (Hp b (or_intror (or_introl eq_refl))) in Eb.
  destruct Ea as (_ & -> & Ea), Eb as (_ & -> & Eb). cbn [andb] in Ea, Eb. cbn zeta.
  set (va := ((cls a ++ "-" ++ "s")%string, O, nm a)) in *. set (vb := ((cls b ++ "-" ++ "s")%string, O, nm b)) in *.
  assert (R : forall p q : Q, (x va + q * x vb == 0 <-> against d x va + p * against d x vb == 0) ->
    (sat x (CapModel.problem [{| lhs := [(1, Some va); (q, Some vb)]; sns := Eq; rhs := 0 |}]) <->
     sat (against d x) (CapModel.problem [{| lhs := [(1, Some va); (p, Some vb)]; sns := Eq; rhs := 0 |}]))).
  { intros p q H. rewrite !one_row by reflexivity. unfold holds. cbn [lhs sns rhs eval val]. rewrite !Qmult_1_l, !Qplus_0_r. exact H. }
  destruct Ea as [(Da & -> & ->)|(Da & -> & ->)], Eb as [(Db & -> & ->)|(Db & -> & ->)]; rewrite Da in Fa; rewrite Db in Fb;
    destruct (String.eqb_spec (bus0 a) (bus1 a)) as [E0|E0], (String.eqb_spec (bus1 a) (bus0 a)) as [E1|E1]; try congruence; try exact N;
    destruct (String.eqb_spec (bus0 a) (bus0 b)) as [G1|G1], (String.eqb_spec (bus1 a) (bus1 b)) as [G2|G2],
      (String.eqb_spec (bus0 a) (bus1 b)) as [G3|G3], (String.eqb_spec (bus1 a) (bus0 b)) as [G4|G4]; try congruence; cbn [andb]; try exact N;
    apply R; rewrite Fa, Fb; split; intros H; lra.
Qed.

(* one of two parallel lines entered the other way round *)
Definition only_r : choice := fun c i => String.eqb c "Line" && String.eqb i "r".
Definition turned_x : sol := fun v => match v with (s, _, i) => if String.eqb s "Line-s" && String.eqb i "r" then -(1) else if String.eqb s "Generator-p" && String.eqb i "g" then 2 else 1 end.
Example C91_ex : kvl_follows only_r ring (filter passive (assets mesh_net)) /\ (forall a, In a (assets mesh_net) -> In (cls a) classes) /\
  map (fun a => (nm a, bus0 a, bus1 a)) (assets (turned only_r mesh_net)) = [("g", "a", "a"); ("h", "b", "b"); ("l", "a", "b"); ("r", "b", "a")] /\
  against only_r turned_x ("Line-s", O, "r") = 1 /\ against only_r turned_x ("Line-s", O, "l") = 1 /\ cost (turned only_r mesh_net) turned_x = Some 4 /\
  create_model ring (turned only_r mesh_net) <> create_model ring mesh_net.
Proof. split; [apply ring_follows; intros a I; now apply filter_In in I|]. split; [apply mesh_case|]. repeat split; vm_compute; congruence. Qed.
Example C91_ex_optimal : optimal ring (turned only_r mesh_net) turned_x /\ ~ feasible ring mesh_net turned_x.
Proof.
  split.
  - apply C91_optimal; [apply ring_follows; intros a I; now apply filter_In in I|apply mesh_case|].
    destruct mesh_case as (_ & _ & (F & q & E & H) & _).
    assert (M : create_model ring mesh_net = create_model loop mesh_net) by (vm_compute; reflexivity).
    assert (FF : forall y, feasible ring mesh_net y <-> feasible loop mesh_net y) by (intros y; unfold feasible; now rewrite M).
    assert (X : forall v, mesh_x v == against only_r turned_x v).
    { intros [[s t] i]. unfold against, only_r, turned_x, mesh_x. destruct (String.eqb_spec s "Line-s") as [->|N].
      - change (String.eqb "Line-s" "Generator-p") with false. change (String.eqb "Line" "Line") with true. change (String.eqb "Transformer" "Line") with false. change (String.eqb "Line-s" "Transformer-s") with false.
        cbn [andb orb]. destruct (String.eqb i "r"); cbn [orb]; reflexivity.
      - change (String.eqb "Transformer" "Line") with false. cbn [andb orb]. rewrite andb_false_r. reflexivity. }
    split; [apply FF, (feasible_ext loop mesh_net mesh_x); assumption|]. exists 4. split; [vm_compute; reflexivity|].
    intros y q' Fy Ey. assert (Q4 : q = 4) by (vm_compute in E; congruence). rewrite <- Q4. apply (H y); [now apply FF|exact Ey].
  - intros (cs & E & S' & _). vm_compute in E. injection E as <-.
    pose proof (IdleProofs.row_holds _ _ {| lhs := [(1, Some ("Line-s", O, "l")); (-1, Some ("Line-s", O, "r"))]; sns := Eq; rhs := 0 |} S' ltac:(cbn; tauto)) as H.
    vm_compute in H. discriminate H.
Qed.

(* a generator at a, the load at b, and a link from a to b or from b to a *)
Definition link_net (b0 b1 : string) : net := two_buses
  [at_ (IdleProofs.blank "Generator" "g" "a" true false) "a" "a" 5 1; at_ (IdleProofs.blank "Link" "k" "a" true false) b0 b1 5 0] 3.
(* C91: links have a direction: entered the other way round they do not carry what they carried *)
Theorem C91_links_refuted :
  (exists x, feasible (fun _ => []) (link_net "a" "b") x) /\ (forall x, ~ feasible (fun _ => []) (link_net "b" "a") x).
Proof.
  split.
  - exists (fun _ => 3). eexists. split; [vm_compute; reflexivity|]. split; [apply LinProofs.satb_iff; vm_compute; reflexivity|].
    split; [|split; [|split; [|split]]]; cbn [link_net two_buses assets In]; intros a.
    + intros I E. repeat (destruct I as [<-|I]; [discriminate E|]). destruct I.
    + intros I E. repeat (destruct I as [<-|I]; [discriminate E|]). destruct I.
    + intros I E. repeat (destruct I as [<-|I]; [discriminate E|]). destruct I.
    + intros t _ _ E. discriminate E.
    + vm_compute in a. discriminate a.
  - intros x (cs & E & S' & _). vm_compute in E. injection E as <-.
    pose proof (IdleProofs.row_holds x _ {| lhs := [(-1, Some ("Link-p", O, "k"))]; sns := Eq; rhs := 3 |} S' ltac:(cbn; tauto)) as H1.
    pose proof (IdleProofs.row_holds x _ {| lhs := [(1, Some ("Link-p", O, "k"))]; sns := Ge; rhs := 0 |} S' ltac:(cbn; tauto)) as H2.
    unfold holds in *. cbn [sns lhs rhs eval val] in *. lra.
Qed.
Print Assumptions C91_links_refuted.
