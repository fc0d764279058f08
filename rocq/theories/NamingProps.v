From Coq Require Import List String Ascii Bool QArith ZArith Arith.
From Verif Require Import LinModel WholeModel IdleSpec NamingSpec NamingProofs UnitProofs.
From Verif Require CapModel BalanceModel IdleProofs BalanceProofs.
Import ListNotations.
Open Scope string_scope.
Open Scope list_scope.
Open Scope Q_scope.

(* C90: the solutions of the renamed network are those of the network under the new names *)
Theorem C90_feasible : forall r kvl n x, proper r -> kvl_nameless r kvl -> (forall a, In a (assets n) -> In (cls a) classes) ->
  (feasible kvl (renamed r n) x <-> feasible kvl n (old_names r x)).
Proof. exact (fun r kvl n x P K C => feasible_ren r P n kvl K C x). Qed.
Print Assumptions C90_feasible.

(* C90: at the same costs *)
Theorem C90_cost : forall r n x, cost (renamed r n) x = cost n (old_names r x).
Proof. exact (fun r n x => cost_ren r n x). Qed.
Print Assumptions C90_cost.

(* C90: the cheapest solutions are the same *)
Theorem C90_optimal : forall r kvl n x, proper r -> kvl_nameless r kvl -> (forall a, In a (assets n) -> In (cls a) classes) ->
  (optimal kvl (renamed r n) x <-> optimal kvl n (old_names r x)).
Proof. exact (fun r kvl n x P K C => optimal_ren r P n kvl K C x). Qed.
Print Assumptions C90_optimal.

(* C90: every solution has a counterpart under the new names *)
Theorem C90_onto : forall r y, proper r -> exists x, forall v, old_names r x v = y v.
Proof. exact (fun r y P => ex_intro _ (new_names r y) (old_new r P y)). Qed.
Print Assumptions C90_onto.

(* C90: no names make create_model fail *)
Theorem C90_defined : forall r kvl n, proper r -> kvl_nameless r kvl -> (create_model kvl (renamed r n) = None <-> create_model kvl n = None).
Proof. exact (fun r kvl n P K => defined_ren r P n kvl K). Qed.
Print Assumptions C90_defined.

(* names exchanged for others *)
Definition swap (a b s : string) : string := if String.eqb s a then b else if String.eqb s b then a else s.
Lemma swap_swap a b s : swap a b (swap a b s) = s.
Proof.
  unfold swap. destruct (String.eqb_spec s a) as [->|N].
  - destruct (String.eqb_spec b a) as [->|_]; [reflexivity|]. now rewrite String.eqb_refl.
  - destruct (String.eqb_spec s b) as [->|M]; [now rewrite String.eqb_refl|]. apply String.eqb_neq in N, M. now rewrite N, M.
Qed.
Definition exchange (f : string -> string -> string) (g : string -> string) : naming := {| to := f; from := f; bto := g; bfrom := g |}.
Definition fancy : naming :=
  exchange (fun c => if String.eqb c "Line" then swap "l" "a-b 380 kV" else swap "g" "h") (swap "a" "north").
Lemma fancy_proper : proper fancy.
Proof.
  unfold fancy, exchange. repeat split; intros; cbn [to from bto bfrom]; try (destruct (String.eqb c "Line")); apply swap_swap.
Qed.
(* two branches in parallel: a row over their flows, under whatever names *)
Definition ring (l : list asset) : list con :=
  match l with
  | [a; b] => [{| lhs := [(1, Some ((cls a ++ "-" ++ "s")%string, O, nm a)); (-(1), Some ((cls b ++ "-" ++ "s")%string, O, nm b))]; sns := Eq; rhs := 0 |}]
  | _ => []
  end.
Lemma ring_nameless r : kvl_nameless r ring.
Proof.
  intros l x Hp. destruct l as [|a [|b [|d l]]]; try (apply (sat_rl r x [])).
  assert (C : forall a, passive a = true -> class_of (cls a) = None).
  { intros a' H. unfold passive in H. apply orb_true_iff in H. destruct H as [H|H]; apply String.eqb_eq in H; rewrite H; reflexivity. }
  assert (E : ring (map (ren r) [a; b]) = map (rcon r) (ring [a; b])).
  { unfold ring, rcon. cbn [map lhs sns rhs rlin fst snd rl option_map ren cls nm].
    rewrite !v2_class by (apply C, Hp; cbn; auto). reflexivity. }
  rewrite E. apply sat_rl.
Qed.
Definition fancy_x : sol := fun v => match v with (s, _, i) => if String.eqb s "Generator-p" && String.eqb i "h" then 2 else 1 end.
(* generators that exchange their names, a line with dashes and spaces in its name, a bus renamed *)
Example C90_ex : proper fancy /\ kvl_nameless fancy ring /\ (forall a, In a (assets mesh_net) -> In (cls a) classes) /\
  map nm (assets (renamed fancy mesh_net)) = ["h"; "g"; "a-b 380 kV"; "r"] /\ buses (renamed fancy mesh_net) = ["north"; "b"] /\
  old_names fancy fancy_x ("Generator-p", O, "g") = 2 /\ cost (renamed fancy mesh_net) fancy_x = Some 4.
Proof.
  split; [exact fancy_proper|]. split; [apply ring_nameless|]. split; [apply mesh_case|]. repeat split; vm_compute; reflexivity.
Qed.
Example C90_ex_optimal : optimal ring (renamed fancy mesh_net) fancy_x.
Proof.
  apply C90_optimal; [exact fancy_proper|apply ring_nameless|apply mesh_case|].
  destruct mesh_case as (_ & _ & (F & q & E & H) & _).
  assert (M : create_model ring mesh_net = create_model loop mesh_net) by (vm_compute; reflexivity).
  assert (FF : forall y, feasible ring mesh_net y <-> feasible loop mesh_net y) by (intros y; unfold feasible; now rewrite M).
  assert (X : forall v, mesh_x v == old_names fancy fancy_x v).
  { intros [[s t] i]. destruct (String.eqb_spec s "Generator-p") as [->|N].
    - change (old_names fancy fancy_x ("Generator-p", t, i)) with (if String.eqb (swap "g" "h" i) "h" then 2 else 1).
      change (mesh_x ("Generator-p", t, i)) with (if String.eqb i "g" then 2 else 1). unfold swap.
      destruct (String.eqb_spec i "g") as [->|Ng]; [reflexivity|]. destruct (String.eqb i "h") eqn:Nh; [reflexivity|]. now rewrite Nh.
    - apply String.eqb_neq in N. unfold old_names, var_to, mesh_x, fancy_x. rewrite N. destruct (class_of s); rewrite ?N; reflexivity. }
  split; [apply FF, (feasible_ext loop mesh_net mesh_x); assumption|]. exists 4. split; [vm_compute; reflexivity|].
  intros y q' Fy Ey. assert (Q4 : q = 4) by (vm_compute in E; congruence). rewrite <- Q4. apply (H y); [now apply FF|exact Ey].
Qed.

(* a link from a to b with a further port at z, where the load is *)
Definition ported (a : asset) (p : list (string * (nat -> Q))) : asset :=
  {| cls := cls a; nm := nm a; bus0 := bus0 a; bus1 := bus1 a; sgn := sgn a; ports := p; carrier := carrier a; flag := flag a; ext := ext a; committable := committable a;
     nom := nom a; nom_min := nom_min a; nom_max := nom_max a; nom_set := nom_set a; nom_mod := nom_mod a; min_pu := min_pu a; max_pu := max_pu a; max_hours := max_hours a;
     op_set := op_set a; up := up a; down := down a; up_static := up_static a; down_static := down_static a; start_lim := start_lim a; shut_lim := shut_lim a;
     min_up := min_up a; min_down := min_down a; up_before := up_before a; down_before := down_before a; eff := eff a; stand := stand a; init := init a; cyclic := cyclic a;
     eff_dispatch := eff_dispatch a; eff_store := eff_store a; inflow := inflow a; capital := capital a; marginal := marginal a; storage_cost := storage_cost a;
     spill_cost := spill_cost a; quadratic := quadratic a; standby := standby a; start_cost := start_cost a; shut_cost := shut_cost a; len := len a; e_min := e_min a; e_max := e_max a; r_eff := r_eff a |}.
Definition port_net : net :=
  {| assets := [at_ (IdleProofs.blank "Generator" "g" "a" true false) "a" "a" 5 1;
                ported (at_ (IdleProofs.blank "Link" "k" "a" true false) "a" "b" 5 0) [("z", fun _ => 1)]];
     loads := [{| BalanceModel.d_bus := "z"; BalanceModel.d_sign := -(1); BalanceModel.d_p := fun _ => 1; BalanceModel.d_active := true |}];
     buses := ["a"; "b"; "z"]; nsnaps := 1; w_obj := fun _ => 1; w_gen := fun _ => 1; w_sto := fun _ => 1; tangents := 0; linear := false;
     emission := fun _ => []; carriers := ["AC"]; limits := []; columns := [] |}.

(* C90: the empty text is not a name like others: a bus named so cannot be reached by the further ports of links *)
Theorem C90_empty_name_refuted : exists r n,
  (forall c s, from r c (to r c s) = s) /\ (forall c s, to r c (from r c s) = s) /\ (forall b, bfrom r (bto r b) = b) /\ (forall b, bto r (bfrom r b) = b) /\
  kvl_nameless r (fun _ => []) /\ (forall a, In a (assets n) -> In (cls a) classes) /\
  create_model (fun _ => []) n <> None /\ create_model (fun _ => []) (renamed r n) = None.
Proof.
  exists (exchange (fun _ s => s) (swap "z" "")), port_net. split; [reflexivity|]. split; [reflexivity|]. split; [intros b; apply swap_swap|].
  split; [intros b; apply swap_swap|]. split; [|split; [|split]].
  - intros l x _. apply (sat_rl _ x []).
  - intros a I. cbn [port_net assets In] in I. repeat (destruct I as [<-|I]; [cbn; auto 10|]). destruct I.
  - vm_compute. discriminate.
  - vm_compute. reflexivity.
Qed.
Print Assumptions C90_empty_name_refuted.
