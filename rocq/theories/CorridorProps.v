From Coq Require Import List Bool QArith Qabs Arith Lia Lqa.
From Verif Require Import CorridorModel CorridorSpec CorridorProofs.
Import ListNotations.
Open Scope list_scope.
Open Scope nat_scope.

(* C94: without parallel branches nothing happens *)
Theorem C94_quiet : forall nodes g n, ~ parallel g -> aggregate_multi_graph nodes g n = Done n.
Proof. exact quiet. Qed.
Print Assumptions C94_quiet.

(* C94 refuted: with parallel branches the call always ends in an exception *)
Theorem C94_raises : forall nodes g n, ends_in nodes g -> parallel g -> exists e n', aggregate_multi_graph nodes g n = Raise e n'.
Proof. exact raises. Qed.
Print Assumptions C94_raises.

(* C94 refuted: if all branches are known lines, all but one between two buses are gone by then and nothing else has changed: the one that stays carries none of the new values *)
Theorem C94_loses : forall nodes g n, ends_in nodes g -> parallel g -> NoDup (map ename g) -> (forall e, In e g -> find_line n (ename e) <> None) ->
  exists e0 rest, In e0 g /\ rest <> [] /\ (forall e, In e (e0 :: rest) <-> In e g /\ same_ends e0 e) /\ ~ In (ename e0) (map ename rest) /\
  aggregate_multi_graph nodes g n = Raise AttributeError (filter (fun l => negb (existsb (Nat.eqb (lname l)) (map ename rest))) n).
Proof. exact loses. Qed.
Print Assumptions C94_loses.

Open Scope Q_scope.
(* C94: the new reactance carries the flow of all at any angle difference *)
Theorem C94_flow : forall ls x xa d, vals Ax x ls -> (forall l, In l ls -> ~ x l == 0) -> In (Ax, Fin xa) (aggregated ls) -> flow d xa == sumq (fun l => flow d (x l)) ls.
Proof. exact flows. Qed.
Print Assumptions C94_flow.

(* C94: the new series admittance is the sum, if all branches have the same ratio of resistance and reactance *)
Theorem C94_admittance : forall ls x r k, ls <> [] -> vals Ax x ls -> vals Ar r ls -> (forall l, In l ls -> 0 < x l) -> (forall l, In l ls -> r l == k * x l) ->
  exists xa ra, In (Ax, Fin xa) (aggregated ls) /\ In (Ar, Fin ra) (aggregated ls) /\
  conductance ra xa == sumq (fun l => conductance (r l) (x l)) ls /\ susceptance ra xa == sumq (fun l => susceptance (r l) (x l)) ls.
Proof. exact admittances. Qed.
Print Assumptions C94_admittance.

(* C94: the new limit admits the same, if all branches reach theirs at the same angle difference *)
Theorem C94_limit : forall ls x s c xa sa, ls <> [] -> vals Ax x ls -> vals As_nom s ls -> (forall l, In l ls -> 0 < x l) -> (forall l, In l ls -> s l * x l == c) ->
  In (Ax, Fin xa) (aggregated ls) -> In (As_nom, Fin sa) (aggregated ls) -> forall d, within (flow d xa) sa <-> (forall l, In l ls -> within (flow d (x l)) (s l)).
Proof. exact limits. Qed.
Print Assumptions C94_limit.

(* C94: what the branches admit, the new one admits *)
Theorem C94_relaxed : forall ls x s xa sa d, vals Ax x ls -> vals As_nom s ls -> (forall l, In l ls -> ~ x l == 0) -> In (Ax, Fin xa) (aggregated ls) -> In (As_nom, Fin sa) (aggregated ls) ->
  (forall l, In l ls -> within (flow d (x l)) (s l)) -> within (flow d xa) sa.
Proof. exact relaxed. Qed.
Print Assumptions C94_relaxed.

(* C94: what the branches cost, the new one costs, if all have the same costs *)
Theorem C94_cost : forall ls c s k ca sa, ls <> [] -> vals Acapital_cost c ls -> vals As_nom s ls -> (forall l, In l ls -> c l == k) ->
  In (Acapital_cost, Fin ca) (aggregated ls) -> In (As_nom, Fin sa) (aggregated ls) -> ca * sa == sumq (fun l => c l * s l) ls.
Proof. exact costs. Qed.
Print Assumptions C94_cost.

(* name, x, r, s_nom, costs *)
Definition mk (nm : nat) (x r s c : Q) : line :=
  {| lname := nm; lval := fun a => match a with Ax => Fin x | Ar => Fin r | As_nom => Fin s | As_nom_max => Inf | Acapital_cost => Fin c | Alength => Fin 10 | Aterrain_factor => Fin 1 | _ => Fin 0 end |}.
Definition xof (l : line) : Q := match lval l Ax with Fin q => q | Inf => 0 end.
Definition rof (l : line) : Q := match lval l Ar with Fin q => q | Inf => 0 end.
Definition sof (l : line) : Q := match lval l As_nom with Fin q => q | Inf => 0 end.
Definition cof (l : line) : Q := match lval l Acapital_cost with Fin q => q | Inf => 0 end.
Definition uneven : list line := [mk 1 1 2 1 5; mk 2 2 1 1 9].

(* C94 refuted: with different ratios the conductance is another *)
Theorem C94_admittance_refuted : exists ls xa ra, vals Ax xof ls /\ vals Ar rof ls /\ (forall l, In l ls -> 0 < xof l /\ 0 < rof l) /\
  In (Ax, Fin xa) (aggregated ls) /\ In (Ar, Fin ra) (aggregated ls) /\ ~ conductance ra xa == sumq (fun l => conductance (rof l) (xof l)) ls.
Proof.
  exists uneven, (Qinv (1 + ((1 # 2) + 0))), (Qinv ((1 # 2) + (1 + 0))).
  split; [intros l [<-|[<-|[]]]; reflexivity|]. split; [intros l [<-|[<-|[]]]; reflexivity|]. split; [intros l [<-|[<-|[]]]; split; reflexivity|].
  split; [left; reflexivity|]. split; [right; left; reflexivity|]. vm_compute. discriminate.
Qed.
Print Assumptions C94_admittance_refuted.

(* C94 refuted: the new limit admits a flow that overloads one of the branches *)
Theorem C94_limit_refuted : exists ls xa sa d, vals Ax xof ls /\ vals As_nom sof ls /\ (forall l, In l ls -> 0 < xof l) /\
  In (Ax, Fin xa) (aggregated ls) /\ In (As_nom, Fin sa) (aggregated ls) /\ within (flow d xa) sa /\ exists l, In l ls /\ ~ within (flow d (xof l)) (sof l).
Proof.
  exists uneven, (Qinv (1 + ((1 # 2) + 0))), 2, (4 # 3).
  split; [intros l [<-|[<-|[]]]; reflexivity|]. split; [intros l [<-|[<-|[]]]; reflexivity|]. split; [intros l [<-|[<-|[]]]; reflexivity|].
  split; [left; reflexivity|]. split; [right; right; left; reflexivity|]. split; [vm_compute; discriminate|].
  exists (mk 1 1 2 1 5). split; [left; reflexivity|]. intros H. vm_compute in H. apply H. reflexivity.
Qed.
Print Assumptions C94_limit_refuted.

(* C94 refuted: the plain mean of the costs forgets the capacities *)
Theorem C94_cost_refuted : exists ls ca sa, vals Acapital_cost cof ls /\ vals As_nom sof ls /\ In (Acapital_cost, Fin ca) (aggregated ls) /\ In (As_nom, Fin sa) (aggregated ls) /\
  ~ ca * sa == sumq (fun l => cof l * sof l) ls.
Proof.
  exists [mk 1 1 0 1 5; mk 2 1 0 3 9], ((5 + (9 + 0)) / 2), 4.
  split; [intros l [<-|[<-|[]]]; reflexivity|]. split; [intros l [<-|[<-|[]]]; reflexivity|]. split; [right; right; right; right; right; right; right; left; reflexivity|].
  split; [right; right; left; reflexivity|]. vm_compute. discriminate.
Qed.
Print Assumptions C94_cost_refuted.

Open Scope nat_scope.
Definition ln (u v nm : nat) : edge := {| eu := u; ev := v; ecls := CLine; ename := nm |}.
Definition tr (u v nm : nat) : edge := {| eu := u; ev := v; ecls := CTransformer; ename := nm |}.
Definition ex_n : list line := [mk 1 1 0 10 1; mk 2 1 0 10 1; mk 3 1 0 10 1; mk 4 2 0 5 1].
(* lines 2 and 4 between buses 1 and 2, in opposite directions *)
Definition ex_g : list edge := [ln 0 1 1; ln 1 2 2; ln 2 0 3; ln 2 1 4].
Example C94_ex : ends_in [0; 1; 2] ex_g /\ parallel ex_g /\ NoDup (map ename ex_g) /\ (forall e, In e ex_g -> find_line ex_n (ename e) <> None) /\
  edges ex_g [0; 1; 2] = [(0, 1); (0, 2); (1, 2); (1, 2)] /\
  aggregate_multi_graph [0; 1; 2] ex_g ex_n = Raise AttributeError [mk 1 1 0 10 1; mk 2 1 0 10 1; mk 3 1 0 10 1].
Proof.
  split; [intros e [<-|[<-|[<-|[<-|[]]]]]; cbn; auto 6|]. split; [exists [ln 0 1 1], (ln 1 2 2), [ln 2 0 3], (ln 2 1 4), []; split; [reflexivity|right; split; reflexivity]|].
  split; [repeat (constructor; [cbn; intuition discriminate|]); constructor|]. split; [intros e [<-|[<-|[<-|[<-|[]]]]]; cbn; discriminate|]. split; reflexivity.
Qed.
(* parallel transformers: KeyError, unless lines are named like them; then such a line, elsewhere, is removed *)
Example C94_ex_transformers : aggregate_multi_graph [0; 1; 2] [ln 0 1 1; tr 1 2 8; tr 1 2 9] ex_n = Raise KeyError ex_n /\
  aggregate_multi_graph [0; 1; 2; 3; 4] [ln 0 1 1; tr 1 2 2; tr 1 2 3; ln 2 3 2; ln 3 4 3] ex_n = Raise AttributeError [mk 1 1 0 10 1; mk 2 1 0 10 1; mk 4 2 0 5 1].
Proof. split; reflexivity. Qed.
(* hypotheses of the value theorems: two lines with ratio 1/2, limits reached at the same angle, equal costs *)
Open Scope Q_scope.
Definition even : list line := [mk 1 2 1 6 7; mk 2 4 2 3 7].
Example C94_ex_values : vals Ax xof even /\ vals Ar rof even /\ vals As_nom sof even /\ vals Acapital_cost cof even /\ (forall l, In l even -> 0 < xof l /\ rof l == (1 # 2) * xof l /\ sof l * xof l == 12 /\ cof l == 7) /\
  exists xa ra sa ca, In (Ax, Fin xa) (aggregated even) /\ In (Ar, Fin ra) (aggregated even) /\ In (As_nom, Fin sa) (aggregated even) /\ In (Acapital_cost, Fin ca) (aggregated even) /\
  xa == 4 # 3 /\ ra == 2 # 3 /\ sa == 9 /\ ca == 7 /\ flow 12 xa == 9 /\ In (As_nom_max, Inf) (aggregated even).
Proof.
  split; [intros l [<-|[<-|[]]]; reflexivity|]. split; [intros l [<-|[<-|[]]]; reflexivity|]. split; [intros l [<-|[<-|[]]]; reflexivity|]. split; [intros l [<-|[<-|[]]]; reflexivity|].
  split; [intros l [<-|[<-|[]]]; repeat split; reflexivity|].
  exists (Qinv ((1 # 2) + ((1 # 4) + 0))), (Qinv (1 + ((1 # 2) + 0))), (6 + (3 + 0)), ((7 + (7 + 0)) / 2).
  split; [left; reflexivity|]. split; [right; left; reflexivity|]. split; [right; right; left; reflexivity|]. split; [right; right; right; right; right; right; right; left; reflexivity|].
  repeat (split; [reflexivity|]). right; right; right; right; right; left; reflexivity.
Qed.
