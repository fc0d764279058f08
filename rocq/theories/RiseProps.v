From Coq Require Import List String Bool QArith ZArith Arith Lqa Lia.
From Verif Require Import LinModel LinProofs BalanceModel BalanceSpec BalanceProofs PriceSpec PriceProofs RiseProofs.
From Verif Require DispatchModel ObjectiveModel PriceProps.
Import ListNotations.
Open Scope string_scope.
Open Scope list_scope.
Open Scope Q_scope.

(* C96: changes of prices and of demands go the same way on the whole *)
Theorem C96_rises : forall n ls losses T cols thr on ps x x' price price' rest rest' cs cs',
  ObjectiveModel.objective on = Some ps -> convex on -> NoDup (buses n) -> (forall b, In b cols -> b = "" \/ In b (buses n)) ->
  nodal_balance n losses T cols thr = Some cs -> nodal_balance (with_loads n ls) losses T cols thr = Some cs' -> map fst rest = map fst rest' ->
  kkt x ps (nodal_y n losses T cols thr (fun t b => weight on t * price b t) ++ rest) ->
  kkt x' ps (nodal_y (with_loads n ls) losses T cols thr (fun t b => weight on t * price' b t) ++ rest') ->
  0 <= total (fun t => weight on t * total (fun b => (price' b t - price b t) * (demand (with_loads n ls) t b - demand n t b)) (buses n)) (seq 0 T).
Proof. exact rises. Qed.
Print Assumptions C96_rises.

(* C96: more demand at one bus and snapshot does not lower the price there *)
Theorem C96_own : forall n ls losses T cols thr on ps x x' price price' rest rest' cs cs' b0 t0,
  ObjectiveModel.objective on = Some ps -> convex on -> NoDup (buses n) -> (forall b, In b cols -> b = "" \/ In b (buses n)) ->
  nodal_balance n losses T cols thr = Some cs -> nodal_balance (with_loads n ls) losses T cols thr = Some cs' -> map fst rest = map fst rest' ->
  kkt x ps (nodal_y n losses T cols thr (fun t b => weight on t * price b t) ++ rest) ->
  kkt x' ps (nodal_y (with_loads n ls) losses T cols thr (fun t b => weight on t * price' b t) ++ rest') ->
  In b0 (buses n) -> (t0 < T)%nat -> 0 < weight on t0 -> demand n t0 b0 < demand (with_loads n ls) t0 b0 ->
  (forall b t, In b (buses n) -> (t < T)%nat -> b <> b0 \/ t <> t0 -> demand (with_loads n ls) t b == demand n t b) ->
  price b0 t0 <= price' b0 t0.
Proof. exact own_price. Qed.
Print Assumptions C96_own.

(* two generators at a bus: one unit at 5, then at 9; demand of 1/2 and of 2 *)
Definition two (d : Q) : net := {| buses := ["a"]; gens := [{| c_name := "g"; c_bus := "a"; c_sign := 1; c_active := PriceProps.e_on |}; {| c_name := "h"; c_bus := "a"; c_sign := 1; c_active := PriceProps.e_on |}];
  stores := []; units := []; lines := []; trafos := []; links := []; loads := [{| d_bus := "a"; d_sign := -(1); d_p := fun _ => d; d_active := true |}] |}.
Definition two_cost : ObjectiveModel.net := {| ObjectiveModel.assets := [PriceProps.e_asset "Generator" "g" false 0 5; PriceProps.e_asset "Generator" "h" false 0 9]; ObjectiveModel.nsnaps := 1;
  ObjectiveModel.w_snap := fun _ => 2; ObjectiveModel.per := fun _ => 0%Z; ObjectiveModel.multi := None |}.
Definition two_ps : list ObjectiveModel.piece := match ObjectiveModel.objective two_cost with Some ps => ps | None => [] end.
Definition mus (l u : Q) : multipliers := {| m_lower := fun _ => l; m_upper := fun _ => u; m_set := fun _ => 0; m_nom_lower := 0; m_nom_upper := 0; m_nom_set := 0; m_mod := 0 |}.
Definition two_rest (ug lh : Q) : duals := own_y "Generator" 1 (PriceProps.e_limits "g" false 1) (mus 0 ug) ++ own_y "Generator" 1 (PriceProps.e_limits "h" false 5) (mus lh 0).
Definition two_x (g h : Q) : sol := fun v => match v with (_, _, k) => if String.eqb k "g" then g else h end.
Lemma two_kkt d g h p ug lh : In (d, g, h, p, ug, lh) [(1 # 2, 1 # 2, 0, 5, 0, 8); (2, 1, 1, 9, -(8), 0)] ->
  kkt (two_x g h) two_ps (nodal_y (two d) false 1 [] 45 (fun t b => weight two_cost t * p) ++ two_rest ug lh).
Proof.
  intros H. split; [|split; [|split]].
  - intros c J. apply in_map_iff in J as ([c' y] & <- & J). destruct H as [H|[H|[]]]; injection H as <- <- <- <- <- <-; vm_compute in J; repeat (destruct J as [J|J]; [injection J as <- <-; vm_compute; intros; try discriminate; reflexivity|]); destruct J.
  - intros c y J. destruct H as [H|[H|[]]]; injection H as <- <- <- <- <- <-; vm_compute in J; repeat (destruct J as [J|J]; [injection J as <- <-; vm_compute; intros; try discriminate; try exact I; reflexivity|]); destruct J.
  - intros c y J. destruct H as [H|[H|[]]]; injection H as <- <- <- <- <- <-; vm_compute in J; repeat (destruct J as [J|J]; [injection J as <- <-; vm_compute; reflexivity|]); destruct J.
  - intros w. destruct H as [H|[H|[]]]; injection H as <- <- <- <- <- <-; cbn; ring.
Qed.
Example C96_ex : ObjectiveModel.objective two_cost = Some two_ps /\ convex two_cost /\ two 2 = with_loads (two (1 # 2)) (loads (two 2)) /\ map fst (two_rest 0 8) = map fst (two_rest (-(8)) 0) /\
  kkt (two_x (1 # 2) 0) two_ps (nodal_y (two (1 # 2)) false 1 [] 45 (fun t b => weight two_cost t * 5) ++ two_rest 0 8) /\
  kkt (two_x 1 1) two_ps (nodal_y (two 2) false 1 [] 45 (fun t b => weight two_cost t * 9) ++ two_rest (-(8)) 0) /\
  demand (two (1 # 2)) 0 "a" < demand (two 2) 0 "a" /\ weight two_cost 0 == 2 /\ (exists cs, nodal_balance (two (1 # 2)) false 1 [] 45 = Some cs) /\ exists cs, nodal_balance (two 2) false 1 [] 45 = Some cs.
Proof.
  split; [reflexivity|]. split; [split; [intros t _; cbn; lra|intros a t [<-|[<-|[]]] _; cbn; lra]|]. split; [reflexivity|]. split; [reflexivity|].
  split; [apply two_kkt; left; reflexivity|]. split; [apply two_kkt; right; left; reflexivity|]. split; [reflexivity|]. split; [reflexivity|]. split; eexists; reflexivity.
Qed.
