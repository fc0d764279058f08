From Coq Require Import List String Ascii Bool QArith Arith.
From Verif Require Import AssignModel DualsModel DualsSpec DualsProofs.
Import ListNotations.
Open Scope string_scope.
Open Scope list_scope.
Open Scope Q_scope.

(* marginal_price is the dual of the bus's nodal balance divided by the weighting of the snapshot, whatever was there before *)
Theorem C60_price : forall n w r st b t l1 a l2 attr q,
  r_ok r = true -> r_has r = true -> r_arrays r = l1 ++ a :: l2 -> known n "Bus" = true ->
  named a "Bus" attr -> ends attr "nodal_balance" -> a_snap a = true -> dual a b t q -> r_sns r t = true -> ~ w t == 0 ->
  (forall a' attr', In a' l2 -> named a' "Bus" attr' -> ends attr' "nodal_balance" -> a_snap a' = true -> ~ covers a' b) ->
  reported (dyn (optimise n w r st) "Bus" "marginal_price") b t (q / w t).
Proof. exact price_ok. Qed.
Print Assumptions C60_price.

(* optimisations of other snapshots, failed ones included, leave all prices reported so far alone *)
Theorem C60_rolling : forall n w rs st c x comp t q, (forall r, In r rs -> r_sns r t = false) ->
  reported (dyn st c x) comp t q -> reported (dyn (fold_left (fun s r => optimise n w r s) rs st) c x) comp t q.
Proof. exact rolling_kept. Qed.
Print Assumptions C60_rolling.

(* with assign_all_duals the dual of <class>-...-<spec> goes to mu_<spec>, unless a later array of that class and spec has the component too *)
Theorem C60_mu : forall n w r st c comp t l1 a l2 attr spec q,
  r_ok r = true -> r_has r = true -> r_all r = true -> r_arrays r = l1 ++ a :: l2 -> known n c = true -> dashless c ->
  named a c attr -> ~ ends attr "nodal_balance" -> last_part attr spec -> a_snap a = true -> dual a comp t q -> r_sns r t = true ->
  (forall a' attr', In a' l2 -> named a' c attr' -> last_part attr' spec -> a_snap a' = true -> ~ covers a' comp) ->
  reported (dyn (optimise n w r st) c ("mu_" ++ spec)) comp t q.
Proof. exact mu_ok. Qed.
Print Assumptions C60_mu.

Theorem C60_global : forall n w r st g l1 a l2, r_ok r = true -> r_has r = true -> r_arrays r = l1 ++ a :: l2 ->
  named a "GlobalConstraint" g -> a_snap a = false -> (r_all r = true \/ globals n g = true) ->
  (forall a', In a' l2 -> named a' "GlobalConstraint" g -> a_snap a' = true) ->
  gmu (optimise n w r st) g = Some (a_scalar a).
Proof. exact global_ok. Qed.
Print Assumptions C60_global.

(* without assign_all_duals no attribute mu_... is ever written: all of them are of type series, and only names of static columns are looked up *)
Theorem C60_default_nothing : forall n w r st c x, r_all r = false -> (forall a ty, In (a, ty) (attrs n c) -> (exists s, a = ("mu_" ++ s)%string) -> ty = "series") ->
  dyn (optimise n w r st) c ("mu_" ++ x) = dyn st c ("mu_" ++ x).
Proof. exact default_none. Qed.
Print Assumptions C60_default_nothing.
(* so the designated place of a line's shadow price stays empty *)
Theorem C60_default_refuted : exists n w r st a, In a (r_arrays r) /\ r_ok r = true /\ r_has r = true /\ known n "Line" = true /\ In ("mu_upper", "series") (attrs n "Line") /\
  named a "Line" "fix-s-upper" /\ dual a "l" 0 (-(5)) /\ forall q, ~ reported (dyn (optimise n w r st) "Line" "mu_upper") "l" 0 q.
Proof. exact default_line. Qed.
Print Assumptions C60_default_refuted.

(* the limits on dispatch, charging and state of charge of a storage unit share mu_upper; the last one stays *)
Theorem C60_storage_unit_refuted : exists n w r st a, In a (r_arrays r) /\ r_ok r = true /\ r_all r = true /\ r_has r = true /\
  named a "StorageUnit" "fix-p_dispatch-upper" /\ dual a "s" 0 (-(7)) /\ reported (dyn (optimise n w r st) "StorageUnit" "mu_upper") "s" 0 (-(2)).
Proof. exact unit_overwritten. Qed.
Print Assumptions C60_storage_unit_refuted.

(* a solver without duals: the prices of the previous run are divided a second time *)
Theorem C60_stale_refuted : exists n w r r' st a, r_arrays r = [a] /\ named a "Bus" "nodal_balance" /\ dual a "b" 0 8 /\ w 0%nat == 2 /\ r_has r = true /\ r_has r' = false /\
  reported (dyn (optimise n w r st) "Bus" "marginal_price") "b" 0 4 /\ reported (dyn (optimise n w r' (optimise n w r st)) "Bus" "marginal_price") "b" 0 2.
Proof. exact stale_prices. Qed.
Print Assumptions C60_stale_refuted.

(* a snapshot of weight zero has no finite price *)
Theorem C60_zero_weight_refuted : forall n w r st b t, r_ok r = true -> r_sns r t = true -> w t == 0 ->
  forall q, ~ reported (dyn (optimise n w r st) "Bus" "marginal_price") b t q.
Proof. exact zero_weight. Qed.
Print Assumptions C60_zero_weight_refuted.

(* weakly and strongly meshed buses in two arrays, a limit on emissions, snapshots of weight 2 *)
Definition ex_arrays : list carray :=
  [arr "Generator-fix-p-upper" "g" (-(3)); arr "Bus-nodal_balance" "b" 8; arr "Bus-meshed-nodal_balance" "hub" 6; arr "Kirchhoff-Voltage-Law" "0" 1;
   {| a_name := "GlobalConstraint-co2"; a_snap := false; a_cols := None; a_scalar := -(40) |}].
Definition ex_state : state := optimise pypsa_net (fun _ => 2) (run_of true true ex_arrays) empty_state.
Example C60_ex : reported (dyn ex_state "Bus" "marginal_price") "b" 0 4 /\ reported (dyn ex_state "Bus" "marginal_price") "hub" 0 3 /\
  reported (dyn ex_state "Generator" "mu_upper") "g" 0 (-(3)) /\ gmu ex_state "co2" = Some (-(40)).
Proof. repeat split; eexists _, _; (split; [reflexivity|]); split; reflexivity. Qed.
Example C60_ex_hyps : exists l1 a l2, ex_arrays = l1 ++ a :: l2 /\ named a "Bus" "nodal_balance" /\ ends "nodal_balance" "nodal_balance" /\ dual a "b" 0 8 /\
  forall a' attr', In a' l2 -> named a' "Bus" attr' -> ends attr' "nodal_balance" -> a_snap a' = true -> ~ covers a' "b".
Proof.
  exists [arr "Generator-fix-p-upper" "g" (-(3))], (arr "Bus-nodal_balance" "b" 8), (tl (tl ex_arrays)). split; [reflexivity|]. split; [reflexivity|]. split; [exists ""; reflexivity|].
  split; [exists (col "b" 8), (fun _ => Some 8); repeat split; reflexivity|].
  intros a' attr' I N _ _ (f & s & C & F). destruct I as [<-|[<-|[<-|[]]]]; cbn in N; try discriminate N. injection C as <-. discriminate F.
Qed.
Example C60_default_ex : forall c a ty, In (a, ty) (attrs pypsa_net c) -> ty = "series".
Proof. intros c a ty I. unfold pypsa_net, attrs, mu_attrs in I. apply in_map_iff in I. destruct I as (a' & E & _). injection E as _ <-. reflexivity. Qed.
