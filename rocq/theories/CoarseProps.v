From Coq Require Import List String Bool QArith Arith.
From Verif Require Import LinModel CoarseModel CoarseSpec CoarseProofs.
Import ListNotations.
Open Scope string_scope.
Open Scope list_scope.
Open Scope Q_scope.

(* C76: clustering relaxes the dispatch problem. Whatever operation of the network satisfies all constraints has a
   counterpart in the clustered one: equal production per cluster and carrier, equal flows between clusters, equal costs of
   generators where those that become one cost the same, and costs of links no higher *)
Theorem C76_relaxes : forall busmap T gens loads gcols lcols n n', wired n -> (forall b, In b (s_buses n) -> busmap b <> None) -> In "sign" gcols -> In "sign" lcols ->
  get_clustering_from_busmap busmap T gens loads gcols lcols n = Some n' ->
  (forall d, In d (s_gens n) -> 0 <= d_static d "p_nom") -> (forall w, In w (s_lines n) -> 0 <= w_static w "s_nom") ->
  (forall w t, In w (s_links n) -> inside busmap w -> (t < T)%nat -> w_at w "efficiency" t == 1) ->
  (gens <> None -> forall d d', In d (s_gens n) -> In d' (s_gens n) -> together busmap d d' -> d_series d "p_set" = None -> d_series d' "p_set" = None) ->
  NoDup (map d_name (s_gens n')) ->
  forall thr thr' cs cs' x, problem T thr n = Some cs -> problem T thr' n' = Some cs' -> sat x cs ->
  exists x', sat x' cs' /\ (forall t c k, production Some x' t c k n' == production busmap x t c k n) /\ (forall t a b, a <> b -> transfer Some x' t a b n' == transfer busmap x t a b n) /\
   (forall t w, link_x x' t w = link_x x t w) /\
   (forall t, (t < T)%nat -> (gens <> None -> forall d d', In d (s_gens n) -> In d' (s_gens n) -> together busmap d d' -> d_at d "marginal_cost" t == d_at d' "marginal_cost" t) -> gen_cost x' t n' == gen_cost x t n) /\
   (forall t, (forall w, In w (s_links n) -> inside busmap w -> 0 <= w_at w "marginal_cost" t * link_x x t w) -> link_cost x' t n' <= link_cost x t n).
Proof. exact main. Qed.
Print Assumptions C76_relaxes.

(* C76: a lower bound on the costs of the clustered network, such as its optimum, is one on the costs of the network *)
Theorem C76_bound : forall busmap T gens loads gcols lcols n n', wired n -> (forall b, In b (s_buses n) -> busmap b <> None) -> In "sign" gcols -> In "sign" lcols ->
  get_clustering_from_busmap busmap T gens loads gcols lcols n = Some n' ->
  (forall d, In d (s_gens n) -> 0 <= d_static d "p_nom") -> (forall w, In w (s_lines n) -> 0 <= w_static w "s_nom") ->
  (forall w t, In w (s_links n) -> inside busmap w -> (t < T)%nat -> w_at w "efficiency" t == 1) ->
  (gens <> None -> forall d d', In d (s_gens n) -> In d' (s_gens n) -> together busmap d d' -> d_series d "p_set" = None -> d_series d' "p_set" = None) ->
  NoDup (map d_name (s_gens n')) ->
  forall thr thr' cs cs' wt v x, problem T thr n = Some cs -> problem T thr' n' = Some cs' ->
  (forall t, (t < T)%nat -> 0 <= wt t) ->
  (gens <> None -> forall t d d', (t < T)%nat -> In d (s_gens n) -> In d' (s_gens n) -> together busmap d d' -> d_at d "marginal_cost" t == d_at d' "marginal_cost" t) ->
  (forall t w, (t < T)%nat -> In w (s_links n) -> inside busmap w -> 0 <= w_at w "p_min_pu" t * w_static w "p_nom" /\ 0 <= w_at w "marginal_cost" t) ->
  (forall x', sat x' cs' -> v <= cost wt T x' n') -> sat x cs -> v <= cost wt T x n.
Proof. exact bound. Qed.
Print Assumptions C76_bound.

(* C76: the problem of the clustered network can be written down if that of the network has a solution *)
Theorem C76_built : forall busmap T gens loads gcols lcols n n', wired n -> (forall b, In b (s_buses n) -> busmap b <> None) -> In "sign" gcols -> In "sign" lcols ->
  get_clustering_from_busmap busmap T gens loads gcols lcols n = Some n' ->
  (forall w t, In w (s_links n) -> inside busmap w -> (t < T)%nat -> w_at w "efficiency" t == 1) ->
  NoDup (map d_name (s_gens n')) ->
  forall thr thr' cs x, problem T thr n = Some cs -> sat x cs -> s_gens n <> [] -> (forall b, (count_occ string_dec (bus_columns n') b <= thr')%nat) -> problem T thr' n' <> None.
Proof. exact builds. Qed.
Print Assumptions C76_built.
Example C76_ex : wired ok_net /\ (forall b, In b (s_buses ok_net) -> to_A ["a"; "b"] b <> None) /\
  get_clustering_from_busmap (to_A ["a"; "b"]) 1 (Some (fun _ _ => true)) false ["sign"; "p_nom"] ["sign"] ok_net = Some ok_net' /\
  (exists cs, problem 1 9 ok_net = Some cs /\ sat ok_x cs) /\ (exists cs', problem 1 9 ok_net' = Some cs') /\
  (forall d, In d (s_gens ok_net) -> 0 <= d_static d "p_nom") /\ (forall w, In w (s_lines ok_net) -> 0 <= w_static w "s_nom") /\
  (forall w t, In w (s_links ok_net) -> inside (to_A ["a"; "b"]) w -> (t < 1)%nat -> w_at w "efficiency" t == 1) /\
  (forall d, In d (s_gens ok_net) -> d_series d "p_set" = None) /\ NoDup (map d_name (s_gens ok_net')) /\
  (forall t d d', In d (s_gens ok_net) -> In d' (s_gens ok_net) -> together (to_A ["a"; "b"]) d d' -> d_at d "marginal_cost" t == d_at d' "marginal_cost" t) /\
  (forall w t, In w (s_links ok_net) -> 0 <= w_at w "p_min_pu" t * w_static w "p_nom" /\ 0 <= w_at w "marginal_cost" t) /\
  transfer (to_A ["a"; "b"]) ok_x 0 "A" "c" ok_net == 11 /\ (forall b, (count_occ string_dec (bus_columns ok_net') b <= 9)%nat).
Proof. exact ok_case. Qed.

(* C76: costs may rise where generators of unlike costs become one *)
Theorem C76_cost_refuted : get_clustering_from_busmap (to_A ["a"; "b"]) 1 (Some (fun _ _ => true)) false ["sign"; "p_nom"] ["sign"] dear = Some dear' /\
  (exists cs, problem 1 9 dear = Some cs /\ exists x, sat x cs /\ cost (fun _ => 1) 1 x dear == 10) /\
  exists cs', problem 1 9 dear' = Some cs' /\ forall x', sat x' cs' -> cost (fun _ => 1) 1 x' dear' == 50.
Proof. exact dear_case. Qed.
Print Assumptions C76_cost_refuted.
(* C76: with the voltage law of passive branches it is no relaxation *)
Theorem C76_voltage_refuted : get_clustering_from_busmap (to_A ["a"; "d"]) 1 (Some (fun _ _ => true)) false ["sign"; "p_nom"] ["sign"] path = Some path' /\
  (exists cs, problem 1 9 path = Some cs /\ exists x, sat x cs /\ explained x 0 path) /\
  exists cs', problem 1 9 path' = Some cs' /\ (exists x', sat x' cs') /\ forall x', sat x' cs' -> ~ explained x' 0 path'.
Proof. exact path_case. Qed.
Print Assumptions C76_voltage_refuted.
(* C76: nor if one generator of a group has a schedule *)
Theorem C76_schedule_refuted : get_clustering_from_busmap (to_A ["a"; "b"]) 1 (Some (fun _ _ => true)) false ["sign"; "p_nom"] ["sign"] plan = Some plan' /\
  (exists cs, problem 1 9 plan = Some cs /\ exists x, sat x cs) /\
  exists cs', problem 1 9 plan' = Some cs' /\ forall x', ~ sat x' cs'.
Proof. exact plan_case. Qed.
Print Assumptions C76_schedule_refuted.
(* C76: nor if a lossy link is inside a cluster *)
Theorem C76_loss_refuted : get_clustering_from_busmap (to_A ["a"; "b"]) 1 (Some (fun _ _ => true)) false ["sign"; "p_nom"] ["sign"] lossy = Some lossy' /\
  (exists cs, problem 1 9 lossy = Some cs /\ exists x, sat x cs) /\
  exists cs', problem 1 9 lossy' = Some cs' /\ forall x', ~ sat x' cs'.
Proof. exact lossy_case. Qed.
Print Assumptions C76_loss_refuted.
