From Coq Require Import List String Bool QArith Arith Lqa Lia.
From Verif Require Import LinModel BalanceModel BalanceSpec BalanceProofs PriceSpec PriceProofs.
From Verif Require ObjectiveModel.
Import ListNotations.
Open Scope string_scope.
Open Scope list_scope.
Open Scope Q_scope.

Lemma with_back n ls : with_loads (with_loads n ls) (loads n) = n.
Proof. destruct n. reflexivity. Qed.
Lemma rises n ls losses T cols thr on ps x x' price price' rest rest' cs cs' :
  ObjectiveModel.objective on = Some ps -> convex on -> NoDup (buses n) -> (forall b, In b cols -> b = "" \/ In b (buses n)) ->
  nodal_balance n losses T cols thr = Some cs -> nodal_balance (with_loads n ls) losses T cols thr = Some cs' -> map fst rest = map fst rest' ->
  kkt x ps (nodal_y n losses T cols thr (fun t b => weight on t * price b t) ++ rest) ->
  kkt x' ps (nodal_y (with_loads n ls) losses T cols thr (fun t b => weight on t * price' b t) ++ rest') ->
  0 <= total (fun t => weight on t * total (fun b => (price' b t - price b t) * (demand (with_loads n ls) t b - demand n t b)) (buses n)) (seq 0 T).
Proof.
  intros O C N B E E' R K K'.
  assert (S : sat x (cs ++ map fst rest)) by (destruct K as (K & _); rewrite map_app, (nodal_fst _ _ _ _ _ _ _ E) in K; exact K).
  assert (S' : sat x' (cs' ++ map fst rest')) by (destruct K' as (K' & _); rewrite map_app, (nodal_fst _ _ _ _ _ _ _ E') in K'; exact K').
  pose proof (load_price n ls losses T cols thr on ps x x' price rest cs cs' O C N B E E' K ltac:(rewrite R; exact S')) as P.
  pose proof (load_price (with_loads n ls) (loads n) losses T cols thr on ps x' x price' rest' cs' cs O C N B E' ltac:(rewrite with_back; exact E) K' ltac:(rewrite <- R; exact S)) as P'.
  rewrite with_back in P'. change (buses (with_loads n ls)) with (buses n) in P'.
  set (A := total (fun t => weight on t * total (fun b => price b t * (demand (with_loads n ls) t b - demand n t b)) (buses n)) (seq 0 T)) in *.
  set (A' := total (fun t => weight on t * total (fun b => price' b t * (demand n t b - demand (with_loads n ls) t b)) (buses n)) (seq 0 T)) in *.
  assert (Z : total (fun t => weight on t * total (fun b => (price' b t - price b t) * (demand (with_loads n ls) t b - demand n t b)) (buses n)) (seq 0 T) == - (A' + A)).
  { unfold A, A'. rewrite <- total_plus. setoid_replace (- total (fun a => weight on a * total (fun b => price' b a * (demand n a b - demand (with_loads n ls) a b)) (buses n) + weight on a * total (fun b => price b a * (demand (with_loads n ls) a b - demand n a b)) (buses n)) (seq 0 T))
      with ((-1) * total (fun a => weight on a * total (fun b => price' b a * (demand n a b - demand (with_loads n ls) a b)) (buses n) + weight on a * total (fun b => price b a * (demand (with_loads n ls) a b - demand n a b)) (buses n)) (seq 0 T)) by ring.
    rewrite <- total_scale. apply total_ext. intros t _. assert (J : total (fun b => (price' b t - price b t) * (demand (with_loads n ls) t b - demand n t b)) (buses n) ==
      (-1) * (total (fun b => price' b t * (demand n t b - demand (with_loads n ls) t b)) (buses n) + total (fun b => price b t * (demand (with_loads n ls) t b - demand n t b)) (buses n))).
    { rewrite <- total_plus, <- total_scale. apply total_ext. intros b _. ring. }
    rewrite J. ring. }
  rewrite Z. lra.
Qed.
Lemma total_one {A} (f : A -> Q) a l : NoDup l -> In a l -> (forall b, In b l -> b <> a -> f b == 0) -> total f l == f a.
Proof.
  induction l as [|c l IH]; intros N I H; [destruct I|]. inversion N; subst. change (total f (c :: l)) with (f c + total f l). destruct I as [->|I].
  - rewrite (total_zero f l); [ring|]. intros b B. apply H; [right; exact B|]. intros ->. contradiction.
  - rewrite (H c (or_introl eq_refl)) by (intros ->; contradiction). rewrite IH; [ring|assumption|exact I|]. intros b B D. apply H; [right; exact B|exact D].
Qed.
Lemma own_price n ls losses T cols thr on ps x x' price price' rest rest' cs cs' b0 t0 :
  ObjectiveModel.objective on = Some ps -> convex on -> NoDup (buses n) -> (forall b, In b cols -> b = "" \/ In b (buses n)) ->
  nodal_balance n losses T cols thr = Some cs -> nodal_balance (with_loads n ls) losses T cols thr = Some cs' -> map fst rest = map fst rest' ->
  kkt x ps (nodal_y n losses T cols thr (fun t b => weight on t * price b t) ++ rest) ->
  kkt x' ps (nodal_y (with_loads n ls) losses T cols thr (fun t b => weight on t * price' b t) ++ rest') ->
  In b0 (buses n) -> (t0 < T)%nat -> 0 < weight on t0 -> demand n t0 b0 < demand (with_loads n ls) t0 b0 ->
  (forall b t, In b (buses n) -> (t < T)%nat -> b <> b0 \/ t <> t0 -> demand (with_loads n ls) t b == demand n t b) ->
  price b0 t0 <= price' b0 t0.
Proof.
  intros O C N B E E' R K K' IB IT W D Same. pose proof (rises n ls losses T cols thr on ps x x' price price' rest rest' cs cs' O C N B E E' R K K') as P.
  rewrite (total_one _ t0 (seq 0 T)) in P; [|apply seq_NoDup|apply in_seq; lia|].
  - rewrite (total_one _ b0 (buses n)) in P; [|exact N|exact IB|].
    + set (u := price' b0 t0 - price b0 t0) in *. set (v := demand (with_loads n ls) t0 b0 - demand n t0 b0) in *. set (w := weight on t0) in *.
      assert (V : 0 < v) by (unfold v; lra). assert (G : 0 <= u). { destruct (Qlt_le_dec u 0) as [L|L]; [|exact L]. exfalso. assert (0 < w * v) by nra. nra. }
      unfold u in G. lra.
    + intros b IB' X. rewrite (Same b t0 IB' IT (or_introl X)). ring.
  - intros t T' X. apply in_seq in T'. rewrite (total_zero _ (buses n)); [ring|]. intros b IB'. rewrite (Same b t IB' ltac:(lia) (or_intror X)). ring.
Qed.
