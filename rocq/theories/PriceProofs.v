From Coq Require Import List String Bool QArith ZArith Arith Lqa Lia Setoid Permutation.
From Verif Require Import LinModel LinProofs BalanceModel BalanceSpec BalanceProofs PriceSpec.
From Verif Require DispatchModel DispatchSpec DispatchProofs ObjectiveModel ObjectiveSpec ObjectiveProofs StorageModel LimitModel.
Import ListNotations.
Open Scope string_scope.
Open Scope list_scope.
Open Scope Q_scope.

Lemma map_fst_add {A} ts (comps : list A) mask f y : map fst (add_duals ts comps mask f y) = add_constraints ts comps mask f.
Proof.
  unfold add_duals, add_constraints. induction ts as [|t ts IH]; [reflexivity|]. cbn [flat_map]. rewrite map_app, IH. clear IH. f_equal.
  induction comps as [|a comps IHc]; [reflexivity|]. cbn [flat_map]. rewrite map_app, IHc. destruct (mask t a); reflexivity.
Qed.
Lemma in_add {A} ts (comps : list A) mask f y t a : In t ts -> In a comps -> mask t a = true -> In (f t a, y t a) (add_duals ts comps mask f y).
Proof.
  intros I J M. unfold add_duals. apply in_flat_map. exists t. split; [exact I|]. apply in_flat_map. exists a. split; [exact J|]. rewrite M. left. reflexivity.
Qed.
Lemma total_add {A} g ts (comps : list A) mask f y :
  total g (add_duals ts comps mask f y) == total (fun t => total (fun a => if mask t a then g (f t a, y t a) else 0) comps) ts.
Proof.
  unfold add_duals. rewrite total_flat. apply total_ext. intros t _. rewrite total_flat. apply total_ext. intros a _. destruct (mask t a); cbn [total fold_right]; ring.
Qed.

Lemma balance_fst n losses bs T lam cs : balance n losses bs T = Some cs -> map fst (balance_y n losses bs T lam) = cs.
Proof. unfold balance, balance_y. rewrite map_fst_add. destruct (no_terms n losses bs || empty_demand n losses bs T); [discriminate|]. intros E. injection E as <-. reflexivity. Qed.
Lemma nodal_fst n losses T cols thr lam cs : nodal_balance n losses T cols thr = Some cs -> map fst (nodal_y n losses T cols thr lam) = cs.
Proof.
  unfold nodal_balance, nodal_y. cbv zeta. destruct (negb (emptyb (meshed cols thr)) && negb (emptyb (difference (buses n) (meshed cols thr)))); [|apply balance_fst].
  destruct (balance n losses (difference (buses n) (meshed cols thr)) T) as [l1|] eqn:E1; [|discriminate].
  destruct (balance n losses (meshed cols thr) T) as [l2|] eqn:E2; [|discriminate]. intros E. injection E as <-.
  rewrite map_app, (balance_fst _ _ _ _ lam _ E1), (balance_fst _ _ _ _ lam _ E2). reflexivity.
Qed.
Lemma own_fst cls T a mu losses : map fst (own_y cls T a mu) = DispatchModel.all_constraints cls "p" "p_nom" DispatchModel.Other losses T [a].
Proof. unfold own_y. rewrite !map_app, !map_fst_add. reflexivity. Qed.

Lemma total_perm {A} (f : A -> Q) l r : Permutation l r -> total f l == total f r.
Proof. induction 1; cbn [total fold_right] in *; [reflexivity| | |etransitivity; eassumption]; unfold total in *; rewrite ?IHPermutation; ring. Qed.

Definition weigh (d : sol) (cy : con * Q) : Q := snd cy * eval d (lhs (fst cy)).
Lemma balance_sum n losses bs T lam d :
  total (weigh d) (balance_y n losses bs T lam) == total (fun t => total (fun b => lam t b * net_power n losses d t b) bs) (seq 0 T).
Proof.
  unfold balance_y. rewrite total_add. apply total_ext. intros t _. apply total_ext. intros b _. unfold weigh. cbn [fst snd lhs].
  destruct (is_empty (balance_lhs n losses b t)) eqn:E; cbn [negb].
  - rewrite <- lhs_net, (empty_zero d _ E). ring.
  - rewrite lhs_net. reflexivity.
Qed.
Lemma existsb_mem (l : list string) b : existsb (String.eqb b) l = true <-> In b l.
Proof. rewrite existsb_exists. split; [intros (c & I & E); apply String.eqb_eq in E; subst c; exact I|]. intros I. exists b. split; [exact I|apply String.eqb_refl]. Qed.
Lemma split_buses n ms (f : string -> Q) : NoDup (buses n) -> NoDup ms -> (forall b, In b ms -> In b (buses n)) ->
  total f (difference (buses n) ms) + total f ms == total f (buses n).
Proof.
  intros N M S.
  assert (P : Permutation ms (filter (fun b => existsb (String.eqb b) ms) (buses n))).
  { apply NoDup_Permutation; [exact M|apply NoDup_filter; exact N|]. intros b. rewrite filter_In, existsb_mem. split; [intros I; split; [apply S|]; exact I|tauto]. }
  rewrite (total_perm f _ _ P). unfold difference. rewrite !total_filter, <- total_plus. apply total_ext. intros b _. destruct (existsb (String.eqb b) ms); cbn [negb]; ring.
Qed.
Lemma nodal_sum n losses T cols thr lam d : NoDup (buses n) -> (forall b, In b (meshed cols thr) -> In b (buses n)) ->
  total (weigh d) (nodal_y n losses T cols thr lam) == total (fun t => total (fun b => lam t b * net_power n losses d t b) (buses n)) (seq 0 T).
Proof.
  intros N S. unfold nodal_y. cbv zeta. destruct (negb (emptyb (meshed cols thr)) && negb (emptyb (difference (buses n) (meshed cols thr)))); [|apply balance_sum].
  rewrite total_app, !balance_sum, <- total_plus. apply total_ext. intros t _. apply split_buses; [exact N| |exact S].
  unfold meshed. apply NoDup_filter, NoDup_nodup.
Qed.

(* the slope is the central difference *)
Definition plus (x d : sol) : sol := fun v => x v + d v.
Definition less (x d : sol) : sol := fun v => x v - d v.
Lemma val_plus x d v : val (plus x d) v == val x v + val d v. Proof. destruct v; cbn [val]; [reflexivity|ring]. Qed.
Lemma val_less x d v : val (less x d) v == val x v - val d v. Proof. destruct v; cbn [val]; [reflexivity|ring]. Qed.
Lemma eval_plus x d l : eval (plus x d) l == eval x l + eval d l.
Proof. induction l as [|[c v] l IH]; [reflexivity|]. cbn [eval]. rewrite IH, val_plus. ring. Qed.
Lemma eval_less x d l : eval (less x d) l == eval x l - eval d l.
Proof. induction l as [|[c v] l IH]; [reflexivity|]. cbn [eval]. rewrite IH, val_less. ring. Qed.
Lemma square_diff x d l : ObjectiveModel.square (plus x d) l - ObjectiveModel.square (less x d) l == 2 * square_slope x d l.
Proof.
  induction l as [|[c v] l IH]; [reflexivity|]. cbn [ObjectiveModel.square square_slope]. rewrite val_plus, val_less.
  assert (E : ObjectiveModel.square (plus x d) l == 2 * square_slope x d l + ObjectiveModel.square (less x d) l) by (rewrite <- IH; ring).
  rewrite E. ring.
Qed.
Lemma slope_diff x d ps : ObjectiveModel.value_of (plus x d) ps - ObjectiveModel.value_of (less x d) ps == 2 * slope x d ps.
Proof.
  induction ps as [|p ps IH]; [reflexivity|]. unfold slope in *. cbn [ObjectiveModel.value_of fold_right total].
  change (fold_right (fun p q => ObjectiveModel.piece_value (plus x d) p + q) 0 ps) with (ObjectiveModel.value_of (plus x d) ps).
  change (fold_right (fun p q => ObjectiveModel.piece_value (less x d) p + q) 0 ps) with (ObjectiveModel.value_of (less x d) ps).
  change (fold_right (fun a s => piece_slope x d a + s) 0 ps) with (total (piece_slope x d) ps).
  assert (E : ObjectiveModel.piece_value (plus x d) p - ObjectiveModel.piece_value (less x d) p == 2 * piece_slope x d p).
  { destruct p; cbn [ObjectiveModel.piece_value piece_slope]; [rewrite eval_plus, eval_less; ring|apply square_diff|ring]. }
  transitivity ((ObjectiveModel.piece_value (plus x d) p - ObjectiveModel.piece_value (less x d) p) + (ObjectiveModel.value_of (plus x d) ps - ObjectiveModel.value_of (less x d) ps)); [ring|].
  rewrite E, IH. ring.
Qed.

(* convex objectives lie above their tangents *)
Definition convex_pieces (ps : list ObjectiveModel.piece) : Prop := forall l c v, In (ObjectiveModel.Square l) ps -> In (c, v) l -> 0 <= c.
Lemma sq_nonneg (q : Q) : 0 <= q * q.
Proof. destruct (Qlt_le_dec q 0) as [H|H]; [setoid_replace (q * q) with ((- q) * (- q)) by ring|]; apply Qmult_le_0_compat; lra. Qed.
Lemma square_above x d l : (forall c v, In (c, v) l -> 0 <= c) -> ObjectiveModel.square x l + square_slope x d l <= ObjectiveModel.square (plus x d) l.
Proof.
  induction l as [|[c v] l IH]; intros H; [cbn; lra|]. cbn [ObjectiveModel.square square_slope]. rewrite val_plus.
  assert (I := IH (fun c' v' J => H c' v' (or_intror J))). assert (C := H c v (or_introl eq_refl)).
  assert (P := Qmult_le_0_compat _ _ C (sq_nonneg (val d v))).
  set (a := val x v) in *. set (b := val d v) in *. clearbody a b. clear IH H.
  assert (E : c * ((a + b) * (a + b)) == c * (a * a) + 2 * c * (a * b) + c * (b * b)) by ring. rewrite E. lra.
Qed.
Lemma value_above x d ps : convex_pieces ps -> ObjectiveModel.value_of x ps + slope x d ps <= ObjectiveModel.value_of (plus x d) ps.
Proof.
  induction ps as [|p ps IH]; intros H; [cbn; lra|]. unfold slope in *. cbn [ObjectiveModel.value_of fold_right total].
  change (fold_right (fun p q => ObjectiveModel.piece_value (plus x d) p + q) 0 ps) with (ObjectiveModel.value_of (plus x d) ps).
  change (fold_right (fun p q => ObjectiveModel.piece_value x p + q) 0 ps) with (ObjectiveModel.value_of x ps).
  change (fold_right (fun a s => piece_slope x d a + s) 0 ps) with (total (piece_slope x d) ps).
  assert (I := IH (fun l c v J => H l c v (or_intror J))).
  assert (E : ObjectiveModel.piece_value x p + piece_slope x d p <= ObjectiveModel.piece_value (plus x d) p).
  { destruct p; cbn [ObjectiveModel.piece_value piece_slope]; [rewrite eval_plus; lra|apply square_above; intros c v J; exact (H l c v (or_introl eq_refl) J)|lra]. }
  lra.
Qed.

Lemma eval_congr x x' l : (forall v, x v == x' v) -> eval x l == eval x' l.
Proof. intros H. induction l as [|[c v] l IH]; [reflexivity|]. cbn [eval]. rewrite IH. destruct v as [v|]; cbn [val]; [rewrite H|]; reflexivity. Qed.
Lemma square_congr x x' l : (forall v, x v == x' v) -> ObjectiveModel.square x l == ObjectiveModel.square x' l.
Proof. intros H. induction l as [|[c v] l IH]; [reflexivity|]. cbn [ObjectiveModel.square]. rewrite IH. destruct v as [v|]; cbn [val]; [rewrite H|]; reflexivity. Qed.
Lemma value_congr x x' ps : (forall v, x v == x' v) -> ObjectiveModel.value_of x ps == ObjectiveModel.value_of x' ps.
Proof.
  intros H. apply total_ext. intros p _. destruct p; cbn [ObjectiveModel.piece_value]; [apply eval_congr|apply square_congr|reflexivity]; exact H.
Qed.

(* changed right-hand sides: x' meets them *)
Lemma total_le {A} (f g : A -> Q) l : (forall a, In a l -> f a <= g a) -> total f l <= total g l.
Proof. induction l as [|a l IH]; intros H; cbn [total fold_right]; [lra|]. assert (I := IH (fun b J => H b (or_intror J))). assert (J := H a (or_introl eq_refl)). unfold total in *. lra. Qed.

Lemma sensitivity x x' ps cy (r : con * Q -> Q) : kkt x ps cy -> convex_pieces ps ->
  (forall c y, In (c, y) cy -> holds x' {| lhs := lhs c; sns := sns c; rhs := r (c, y) |}) ->
  ObjectiveModel.value_of x ps + total (fun e => snd e * (r e - rhs (fst e))) cy <= ObjectiveModel.value_of x' ps.
Proof.
  intros (F & SG & CS & ST) C H'. set (d := less x' x).
  assert (E : ObjectiveModel.value_of (plus x d) ps == ObjectiveModel.value_of x' ps) by (apply value_congr; intros v; unfold plus, d, less; ring).
  rewrite <- E. assert (V := value_above x d ps C). rewrite (ST d) in V.
  assert (L : total (fun e => snd e * (r e - rhs (fst e))) cy <= total (fun e => snd e * eval d (lhs (fst e))) cy).
  { apply total_le. intros [c y] I. cbn [fst snd]. unfold d. rewrite eval_less.
    assert (S := SG c y I). assert (Z := CS c y I). assert (HH := H' c y I). unfold holds in HH. cbn [lhs sns rhs] in HH. unfold signed in S.
    assert (Z' : y * eval x (lhs c) == y * rhs c) by lra.
    setoid_replace (y * (eval x' (lhs c) - eval x (lhs c))) with (y * eval x' (lhs c) - y * eval x (lhs c)) by ring.
    setoid_replace (y * (r (c, y) - rhs c)) with (y * r (c, y) - y * rhs c) by ring. rewrite Z'.
    destruct (sns c).
    - assert (P := Qmult_le_0_compat (- y) (r (c, y) - eval x' (lhs c))). assert (Q1 : 0 <= - y) by lra. assert (Q2 : 0 <= r (c, y) - eval x' (lhs c)) by lra. specialize (P Q1 Q2).
      setoid_replace (- y * (r (c, y) - eval x' (lhs c))) with (y * eval x' (lhs c) - y * r (c, y)) in P by ring. lra.
    - assert (P := Qmult_le_0_compat y (eval x' (lhs c) - r (c, y))). assert (Q2 : 0 <= eval x' (lhs c) - r (c, y)) by lra. specialize (P S Q2).
      setoid_replace (y * (eval x' (lhs c) - r (c, y))) with (y * eval x' (lhs c) - y * r (c, y)) in P by ring. lra.
    - rewrite HH. lra. }
  lra.
Qed.
Lemma kkt_optimal x x' ps cy : kkt x ps cy -> convex_pieces ps -> sat x' (map fst cy) -> ObjectiveModel.value_of x ps <= ObjectiveModel.value_of x' ps.
Proof.
  intros K C S. assert (H := sensitivity x x' ps cy (fun e => rhs (fst e)) K C). cbv beta in H.
  assert (Z : total (fun e : con * Q => snd e * (rhs (fst e) - rhs (fst e))) cy == 0) by (apply total_zero; intros e _; ring).
  rewrite Z in H. assert (ObjectiveModel.value_of x ps + 0 <= ObjectiveModel.value_of x' ps); [|lra]. apply H.
  intros c y I. assert (HH := S c (in_map fst _ _ I)). destruct c. exact HH.
Qed.

(* directions that move the variables of one plant only *)
Section Plant.
Variable k : plant.
Notation vp := (pclass k ++ "-p")%string.
Notation vn := (pclass k ++ "-p_nom")%string.
Definition supported (d : sol) : Prop := forall s t m, m <> pname k \/ (s <> vp /\ s <> vn) -> d (s, t, m) = 0.

Lemma class_cases : (exists c, k = Gen c) \/ (exists l, k = Lnk l). Proof. destruct k; eauto. Qed.
Ltac other := right; split; intros; discriminate.

Lemma value_zero (d : sol) act v nm t : d (v, t, nm) = 0 -> value d act v nm t == 0.
Proof. unfold value. intros ->. destruct (act t); reflexivity. Qed.
Lemma at_bus_zero b b' : at_bus b b' 0 == 0. Proof. unfold at_bus. destruct (String.eqb b b'); reflexivity. Qed.
Lemma at_bus_ext b b' q r : q == r -> at_bus b b' q == at_bus b b' r.
Proof. unfold at_bus. destruct (String.eqb b b'); [auto|reflexivity]. Qed.

Lemma plant_net n losses d t b : located n k -> supported d ->
  net_power n losses d t b ==
  match k with
  | Gen c => at_bus (c_bus c) b (c_sign c * power d k t)
  | Lnk l => total (fun pe => at_bus (fst pe) b (snd pe * power d k t)) (outputs t l) - at_bus (l_bus0 l) b (power d k t)
  end.
Proof.
  intros [_ L] S. unfold net_power, supported in *.
  assert (Zs : total (fun c => at_bus (c_bus c) b (store_p d t c)) (stores n) == 0).
  { apply total_zero. intros c _. rewrite <- (at_bus_zero (c_bus c) b). apply at_bus_ext. unfold store_p. rewrite value_zero; [ring|]. apply S. destruct k; other. }
  assert (Zu : total (fun c => at_bus (c_bus c) b (unit_p d t c)) (units n) == 0).
  { apply total_zero. intros c _. rewrite <- (at_bus_zero (c_bus c) b). apply at_bus_ext. unfold unit_p. rewrite !value_zero; [ring| |]; apply S; destruct k; other. }
  assert (Zl : total (branch_at losses d t "Line-s" "Line-loss" b) (lines n) == 0).
  { apply total_zero. intros c _. unfold branch_at, flow. unfold at_bus.
    assert (E1 : value d (b_active c) "Line-s" (b_name c) t == 0) by (apply value_zero, S; destruct k; other).
    assert (E2 : value d (b_active c) "Line-loss" (b_name c) t == 0) by (apply value_zero, S; destruct k; other).
    destruct (String.eqb (b_bus0 c) b), (String.eqb (b_bus1 c) b), losses; rewrite ?E1, ?E2; ring. }
  assert (Zt : total (branch_at losses d t "Transformer-s" "Transformer-loss" b) (trafos n) == 0).
  { apply total_zero. intros c _. unfold branch_at, flow. unfold at_bus.
    assert (E1 : value d (b_active c) "Transformer-s" (b_name c) t == 0) by (apply value_zero, S; destruct k; other).
    assert (E2 : value d (b_active c) "Transformer-loss" (b_name c) t == 0) by (apply value_zero, S; destruct k; other).
    destruct (String.eqb (b_bus0 c) b), (String.eqb (b_bus1 c) b), losses; rewrite ?E1, ?E2; ring. }
  rewrite Zs, Zu, Zl, Zt.
  assert (Zg : (forall c, In c (gens n) -> d ("Generator-p", t, c_name c) = 0) -> total (fun c => at_bus (c_bus c) b (gen_p d t c)) (gens n) == 0).
  { intros H. apply total_zero. intros c I. rewrite <- (at_bus_zero (c_bus c) b). apply at_bus_ext. unfold gen_p. rewrite value_zero; [ring|]. exact (H c I). }
  assert (Zk : forall ls, (forall l, In l ls -> d ("Link-p", t, l_name l) = 0) ->
    total (fun l => total (fun pe => at_bus (fst pe) b (snd pe * link_p d t l)) (outputs t l) - at_bus (l_bus0 l) b (link_p d t l)) ls == 0).
  { intros ls H. apply total_zero. intros l I. unfold link_p.
    assert (E : value d (l_active l) "Link-p" (l_name l) t == 0) by (apply value_zero; exact (H l I)).
    rewrite (at_bus_ext _ _ _ _ E), at_bus_zero. rewrite total_zero; [ring|]. intros pe _. rewrite <- (at_bus_zero (fst pe) b). apply at_bus_ext. rewrite E. ring. }
  destruct k as [c|l] eqn:K; cbn [pclass pname] in *.
  - rewrite (Zk (links n)); [|intros l _; apply S; right; split; intros; discriminate].
    destruct L as (l1 & l2 & E & N). rewrite E, total_app. cbn [total fold_right].
    change (fold_right (fun a s => at_bus (c_bus a) b (gen_p d t a) + s) 0 l2) with (total (fun a => at_bus (c_bus a) b (gen_p d t a)) l2).
    assert (Z : forall l, (forall c', In c' l -> In c' (l1 ++ l2)) -> total (fun c => at_bus (c_bus c) b (gen_p d t c)) l == 0).
    { intros l H. apply total_zero. intros c' I. rewrite <- (at_bus_zero (c_bus c') b). apply at_bus_ext. unfold gen_p. rewrite value_zero; [ring|]. apply S. left. apply N, H, I. }
    rewrite (Z l1), (Z l2); [|intros c' I; apply in_or_app; auto|intros c' I; apply in_or_app; auto].
    unfold gen_p, power, value. cbn [pactive pclass pname]. change ("Generator" ++ "-p")%string with "Generator-p". ring.
  - rewrite Zg; [|intros c _; apply S; right; split; intros; discriminate].
    destruct L as (l1 & l2 & E & N). rewrite E, total_app. cbn [total fold_right].
    set (F := fun a : link => total (fun pe => at_bus (fst pe) b (snd pe * link_p d t a)) (outputs t a) - at_bus (l_bus0 a) b (link_p d t a)).
    change (0 + 0 + 0 + 0 + 0 + (total F l1 + (F l + total F l2)) == total (fun pe => at_bus (fst pe) b (snd pe * power d (Lnk l) t)) (outputs t l) - at_bus (l_bus0 l) b (power d (Lnk l) t)).
    assert (Z1 : total F l1 == 0) by (apply Zk; intros l' I; apply S; left; apply N, in_or_app; auto).
    assert (Z2 : total F l2 == 0) by (apply Zk; intros l' I; apply S; left; apply N, in_or_app; auto).
    rewrite Z1, Z2. unfold F, link_p, power, value. cbn [pactive pclass pname]. change ("Link" ++ "-p")%string with "Link-p". ring.
Qed.

Lemma sum_at_bus (price : string -> Q) b q l : NoDup l -> In b l -> total (fun b' => price b' * at_bus b b' q) l == price b * q.
Proof.
  intros N I. rewrite (total_ext _ (fun b' => at_bus b b' (price b * q))) by (intros b' _; unfold at_bus; destruct (String.eqb_spec b b') as [<-|]; ring).
  apply total_at_In; assumption.
Qed.

Lemma plant_worth n losses d t price : located n k -> supported d -> NoDup (buses n) ->
  total (fun b => price b t * net_power n losses d t b) (buses n) == worth price k t * power d k t.
Proof.
  intros L S N. rewrite (total_ext _ _ _ (fun b _ => Qmult_comp _ _ (Qeq_refl (price b t)) _ _ (plant_net n losses d t b L S))).
  destruct L as [B _]. destruct k as [c|l]; cbn [worth pbuses] in *.
  - rewrite (sum_at_bus (fun b => price b t) (c_bus c)); [ring|exact N|apply B; left; reflexivity].
  - set (p := power d (Lnk l) t). clearbody p.
    rewrite (total_ext _ (fun b => total (fun pe => price b t * at_bus (fst pe) b (snd pe * p)) (outputs t l) - price b t * at_bus (l_bus0 l) b p));
      [|intros b _; rewrite total_scale; ring].
    rewrite total_minus, total_swap, (sum_at_bus (fun b => price b t) (l_bus0 l)); [|exact N|apply B; left; reflexivity].
    rewrite (total_ext _ (fun pe => p * (snd pe * price (fst pe) t)) (outputs t l)).
    + rewrite total_scale. ring.
    + intros pe I. rewrite (sum_at_bus (fun b => price b t) (fst pe)); [ring|exact N|]. apply B. right. unfold outputs in I. destruct I as [<-|I]; [left; reflexivity|]. right.
      apply in_map_iff in I. destruct I as (pe' & <- & I). apply filter_In in I. destruct I as [I E]. cbn [fst]. apply filter_In. split; [apply in_map; exact I|exact E].
Qed.

(* constraints of others *)
Lemma apart_zero d c : supported d -> apart k c -> eval d (lhs c) == 0.
Proof.
  intros S A. unfold apart in A. revert A. generalize (lhs c). intros l A. induction l as [|[q [v|]] l IH]; [reflexivity| |].
  - cbn [eval val]. rewrite IH by (intros q' v' I; apply (A q' v'); right; exact I). destruct v as [[s t] m].
    rewrite (S s t m); [ring|]. destruct (A q (s, t, m) (or_introl eq_refl)) as [H|[H1 H2]]; cbn [fst snd] in *; auto.
  - cbn [eval val]. rewrite IH by (intros q' v' I; apply (A q' v'); right; exact I). ring.
Qed.

(* the objective *)
Section Obj.
Import ObjectiveModel ObjectiveSpec.
Variable on : ObjectiveModel.net.
Variable o : ObjectiveModel.asset.
Variable ps : list ObjectiveModel.piece.
Variable x : sol.
Hypothesis KN : known on.
Hypothesis CF : const_fixed on x.
Hypothesis PS : proper on a_start.
Hypothesis PD : proper on a_shut.
Hypothesis OB : objective on = Some ps.
Hypothesis VO : valued on o.
Hypothesis NM : a_name o = pname k.
Hypothesis CL : a_class o = pclass k.
Hypothesis ON : forall t, a_on o t = pactive k t.
Hypothesis NC : a_com o = false.

Definition cost_of (y : sol) (a : ObjectiveModel.asset) : Q :=
  annual on a * (capacity y a - a_nom a) + BalanceSpec.total (fun t => weighting on t * running y a t + starts y a t) (days on).
Lemma value_assets y : const_fixed on y -> value_of y ps == BalanceSpec.total (cost_of y) (assets on).
Proof.
  intros C. rewrite (ObjectiveProofs.objective_value on y ps KN C PS PD OB). unfold cost_of. rewrite total_plus. unfold expansion, operating, switching_cost.
  rewrite (total_ext (fun t => weighting on t * _) (fun t => BalanceSpec.total (fun a => weighting on t * running y a t) (assets on))) by (intros t _; rewrite total_scale; reflexivity).
  rewrite (total_swap (fun t a => weighting on t * running y a t)), (total_swap (fun t a => starts y a t)).
  rewrite <- Qplus_assoc, <- total_plus. apply Qplus_comp; [reflexivity|]. apply total_ext. intros a _. rewrite <- total_plus. reflexivity.
Qed.

Variable d : sol.
Hypothesis SD : supported d.

Lemma at_same y a s t : (y = plus x d \/ y = less x d) -> d (s, t, a_name a) = 0 -> at_ y a s t == at_ x a s t.
Proof. unfold at_. intros [-> | ->] E; destruct (a_on a t); try reflexivity; unfold plus, less; rewrite E; ring. Qed.

Lemma others_same y a : (y = plus x d \/ y = less x d) -> In a (assets on) -> (a_class a = a_class o -> a_name a <> a_name o) -> cost_of y a == cost_of x a.
Proof.
  intros Y I NE. rewrite NM, CL in NE.
  assert (Z : forall s t, (pclass k = a_class a \/ (s <> vp /\ s <> vn)) -> d (s, t, a_name a) = 0).
  { intros s t [E|E]; apply SD; [left; apply NE; symmetry; exact E|right; exact E]. }
  assert (A : forall s t, (pclass k = a_class a \/ (s <> vp /\ s <> vn)) -> at_ y a s t == at_ x a s t) by (intros s t H; apply at_same; [exact Y|apply Z; exact H]).
  unfold cost_of. apply Qplus_comp.
  - apply Qmult_comp; [reflexivity|]. apply Qplus_comp; [|reflexivity]. unfold capacity. destruct (a_ext a); [|reflexivity].
    assert (V : forall s, (pclass k = a_class a \/ (s <> vp /\ s <> vn)) -> y (s, O, a_name a) == x (s, O, a_name a)).
    { intros s H. destruct Y as [-> | ->]; unfold plus, less; rewrite (Z s O H); ring. }
    unfold is. cbn [existsb]. rewrite !orb_false_r.
    repeat (match goal with |- context [String.eqb (a_class a) ?s] => destruct (String.eqb_spec (a_class a) s) as [E|?] end); apply V; destruct k; cbn [pclass] in *;
      try (left; congruence); right; split; intros; discriminate.
  - apply total_ext. intros t _.
    assert (D1 : dispatch y a t == dispatch x a t).
    { unfold dispatch, is. cbn [existsb]. rewrite !orb_false_r.
      repeat (match goal with |- context [String.eqb (a_class a) ?s] => destruct (String.eqb_spec (a_class a) s) as [E|?] end); try reflexivity; apply A; destruct k; cbn [pclass] in *;
      try (left; congruence); right; split; intros; discriminate. }
    assert (D2 : stored y a t == stored x a t).
    { unfold stored, is. cbn [existsb]. rewrite !orb_false_r.
      repeat (match goal with |- context [String.eqb (a_class a) ?s] => destruct (String.eqb_spec (a_class a) s) as [E|?] end); try reflexivity; apply A; destruct k; cbn [pclass] in *;
      try (left; congruence); right; split; intros; discriminate. }
    assert (D3 : spilled y a t == spilled x a t).
    { unfold spilled. destruct (is a ["StorageUnit"] && positive (a_inflow a t)); [|reflexivity]. apply A. destruct k; right; split; intros; discriminate. }
    assert (D4 : forall w, w = "status" \/ w = "start_up" \/ w = "shut_down" -> unit_value y w a t == unit_value x w a t).
    { intros w W. unfold unit_value. destruct (a_com a); [|reflexivity]. destruct (is a ["Generator"]); [|destruct (is a ["Link"]); [|reflexivity]]; apply A; right;
      destruct W as [-> |[-> | ->]]; destruct k; split; intros; discriminate. }
    unfold running, starts. rewrite D1, D2, D3, !D4 by auto. reflexivity.
Qed.

Lemma const_same y : (y = plus x d \/ y = less x d) -> const_fixed on y.
Proof.
  intros Y H. specialize (CF H). unfold const_label in *. cbn [val] in *. rewrite <- CF.
  assert (Z : d ("objective_constant", O, "") = 0) by (apply SD; right; destruct k; split; intros; discriminate).
  destruct Y as [-> | ->]; unfold plus, less; rewrite Z; ring.
Qed.

Lemma own_cost y : cost_of y o == annual on o * ((if a_ext o then y (vn, O, pname k) else a_nom o) - a_nom o) +
  BalanceSpec.total (fun t => weighting on t * (a_marginal o t * power y k t + a_quadratic o t * (power y k t * power y k t))) (days on).
Proof.
  unfold cost_of. apply Qplus_comp.
  - apply Qmult_comp; [reflexivity|]. apply Qplus_comp; [|reflexivity]. unfold capacity, is. rewrite CL, NM. destruct k; destruct (a_ext o); reflexivity.
  - apply total_ext. intros t _. unfold running, starts, unit_value, dispatch, stored, spilled, is, at_. rewrite NC, CL, NM, ON. unfold power.
    destruct k; cbn [pclass existsb String.eqb Ascii.eqb Bool.eqb orb andb]; cbn [pactive pname append]; ring.
Qed.

Lemma plant_slope : slope x d ps == (if a_ext o then yearly on o * d (vn, O, pname k) else 0) +
  BalanceSpec.total (fun t => weight on t * (marginal x k o t * power d k t)) (days on).
Proof.
  change (slope x d ps == (if a_ext o then annual on o * d (vn, O, pname k) else 0) +
    BalanceSpec.total (fun t => weighting on t * (marginal x k o t * power d k t)) (days on)).
  assert (D := slope_diff x d ps). rewrite !value_assets in D by (apply const_same; auto).
  destruct VO as (l1 & l2 & E & NE). rewrite E, !total_app in D. cbn [BalanceSpec.total fold_right] in D.
  change (fold_right (fun a s => cost_of (plus x d) a + s) 0 l2) with (BalanceSpec.total (cost_of (plus x d)) l2) in D.
  change (fold_right (fun a s => cost_of (less x d) a + s) 0 l2) with (BalanceSpec.total (cost_of (less x d)) l2) in D.
  assert (SM : forall y l, (y = plus x d \/ y = less x d) -> (forall a, In a l -> In a (l1 ++ l2)) -> BalanceSpec.total (cost_of y) l == BalanceSpec.total (cost_of x) l).
  { intros y l Y S. apply total_ext. intros a I. apply others_same; [exact Y| |].
    - rewrite E. assert (J := S a I). apply in_app_or in J. apply in_or_app. destruct J; [left|right; right]; assumption.
    - intros C. apply NE; [apply S; exact I|exact C]. }
  rewrite (SM (plus x d) l1), (SM (plus x d) l2), (SM (less x d) l1), (SM (less x d) l2) in D by (auto; intros a I; apply in_or_app; auto).
  rewrite !own_cost in D.
  set (A := BalanceSpec.total (cost_of x) l1) in *. set (B := BalanceSpec.total (cost_of x) l2) in *. clearbody A B.
  set (W := weighting on) in *.
  assert (P1 : forall t, power (plus x d) k t == power x k t + power d k t) by (intros t; unfold power, plus; destruct (pactive k t); ring).
  assert (P2 : forall t, power (less x d) k t == power x k t - power d k t) by (intros t; unfold power, less; destruct (pactive k t); ring).
  assert (T : BalanceSpec.total (fun t => W t * (a_marginal o t * power (plus x d) k t + a_quadratic o t * (power (plus x d) k t * power (plus x d) k t))) (days on) ==
              BalanceSpec.total (fun t => W t * (a_marginal o t * power (less x d) k t + a_quadratic o t * (power (less x d) k t * power (less x d) k t))) (days on) +
              2 * BalanceSpec.total (fun t => W t * (marginal x k o t * power d k t)) (days on)).
  { rewrite <- total_scale, <- total_plus. apply total_ext. intros t _. rewrite P1, P2. unfold marginal. ring. }
  rewrite T in D. clear T.
  assert (F : forall p q : Q, 2 * p == 2 * q -> q == p) by (intros p q H; lra).
  apply F. rewrite <- D. unfold plus, less. destruct (a_ext o); ring.
Qed.
End Obj.
End Plant.

(* unit directions *)
Definition unit (v : var) : sol := fun w => if var_eqb v w then 1 else 0.
Lemma var_eqb_refl v : var_eqb v v = true.
Proof. unfold var_eqb. rewrite !String.eqb_refl, Nat.eqb_refl. reflexivity. Qed.
Lemma var_eqb_eq v w : var_eqb v w = true -> v = w.
Proof.
  destruct v as [[s t] m], w as [[s' t'] m']. unfold var_eqb. cbn [fst snd]. rewrite !andb_true_iff. intros [[A B] C].
  apply String.eqb_eq in A. apply Nat.eqb_eq in B. apply String.eqb_eq in C. congruence.
Qed.
Lemma var_eqb_neq v w : v <> w -> var_eqb v w = false.
Proof. intros N. destruct (var_eqb v w) eqn:E; [|reflexivity]. exfalso. apply N, var_eqb_eq, E. Qed.
Lemma eval_unit v l : eval (unit v) l == coef v l.
Proof.
  unfold coef. induction l as [|[c [w|]] l IH]; [reflexivity| |]; cbn [eval val total fold_right fst snd]; unfold total in IH; rewrite IH; [|ring].
  unfold unit. destruct (var_eqb v w); ring.
Qed.
Lemma toll_sum v rest : total (weigh (unit v)) rest == toll rest v.
Proof. apply total_ext. intros cy _. unfold weigh. rewrite eval_unit. reflexivity. Qed.
Lemma toll_apart k rest s t : (s = (pclass k ++ "-p")%string \/ s = (pclass k ++ "-p_nom")%string) ->
  (forall c y, In (c, y) rest -> apart k c) -> toll rest (s, t, pname k) == 0.
Proof.
  intros S A. apply total_zero. intros [c y] I. cbn [fst snd]. assert (Z : coef (s, t, pname k) (lhs c) == 0); [|rewrite Z; ring].
  apply total_zero. intros [q [w|]] J; cbn [fst snd]; [|reflexivity]. destruct (var_eqb (s, t, pname k) w) eqn:E; [|reflexivity].
  apply var_eqb_eq in E. subst w. destruct (A c y I q _ J) as [H|[H1 H2]]; cbn [fst snd] in *; exfalso; [congruence|destruct S; congruence].
Qed.

Lemma total_seq_at (f : nat -> Q) t0 T : (t0 < T)%nat -> total (fun t => if Nat.eqb t t0 then f t else 0) (seq 0 T) == f t0.
Proof.
  intros L. assert (I : In t0 (seq 0 T)) by (apply in_seq; lia). assert (N := seq_NoDup T 0). revert N I. generalize (seq 0 T). intros l N I.
  induction l as [|t l IH]; [destruct I|]. apply NoDup_cons_iff in N. destruct N as [N1 N2]. cbn [total fold_right]. destruct I as [->|I].
  - rewrite Nat.eqb_refl. assert (Z : total (fun t => if Nat.eqb t t0 then f t else 0) l == 0).
    { apply total_zero. intros t J. destruct (Nat.eqb_spec t t0) as [->|]; [contradiction|reflexivity]. }
    unfold total in Z. rewrite Z. ring.
  - destruct (Nat.eqb_spec t t0) as [->|]; [contradiction|]. unfold total in IH. rewrite (IH N2 I). ring.
Qed.

Section Market.
Variables (n : net) (losses : bool) (T : nat) (cols : list string) (thr : nat) (on : ObjectiveModel.net) (o : ObjectiveModel.asset).
Variables (ps : list ObjectiveModel.piece) (k : plant) (a : DispatchModel.asset) (x : sol) (price : string -> nat -> Q) (mu : multipliers) (rest : duals).
Hypothesis M : market n losses T cols thr on o ps k a x price mu rest.
Notation vp := (pclass k ++ "-p")%string.
Notation vn := (pclass k ++ "-p_nom")%string.
Notation W := (weight on).
Notation A := (earning on price rest k).
Definition is_set (t : nat) : bool := match DispatchModel.fix_set a t with Some _ => true | None => false end.
Definition is_bounded : bool := match DispatchModel.nom_max a with Some _ => true | None => false end.
Definition is_fixed : bool := match DispatchModel.nom_set a with Some _ => true | None => false end.

Lemma vpn : vp <> vn. Proof. destruct k; discriminate. Qed.
Lemma unit_p_supported t : supported k (unit (vp, t, pname k)).
Proof.
  intros s t' m H. unfold unit. rewrite var_eqb_neq; [reflexivity|]. intros E. inversion E; subst; clear E. destruct H as [H|[H _]]; apply H; reflexivity.
Qed.
Lemma unit_n_supported : supported k (unit (vn, O, pname k)).
Proof.
  intros s t' m H. unfold unit. rewrite var_eqb_neq; [reflexivity|]. intros E. inversion E; subst; clear E. destruct H as [H|[_ H]]; apply H; reflexivity.
Qed.
Lemma power_unit t0 t : pactive k t0 = true -> power (unit (vp, t0, pname k)) k t == if Nat.eqb t t0 then 1 else 0.
Proof.
  intros P. unfold power, unit, var_eqb. cbn [fst snd]. rewrite !String.eqb_refl. cbn [andb]. rewrite andb_true_r, (Nat.eqb_sym t0 t).
  destruct (Nat.eqb_spec t t0) as [->|]; [rewrite P|destruct (pactive k t)]; reflexivity.
Qed.
Lemma power_nom t : power (unit (vn, O, pname k)) k t == 0.
Proof.
  unfold power. destruct (pactive k t); [|reflexivity]. unfold unit. rewrite var_eqb_neq; [reflexivity|]. intros E. injection E. intros. exfalso. apply vpn. congruence.
Qed.
Lemma unit_at t0 t : unit (vp, t0, pname k) (vp, t, pname k) = if Nat.eqb t t0 then 1 else 0.
Proof. unfold unit, var_eqb. cbn [fst snd]. rewrite !String.eqb_refl. cbn [andb]. rewrite andb_true_r, Nat.eqb_sym. reflexivity. Qed.
Lemma unit_cap t0 : unit (vp, t0, pname k) (vn, O, pname k) = 0.
Proof. unfold unit. rewrite var_eqb_neq; [reflexivity|]. intros E. injection E. intros. apply vpn. congruence. Qed.
Lemma unit_cap' t : unit (vn, O, pname k) (vp, t, pname k) = 0.
Proof. unfold unit. rewrite var_eqb_neq; [reflexivity|]. intros E. injection E. intros. apply vpn. congruence. Qed.

Lemma total_add_nil {B} g ts mask f y : total g (add_duals ts (@nil B) mask f y) == 0.
Proof. rewrite total_add. apply total_zero. reflexivity. Qed.
Lemma total_add_one {B} g ts mask f y (b : B) : total g (add_duals ts [b] mask f y) == total (fun t => if mask t b then g (f t b, y t b) else 0) ts.
Proof. rewrite total_add. apply total_ext. intros t _. cbn [total fold_right]. ring. Qed.

Lemma total_one {B} (f : B -> Q) b : total f [b] == f b. Proof. cbn [total fold_right]. ring. Qed.
Lemma shape_ext (N1 N2 N3 C : Q) (f g h F : nat -> Q) l : N1 + N2 + N3 == C -> (forall t, f t + g t + h t == F t) ->
  N1 + N2 + (N3 + (0 + (0 + 0 + (total f l + total g l + (0 + 0 + total h l))))) == C + total F l.
Proof. intros E H. rewrite <- E, <- (total_ext (fun t => f t + g t + h t) F l) by (intros t _; apply H). rewrite !total_plus. ring. Qed.
Lemma shape_fix (f g h F : nat -> Q) l : (forall t, f t + g t + h t == F t) ->
  0 + 0 + (0 + (0 + (total f l + total g l + (0 + 0 + (0 + 0 + total h l))))) == 0 + total F l.
Proof. intros H. rewrite <- (total_ext (fun t => f t + g t + h t) F l) by (intros t _; apply H). rewrite !total_plus. ring. Qed.

(* the sum over the plant's own constraints *)
Lemma own_sum d : supported k d ->
  total (weigh d) (own_y (pclass k) T a mu) ==
  (if DispatchModel.ext a then
     (m_nom_lower mu + (if is_bounded then m_nom_upper mu else 0) + (if is_fixed then m_nom_set mu else 0)) * d (vn, O, pname k) else 0) +
  total (fun t => if pactive k t then
     (m_lower mu t + m_upper mu t + (if is_set t then m_set mu t else 0)) * d (vp, t, pname k) -
     (if DispatchModel.ext a then (DispatchModel.min_pu a t * m_lower mu t + DispatchModel.max_pu a t * m_upper mu t) * d (vn, O, pname k) else 0) else 0) (seq 0 T).
Proof.
  intros S. destruct M as [_ _ _ _ _ _ _ _ _ (NA & NO & CL & AA & OA & EX & CO & CA & MO) _ _].
  unfold own_y, DispatchModel.ext_assets, DispatchModel.fixed_assets, DispatchModel.com_assets, DispatchModel.mod_assets, DispatchModel.snaps. cbn [filter].
  rewrite CA. assert (MO' : negb (Qle_bool (DispatchModel.nom_mod a) 0) = false) by (apply Qle_bool_iff in MO; rewrite MO; reflexivity).
  rewrite MO', !andb_false_r. unfold weigh. rewrite !total_app.
  set (P := fun t => d (vp, t, pname k)). set (N := d (vn, O, pname k)).
  assert (EP : forall t, val d (DispatchModel.op (pclass k) "p" a t) = if pactive k t then P t else 0).
  { intros t. unfold DispatchModel.op. rewrite AA, NA. destruct (pactive k t); reflexivity. }
  assert (EN : val d (DispatchModel.cap (pclass k) "p_nom" a) = N) by (unfold DispatchModel.cap; rewrite NA; reflexivity).
  destruct (DispatchModel.ext a) eqn:E; cbn [negb andb]; rewrite ?total_add_nil, ?total_add_one.
  - apply shape_ext.
    + rewrite !total_one. cbn [fst snd lhs DispatchModel.mk eval]. rewrite EN. unfold is_bounded, is_fixed.
      destruct (DispatchModel.nom_max a), (DispatchModel.nom_set a); ring.
    + intros t. cbn [fst snd lhs DispatchModel.mk eval]. rewrite EP, EN. unfold is_set. fold (P t). rewrite AA. destruct (DispatchModel.fix_set a t), (pactive k t); ring.
  - apply shape_fix. intros t. cbn [fst snd lhs DispatchModel.mk eval]. rewrite EP. unfold is_set. fold (P t). rewrite AA. destruct (DispatchModel.fix_set a t), (pactive k t); ring.
Qed.

Lemma mesh b : In b (meshed cols thr) -> In b (buses n).
Proof.
  unfold meshed. rewrite filter_In, nodup_In, andb_true_iff. intros [I [H _]]. destruct (mk_mesh _ _ _ _ _ _ _ _ _ _ _ _ _ _ M b I) as [->|J]; [discriminate H|exact J].
Qed.

(* stationarity along the plant's variables *)
Lemma station d : supported k d ->
  (if DispatchModel.ext a then yearly on o * d (vn, O, pname k) else 0) + total (fun t => W t * (marginal x k o t * power d k t)) (seq 0 T) ==
  total (fun t => W t * (worth price k t * power d k t)) (seq 0 T) +
  total (weigh d) (own_y (pclass k) T a mu) + total (weigh d) rest.
Proof.
  intros S. assert (H := mk_kkt _ _ _ _ _ _ _ _ _ _ _ _ _ _ M). destruct H as (_ & _ & _ & ST). specialize (ST d).
  destruct (mk_same _ _ _ _ _ _ _ _ _ _ _ _ _ _ M) as (NA & NO & CL & AA & OA & EX & CO & CA & MO).
  rewrite (plant_slope k on o ps x) in ST; try (apply M || assumption).
  unfold ObjectiveSpec.days in ST. rewrite EX, (mk_snaps _ _ _ _ _ _ _ _ _ _ _ _ _ _ M) in ST. rewrite ST. clear ST.
  change (fun cy : con * Q => snd cy * eval d (lhs (fst cy))) with (weigh d). rewrite !total_app, nodal_sum; [|apply M|apply mesh].
  rewrite (total_ext (fun t => total (fun b => W t * price b t * net_power n losses d t b) (buses n)) (fun t => W t * (worth price k t * power d k t))); [ring|].
  intros t _. rewrite <- (plant_worth k n losses d t price); [|apply M|exact S|apply M]. rewrite <- total_scale. apply total_ext. intros b _. ring.
Qed.

Lemma station_p t : (t < T)%nat -> pactive k t = true ->
  W t * marginal x k o t == A t + m_lower mu t + m_upper mu t + (if is_set t then m_set mu t else 0).
Proof.
  intros L P. assert (H := station _ (unit_p_supported t)). rewrite (toll_sum _ rest), own_sum in H by apply unit_p_supported.
  rewrite unit_cap in H.
  rewrite (total_ext (fun t' => W t' * (marginal x k o t' * _)) (fun t' => if Nat.eqb t' t then W t' * marginal x k o t' else 0)), total_seq_at in H;
    [|exact L|intros t' _; rewrite (power_unit t t' P); destruct (Nat.eqb t' t); ring].
  rewrite (total_ext (fun t' => W t' * (worth price k t' * _)) (fun t' => if Nat.eqb t' t then W t' * worth price k t' else 0)), total_seq_at in H;
    [|exact L|intros t' _; rewrite (power_unit t t' P); destruct (Nat.eqb t' t); ring].
  rewrite (total_ext (fun t' => if pactive k t' then _ else 0) (fun t' => if Nat.eqb t' t then m_lower mu t' + m_upper mu t' + (if is_set t' then m_set mu t' else 0) else 0)), total_seq_at in H;
    [|exact L|intros t' _; rewrite unit_at; destruct (Nat.eqb_spec t' t) as [->|]; [rewrite P; destruct (DispatchModel.ext a); ring|destruct (pactive k t'), (DispatchModel.ext a); ring]].
  unfold earning. destruct (DispatchModel.ext a); lra.
Qed.

Lemma unit_self : unit (vn, O, pname k) (vn, O, pname k) = 1. Proof. unfold unit. rewrite var_eqb_refl. reflexivity. Qed.
Lemma station_n : DispatchModel.ext a = true ->
  yearly on o == m_nom_lower mu + (if is_bounded then m_nom_upper mu else 0) + (if is_fixed then m_nom_set mu else 0) + toll rest (vn, O, pname k) -
    total (fun t => if pactive k t then DispatchModel.min_pu a t * m_lower mu t + DispatchModel.max_pu a t * m_upper mu t else 0) (seq 0 T).
Proof.
  intros E. assert (H := station _ unit_n_supported). rewrite (toll_sum _ rest), own_sum in H by apply unit_n_supported.
  rewrite E, unit_self in H.
  rewrite (total_zero (fun t' => W t' * (marginal x k o t' * _))) in H by (intros t' _; rewrite power_nom; ring).
  rewrite (total_zero (fun t' => W t' * (worth price k t' * _))) in H by (intros t' _; rewrite power_nom; ring).
  rewrite (total_ext (fun t' => if pactive k t' then _ else 0) (fun t => - (1) * (if pactive k t then DispatchModel.min_pu a t * m_lower mu t + DispatchModel.max_pu a t * m_upper mu t else 0))), total_scale in H;
    [|intros t _; rewrite unit_cap'; destruct (pactive k t); ring].
  lra.
Qed.

(* signs and complementary slackness of the plant's limits *)
Lemma in_own c y : In (c, y) (own_y (pclass k) T a mu) -> signed c y /\ y * (eval x (lhs c) - rhs c) == 0 /\ holds x c.
Proof.
  intros I. destruct (mk_kkt _ _ _ _ _ _ _ _ _ _ _ _ _ _ M) as (F & SG & CS & _).
  assert (J : In (c, y) (nodal_y n losses T cols thr (fun t b => W t * price b t) ++ own_y (pclass k) T a mu ++ rest)) by (apply in_or_app; right; apply in_or_app; left; exact I).
  split; [exact (SG _ _ J)|]. split; [exact (CS _ _ J)|]. apply F. apply in_map_iff. exists (c, y). split; [reflexivity|exact J].
Qed.
Lemma in_seq0 t : (t < T)%nat -> In t (DispatchModel.snaps T). Proof. intros L. apply in_seq. lia. Qed.

Lemma lower_in t : (t < T)%nat -> pactive k t = true ->
  0 <= m_lower mu t /\ m_lower mu t * (power x k t - DispatchModel.min_pu a t * capacity x k a) == 0 /\ DispatchModel.min_pu a t * capacity x k a <= power x k t.
Proof.
  intros L P. destruct (mk_same _ _ _ _ _ _ _ _ _ _ _ _ _ _ M) as (NA & NO & CL & AA & OA & EX & CO & CA & MO).
  assert (I : In (if DispatchModel.ext a then DispatchModel.mk [(1, DispatchModel.op (pclass k) "p" a t); (- DispatchModel.min_pu a t, DispatchModel.cap (pclass k) "p_nom" a)] Ge 0
                  else DispatchModel.mk [(1, DispatchModel.op (pclass k) "p" a t)] Ge (DispatchModel.min_pu a t * DispatchModel.nom a), m_lower mu t) (own_y (pclass k) T a mu)).
  { unfold own_y, DispatchModel.ext_assets, DispatchModel.fixed_assets. cbn [filter]. rewrite CA. destruct (DispatchModel.ext a); cbn [negb andb]; rewrite !in_app_iff;
      [right; right; right; right; left; left|right; right; right; left; left];
      refine (in_add (DispatchModel.snaps T) [a] _ _ _ t a (in_seq0 t L) (or_introl eq_refl) _); cbv beta; rewrite AA; exact P. }
  destruct (in_own _ _ I) as (SG & CS & HO). unfold capacity, power. rewrite P.
  destruct (DispatchModel.ext a); unfold signed, holds, DispatchModel.mk, DispatchModel.op, DispatchModel.cap in *; cbn [lhs sns rhs eval] in *; rewrite AA, P, NA in *; cbn [val] in *;
    unfold DispatchModel.vname in *; cbn [append] in *;
    (split; [exact SG|]; split; [rewrite <- CS; ring|lra]).
Qed.
Lemma upper_in t : (t < T)%nat -> pactive k t = true ->
  m_upper mu t <= 0 /\ m_upper mu t * (power x k t - DispatchModel.max_pu a t * capacity x k a) == 0 /\ power x k t <= DispatchModel.max_pu a t * capacity x k a.
Proof.
  intros L P. destruct (mk_same _ _ _ _ _ _ _ _ _ _ _ _ _ _ M) as (NA & NO & CL & AA & OA & EX & CO & CA & MO).
  assert (I : In (if DispatchModel.ext a then DispatchModel.mk [(1, DispatchModel.op (pclass k) "p" a t); (- DispatchModel.max_pu a t, DispatchModel.cap (pclass k) "p_nom" a)] Le 0
                  else DispatchModel.mk [(1, DispatchModel.op (pclass k) "p" a t)] Le (DispatchModel.max_pu a t * DispatchModel.nom a), m_upper mu t) (own_y (pclass k) T a mu)).
  { unfold own_y, DispatchModel.ext_assets, DispatchModel.fixed_assets. cbn [filter]. rewrite CA. destruct (DispatchModel.ext a); cbn [negb andb]; rewrite !in_app_iff;
      [right; right; right; right; left; right|right; right; right; left; right];
      refine (in_add (DispatchModel.snaps T) [a] _ _ _ t a (in_seq0 t L) (or_introl eq_refl) _); cbv beta; rewrite AA; exact P. }
  destruct (in_own _ _ I) as (SG & CS & HO). unfold capacity, power. rewrite P.
  destruct (DispatchModel.ext a); unfold signed, holds, DispatchModel.mk, DispatchModel.op, DispatchModel.cap in *; cbn [lhs sns rhs eval] in *; rewrite AA, P, NA in *; cbn [val] in *;
    unfold DispatchModel.vname in *; cbn [append] in *;
    (split; [exact SG|]; split; [rewrite <- CS; ring|lra]).
Qed.
Lemma nom_in : DispatchModel.ext a = true ->
  (0 <= m_nom_lower mu /\ m_nom_lower mu * (capacity x k a - DispatchModel.nom_min a) == 0 /\ DispatchModel.nom_min a <= capacity x k a) /\
  (forall u, DispatchModel.nom_max a = Some u -> m_nom_upper mu <= 0 /\ m_nom_upper mu * (capacity x k a - u) == 0 /\ capacity x k a <= u) /\
  (forall u, DispatchModel.nom_set a = Some u -> capacity x k a == u).
Proof.
  intros E. destruct (mk_same _ _ _ _ _ _ _ _ _ _ _ _ _ _ M) as (NA & NO & CL & AA & OA & EX & CO & CA & MO).
  assert (EC : forall q, eval x [(q, DispatchModel.cap (pclass k) "p_nom" a)] == q * capacity x k a).
  { intros q. unfold capacity. rewrite E. unfold DispatchModel.cap, DispatchModel.vname. rewrite NA. cbn [eval val append]. ring. }
  split; [|split].
  - assert (I : In (DispatchModel.mk [(1, DispatchModel.cap (pclass k) "p_nom" a)] Ge (DispatchModel.nom_min a), m_nom_lower mu) (own_y (pclass k) T a mu)).
    { unfold own_y, DispatchModel.ext_assets. cbn [filter]. rewrite E, !in_app_iff. left. left. refine (in_add [O] [a] _ _ _ O a (or_introl eq_refl) (or_introl eq_refl) _); reflexivity. }
    destruct (in_own _ _ I) as (SG & CS & HO). unfold signed, holds, DispatchModel.mk in *. cbn [lhs sns rhs] in *. rewrite EC in CS, HO.
    split; [exact SG|]. split; [rewrite <- CS; ring|lra].
  - intros u U.
    assert (I : In (DispatchModel.mk [(1, DispatchModel.cap (pclass k) "p_nom" a)] Le u, m_nom_upper mu) (own_y (pclass k) T a mu)).
    { unfold own_y, DispatchModel.ext_assets. cbn [filter]. rewrite E, !in_app_iff. left. right.
      assert (J := in_add [O] [a] (fun _ a => match DispatchModel.nom_max a with None => false | _ => true end)
        (fun _ a => DispatchModel.mk [(1, DispatchModel.cap (pclass k) "p_nom" a)] Le (match DispatchModel.nom_max a with Some u => u | None => 0 end)) (fun _ _ => m_nom_upper mu) O a (or_introl eq_refl) (or_introl eq_refl)).
      cbv beta in J. rewrite U in J. apply J. reflexivity. }
    destruct (in_own _ _ I) as (SG & CS & HO). unfold signed, holds, DispatchModel.mk in *. cbn [lhs sns rhs] in *. rewrite EC in CS, HO.
    split; [exact SG|]. split; [rewrite <- CS; ring|lra].
  - intros u U.
    assert (I : In (DispatchModel.mk [(1, DispatchModel.cap (pclass k) "p_nom" a)] Eq u, m_nom_set mu) (own_y (pclass k) T a mu)).
    { unfold own_y, DispatchModel.ext_assets. cbn [filter]. rewrite E, !in_app_iff. right. left.
      assert (J := in_add [O] [a] (fun _ a => match DispatchModel.nom_set a with None => false | _ => true end)
        (fun _ a => DispatchModel.mk [(1, DispatchModel.cap (pclass k) "p_nom" a)] Eq (match DispatchModel.nom_set a with Some u => u | None => 0 end)) (fun _ _ => m_nom_set mu) O a (or_introl eq_refl) (or_introl eq_refl)).
      cbv beta in J. rewrite U in J. apply J. reflexivity. }
    destruct (in_own _ _ I) as (_ & _ & HO). unfold holds, DispatchModel.mk in *. cbn [lhs sns rhs] in *. rewrite EC in HO. lra.
Qed.

(* merit order *)
Lemma qzero (p q : Q) : p * q == 0 -> ~ p == 0 -> q == 0.
Proof. intros H N. destruct (Qmult_integral p q H); [contradiction|assumption]. Qed.
Lemma merit t : (t < T)%nat -> pactive k t = true -> DispatchModel.fix_set a t = None ->
  (W t * marginal x k o t < A t -> power x k t == DispatchModel.max_pu a t * capacity x k a) /\
  (A t < W t * marginal x k o t -> power x k t == DispatchModel.min_pu a t * capacity x k a) /\
  (DispatchModel.min_pu a t * capacity x k a < power x k t -> power x k t < DispatchModel.max_pu a t * capacity x k a -> A t == W t * marginal x k o t).
Proof.
  intros L P N. assert (H := station_p t L P). unfold is_set in H. rewrite N in H.
  destruct (lower_in t L P) as (L1 & L2 & L3). destruct (upper_in t L P) as (U1 & U2 & U3).
  split; [|split].
  - intros G. assert (Z : power x k t - DispatchModel.max_pu a t * capacity x k a == 0) by (apply (qzero (m_upper mu t)); [exact U2|intros Z; lra]). lra.
  - intros G. assert (Z : power x k t - DispatchModel.min_pu a t * capacity x k a == 0) by (apply (qzero (m_lower mu t)); [exact L2|intros Z; lra]). lra.
  - intros G1 G2. assert (Z1 : m_lower mu t == 0) by (apply (qzero (power x k t - DispatchModel.min_pu a t * capacity x k a)); [rewrite <- L2; ring|intros Z; lra]).
    assert (Z2 : m_upper mu t == 0) by (apply (qzero (power x k t - DispatchModel.max_pu a t * capacity x k a)); [rewrite <- U2; ring|intros Z; lra]). lra.
Qed.

Notation profit := (profit T on o k x price rest).
Lemma profit_is : unscheduled T k a ->
  profit == - capacity x k a * total (fun t => if pactive k t then DispatchModel.min_pu a t * m_lower mu t + DispatchModel.max_pu a t * m_upper mu t else 0) (seq 0 T).
Proof.
  intros N. unfold PriceSpec.profit. rewrite <- total_minus, <- total_scale. apply total_ext. intros t I. apply in_seq in I. assert (L : (t < T)%nat) by lia. clear I.
  destruct (pactive k t) eqn:P.
  - assert (H := station_p t L P). unfold is_set in H. rewrite (N t L P) in H. destruct (lower_in t L P) as (_ & L2 & _). destruct (upper_in t L P) as (_ & U2 & _).
    set (p := power x k t) in *. set (c := capacity x k a) in *. clearbody p c.
    transitivity (- (m_lower mu t * p) - m_upper mu t * p); [rewrite H; ring|].
    assert (X1 : m_lower mu t * p == m_lower mu t * (DispatchModel.min_pu a t * c)) by lra.
    assert (X2 : m_upper mu t * p == m_upper mu t * (DispatchModel.max_pu a t * c)) by lra. rewrite X1, X2. ring.
  - unfold power. rewrite P. ring.
Qed.
Lemma recovery : DispatchModel.ext a = true -> unscheduled T k a ->
  profit + toll rest (vn, O, pname k) * capacity x k a == yearly on o * capacity x k a - rent a mu.
Proof.
  intros E N. rewrite (profit_is N), (station_n E). set (S := total _ _). destruct (nom_in E) as ((_ & L & _) & U & F). unfold rent, is_bounded, is_fixed.
  set (c := capacity x k a) in *. clearbody c S.
  assert (X1 : m_nom_lower mu * DispatchModel.nom_min a == m_nom_lower mu * c) by lra. rewrite X1.
  assert (X2 : match DispatchModel.nom_max a with Some u => m_nom_upper mu * u | None => 0 end == (if match DispatchModel.nom_max a with Some _ => true | None => false end then m_nom_upper mu else 0) * c).
  { destruct (DispatchModel.nom_max a) as [u|]; [|ring]. destruct (U u eq_refl) as (_ & Z & _). lra. }
  assert (X3 : match DispatchModel.nom_set a with Some u => m_nom_set mu * u | None => 0 end == (if match DispatchModel.nom_set a with Some _ => true | None => false end then m_nom_set mu else 0) * c).
  { destruct (DispatchModel.nom_set a) as [u|]; [|ring]. rewrite (F u eq_refl). ring. }
  rewrite X2, X3. ring.
Qed.
Lemma no_loss t : (t < T)%nat -> DispatchModel.fix_set a t = None -> DispatchModel.min_pu a t <= 0 -> 0 <= DispatchModel.max_pu a t -> 0 <= capacity x k a ->
  W t * marginal x k o t * power x k t <= A t * power x k t.
Proof.
  intros L N LO UP C. destruct (pactive k t) eqn:P; [|unfold power; rewrite P; lra].
  assert (H := station_p t L P). unfold is_set in H. rewrite N in H. destruct (lower_in t L P) as (L1 & L2 & _). destruct (upper_in t L P) as (U1 & U2 & _).
  set (p := power x k t) in *. set (c := capacity x k a) in *. clearbody p c.
  assert (E : A t * p - W t * marginal x k o t * p == - (m_lower mu t * p) - m_upper mu t * p) by (rewrite H; ring).
  assert (X1 : m_lower mu t * p == m_lower mu t * (DispatchModel.min_pu a t * c)) by lra.
  assert (X2 : m_upper mu t * p == m_upper mu t * (DispatchModel.max_pu a t * c)) by lra.
  assert (P1 := Qmult_le_0_compat _ _ (Qmult_le_0_compat (- DispatchModel.min_pu a t) (m_lower mu t) ltac:(lra) L1) C).
  assert (P2 := Qmult_le_0_compat _ _ (Qmult_le_0_compat (DispatchModel.max_pu a t) (- m_upper mu t) UP ltac:(lra)) C).
  assert (Y1 : - DispatchModel.min_pu a t * m_lower mu t * c == - (m_lower mu t * p)) by (rewrite X1; ring).
  assert (Y2 : DispatchModel.max_pu a t * - m_upper mu t * c == - (m_upper mu t * p)) by (rewrite X2; ring).
  rewrite Y1 in P1. rewrite Y2 in P2. lra.
Qed.

Lemma breaks_even : DispatchModel.ext a = true -> unscheduled T k a -> DispatchModel.nom_set a = None ->
  (DispatchModel.nom_min a < capacity x k a \/ DispatchModel.nom_min a == 0) ->
  (forall u, DispatchModel.nom_max a = Some u -> capacity x k a < u) ->
  profit + toll rest (vn, O, pname k) * capacity x k a == yearly on o * capacity x k a.
Proof.
  intros E N F L U. rewrite (recovery E N). destruct (nom_in E) as ((_ & L2 & _) & U2 & _). unfold rent. rewrite F.
  assert (Z : m_nom_lower mu * DispatchModel.nom_min a == 0).
  { destruct L as [L|L]; [|rewrite L; ring]. assert (m_nom_lower mu == 0) as ->; [|ring]. apply (qzero (capacity x k a - DispatchModel.nom_min a)); [rewrite <- L2; ring|intros Z; lra]. }
  rewrite Z. destruct (DispatchModel.nom_max a) as [u|]; [|ring]. destruct (U2 u eq_refl) as (_ & Z2 & _). assert (L3 := U u eq_refl).
  assert (m_nom_upper mu == 0) as ->; [|ring]. apply (qzero (capacity x k a - u)); [rewrite <- Z2; ring|intros Z3; lra].
Qed.
Lemma gains : DispatchModel.ext a = true -> unscheduled T k a -> DispatchModel.nom_set a = None ->
  (DispatchModel.nom_min a < capacity x k a \/ DispatchModel.nom_min a == 0) -> 0 <= capacity x k a ->
  yearly on o * capacity x k a <= profit + toll rest (vn, O, pname k) * capacity x k a.
Proof.
  intros E N F L C. rewrite (recovery E N). destruct (nom_in E) as ((_ & L2 & _) & U2 & _). unfold rent. rewrite F.
  assert (Z : m_nom_lower mu * DispatchModel.nom_min a == 0).
  { destruct L as [L|L]; [|rewrite L; ring]. assert (m_nom_lower mu == 0) as ->; [|ring]. apply (qzero (capacity x k a - DispatchModel.nom_min a)); [rewrite <- L2; ring|intros Z; lra]. }
  destruct (DispatchModel.nom_max a) as [u|]; [|lra]. destruct (U2 u eq_refl) as (Z2 & _ & Z3).
  assert (P := Qmult_le_0_compat (- m_nom_upper mu) u ltac:(lra) ltac:(lra)). setoid_replace (- m_nom_upper mu * u) with (- (m_nom_upper mu * u)) in P by ring. lra.
Qed.
Lemma loses : DispatchModel.ext a = true -> unscheduled T k a -> DispatchModel.nom_set a = None -> 0 <= DispatchModel.nom_min a ->
  (forall u, DispatchModel.nom_max a = Some u -> capacity x k a < u) ->
  profit + toll rest (vn, O, pname k) * capacity x k a <= yearly on o * capacity x k a.
Proof.
  intros E N F L U. rewrite (recovery E N). destruct (nom_in E) as ((L1 & _ & _) & U2 & _). unfold rent. rewrite F.
  assert (P := Qmult_le_0_compat _ _ L1 L).
  destruct (DispatchModel.nom_max a) as [u|]; [|lra]. destruct (U2 u eq_refl) as (_ & Z2 & _). assert (L3 := U u eq_refl).
  assert (Z : m_nom_upper mu == 0) by (apply (qzero (capacity x k a - u)); [rewrite <- Z2; ring|intros Z3; lra]). rewrite Z. lra.
Qed.
End Market.

(* convexity from the attributes *)
Lemma convex_obj on ps : ObjectiveModel.objective on = Some ps -> convex on -> convex_pieces ps.
Proof.
  intros O [CW CQ] l c v I J. unfold ObjectiveModel.objective in O. destruct (existsb ObjectiveModel.is_missing (ObjectiveModel.pieces on)); [discriminate|].
  destruct (ObjectiveModel.nonempty (ObjectiveModel.pieces on)); [|discriminate]. injection O as <-.
  unfold ObjectiveModel.pieces in I. rewrite !in_app_iff in I.
  assert (OP : forall sq f rows, In (ObjectiveModel.Square l) (ObjectiveModel.operation on sq f rows) ->
    exists ca, In (ObjectiveModel.Square l) [sq (ObjectiveModel.terms on f (ObjectiveModel.op_label (fst ca) (snd ca)) (filter (ObjectiveModel.charged on f) (ObjectiveModel.cls on (fst ca))))]).
  { intros sq f rows H. unfold ObjectiveModel.operation in H. apply in_flat_map in H. destruct H as (ca & _ & H). cbv zeta in H. exists ca.
    destruct (ObjectiveModel.nonempty _); [|destruct H]. destruct (ObjectiveModel.exists_array on (fst ca) (snd ca)); [exact H|destruct H as [H|[]]; discriminate H]. }
  destruct I as [I|[I|[I|[I|[I|[I|[I|[I|I]]]]]]]].
  - destruct (Qeq_bool (ObjectiveModel.constant on) 0); [destruct I|destruct I as [I|[]]; discriminate I].
  - apply OP in I. destruct I as (ca & [I|[]]). discriminate I.
  - apply OP in I. destruct I as (ca & [I|[]]). discriminate I.
  - apply OP in I. destruct I as (ca & [I|[]]). discriminate I.
  - apply OP in I. destruct I as (ca & [I|[]]). injection I as <-. unfold ObjectiveModel.terms in J. apply in_flat_map in J. destruct J as (a & A & J).
    apply in_map_iff in J. destruct J as (t & J & T). injection J as <- _. apply in_seq in T. apply filter_In in A. destruct A as [A _]. unfold ObjectiveModel.cls in A. apply filter_In in A. destruct A as [A _].
    apply Qmult_le_0_compat; [apply CQ|apply CW]; try exact A; lia.
  - unfold ObjectiveModel.standby in I. apply in_flat_map in I. destruct I as (cc & _ & I). destruct (ObjectiveModel.nonempty _); [destruct I as [I|[]]; discriminate I|destruct I].
  - unfold ObjectiveModel.investment in I. apply in_flat_map in I. destruct I as (cc & _ & I). destruct (ObjectiveModel.nonempty _); [destruct I as [I|[]]; discriminate I|destruct I].
  - unfold ObjectiveModel.switching in I. apply in_flat_map in I. destruct I as (cc & _ & I). destruct (Qeq_bool _ 0); [destruct I|destruct I as [I|[]]; discriminate I].
  - unfold ObjectiveModel.switching in I. apply in_flat_map in I. destruct I as (cc & _ & I). destruct (Qeq_bool _ 0); [destruct I|destruct I as [I|[]]; discriminate I].
Qed.
Lemma optimal on x x' ps cy : ObjectiveModel.objective on = Some ps -> convex on -> kkt x ps cy -> sat x' (map fst cy) ->
  ObjectiveModel.value_of x ps <= ObjectiveModel.value_of x' ps.
Proof. intros O C K S. apply (kkt_optimal x x' ps cy K (convex_obj on ps O C) S). Qed.

(* other loads *)
Lemma mesh_ok n cols thr : (forall b, In b cols -> b = "" \/ In b (buses n)) -> forall b, In b (meshed cols thr) -> In b (buses n).
Proof. intros H b. unfold meshed. rewrite filter_In, nodup_In, andb_true_iff. intros [I [N _]]. destruct (H b I) as [->|J]; [discriminate N|exact J]. Qed.
Lemma net_less n losses x d t b : net_power n losses (less x d) t b == net_power n losses x t b - net_power n losses d t b.
Proof. rewrite <- !lhs_net. apply eval_less. Qed.
Lemma load_price n ls losses T cols thr on ps x x' price rest cs cs' :
  ObjectiveModel.objective on = Some ps -> convex on -> NoDup (buses n) -> (forall b, In b cols -> b = "" \/ In b (buses n)) ->
  nodal_balance n losses T cols thr = Some cs -> nodal_balance (with_loads n ls) losses T cols thr = Some cs' ->
  kkt x ps (nodal_y n losses T cols thr (fun t b => weight on t * price b t) ++ rest) ->
  sat x' (cs' ++ map fst rest) ->
  ObjectiveModel.value_of x ps + total (fun t => weight on t * total (fun b => price b t * (demand (with_loads n ls) t b - demand n t b)) (buses n)) (seq 0 T)
    <= ObjectiveModel.value_of x' ps.
Proof.
  intros O C N MS B B' (F & SG & CS & ST) S. set (d := less x' x).
  assert (E : ObjectiveModel.value_of (plus x d) ps == ObjectiveModel.value_of x' ps) by (apply value_congr; intros v; unfold plus, d, less; ring).
  rewrite <- E. assert (V := value_above x d ps (convex_obj on ps O C)). rewrite (ST d) in V.
  change (fun cy : con * Q => snd cy * eval d (lhs (fst cy))) with (weigh d) in V. rewrite total_app, nodal_sum in V; [|exact N|apply mesh_ok; exact MS].
  assert (L : 0 <= total (weigh d) rest).
  { rewrite <- (total_zero (fun _ : con * Q => 0) rest) by reflexivity. apply total_le. intros [c y] I. unfold weigh, d. cbn [fst snd]. rewrite eval_less.
    assert (I' : In (c, y) (nodal_y n losses T cols thr (fun t b => weight on t * price b t) ++ rest)) by (apply in_or_app; right; exact I).
    assert (G := SG c y I'). assert (Z := CS c y I'). assert (HH : holds x' c) by (apply S, in_or_app; right; apply in_map_iff; exists (c, y); auto).
    unfold holds in HH. unfold signed in G. assert (Z' : y * eval x (lhs c) == y * rhs c) by lra.
    setoid_replace (y * (eval x' (lhs c) - eval x (lhs c))) with (y * eval x' (lhs c) - y * eval x (lhs c)) by ring. rewrite Z'.
    setoid_replace (y * eval x' (lhs c) - y * rhs c) with (y * (eval x' (lhs c) - rhs c)) by ring.
    destruct (sns c).
    - assert (P := Qmult_le_0_compat (- y) (rhs c - eval x' (lhs c)) ltac:(lra) ltac:(lra)). setoid_replace (- y * (rhs c - eval x' (lhs c))) with (y * (eval x' (lhs c) - rhs c)) in P by ring. exact P.
    - apply Qmult_le_0_compat; lra.
    - rewrite HH. ring_simplify. lra. }
  assert (X : forall b t, In b (buses n) -> (t < T)%nat -> net_power n losses x t b == demand n t b).
  { apply (nodal_iff n losses x T cols thr cs B (mesh_ok n cols thr MS)). rewrite <- (nodal_fst n losses T cols thr (fun t b => weight on t * price b t) cs B).
    intros c I. apply F. rewrite map_app. apply in_or_app. left. exact I. }
  assert (X' : forall b t, In b (buses n) -> (t < T)%nat -> net_power (with_loads n ls) losses x' t b == demand (with_loads n ls) t b).
  { apply (nodal_iff (with_loads n ls) losses x' T cols thr cs' B' (mesh_ok (with_loads n ls) cols thr MS)). intros c I. apply S, in_or_app. left. exact I. }
  assert (Y : total (fun t => total (fun b => weight on t * price b t * net_power n losses d t b) (buses n)) (seq 0 T) ==
    total (fun t => weight on t * total (fun b => price b t * (demand (with_loads n ls) t b - demand n t b)) (buses n)) (seq 0 T)).
  { apply total_ext. intros t I. apply in_seq in I. rewrite <- total_scale. apply total_ext. intros b Ib. unfold d. rewrite net_less, (X b t Ib) by lia.
    rewrite <- (X' b t Ib) by lia. change (net_power (with_loads n ls) losses x' t b) with (net_power n losses x' t b). ring. }
  rewrite Y in V. lra.
Qed.

(* settlement *)
Section Settlement.
Variables (n : net) (losses : bool) (x : sol) (t : nat) (price : string -> nat -> Q).
Hypothesis N : NoDup (buses n).
Hypothesis C : connected n.
Lemma settle_comps p l : (forall c, In c l -> In (c_bus c) (buses n)) ->
  total (fun b => price b t * total (fun c => at_bus (c_bus c) b (p x t c)) l) (buses n) == paid_at x t price p l.
Proof.
  intros H. rewrite (total_ext _ (fun b => total (fun c => price b t * at_bus (c_bus c) b (p x t c)) l)) by (intros b _; rewrite total_scale; reflexivity).
  rewrite total_swap. apply total_ext. intros c I. exact (sum_at_bus (fun b => price b t) (c_bus c) (p x t c) (buses n) N (H c I)).
Qed.
Lemma settle_branches v lv l : (forall b, In b l -> In (b_bus0 b) (buses n) /\ In (b_bus1 b) (buses n)) ->
  total (fun b => price b t * total (branch_at losses x t v lv b) l) (buses n) == total (branch_rent losses x t price v lv) l.
Proof.
  intros H. rewrite (total_ext _ (fun b => total (fun c => price b t * branch_at losses x t v lv b c) l)) by (intros b _; rewrite total_scale; reflexivity).
  rewrite total_swap. apply total_ext. intros c I. destruct (H c I) as [H0 H1].
  assert (S := fun b q => sum_at_bus (fun b => price b t) b q (buses n) N). unfold branch_at, branch_rent.
  destruct losses.
  - rewrite (total_ext _ (fun b => price b t * at_bus (b_bus1 c) b (flow x t v c) - price b t * at_bus (b_bus0 c) b (flow x t v c) -
      (1#2) * (price b t * at_bus (b_bus0 c) b (flow x t lv c) + price b t * at_bus (b_bus1 c) b (flow x t lv c)))) by (intros b _; ring).
    rewrite !total_minus, total_scale, total_plus, !S by assumption. ring.
  - rewrite (total_ext _ (fun b => price b t * at_bus (b_bus1 c) b (flow x t v c) - price b t * at_bus (b_bus0 c) b (flow x t v c))) by (intros b _; ring).
    rewrite !total_minus, !S by assumption. ring.
Qed.
Lemma settle : (forall b, In b (buses n) -> net_power n losses x t b == demand n t b) ->
  pays_load t price n ==
  paid_at x t price gen_p (gens n) + paid_at x t price store_p (stores n) + paid_at x t price unit_p (units n) +
  total (fun l => worth price (Lnk l) t * link_p x t l) (links n) +
  total (branch_rent losses x t price "Line-s" "Line-loss") (lines n) + total (branch_rent losses x t price "Transformer-s" "Transformer-loss") (trafos n).
Proof.
  intros H. destruct C as (CC & CB & CL & CD).
  assert (D : pays_load t price n == total (fun b => price b t * demand n t b) (buses n)).
  { unfold pays_load, demand. rewrite (total_ext (fun b => price b t * _) (fun b => total (fun d => price b t * at_bus (d_bus d) b (demand_of t d)) (loads n))) by (intros b _; rewrite total_scale; reflexivity).
    rewrite total_swap. apply total_ext. intros d I. symmetry. exact (sum_at_bus (fun b => price b t) (d_bus d) _ (buses n) N (CD d I)). }
  rewrite D, <- (total_ext (fun b => price b t * net_power n losses x t b)) by (intros b I; rewrite (H b I); reflexivity).
  assert (K : total (fun b => price b t * total (fun l => total (fun pe => at_bus (fst pe) b (snd pe * link_p x t l)) (outputs t l) - at_bus (l_bus0 l) b (link_p x t l)) (links n)) (buses n) ==
    total (fun l => worth price (Lnk l) t * link_p x t l) (links n)).
  { rewrite (total_ext _ (fun b => total (fun l => price b t * (total (fun pe => at_bus (fst pe) b (snd pe * link_p x t l)) (outputs t l) - at_bus (l_bus0 l) b (link_p x t l))) (links n)))
      by (intros b _; rewrite total_scale; reflexivity).
    rewrite total_swap. apply total_ext. intros l I. destruct (CL l I) as (C0 & C1 & CP). cbn [worth]. set (p := link_p x t l). clearbody p.
    rewrite (total_ext _ (fun b => total (fun pe => price b t * at_bus (fst pe) b (snd pe * p)) (outputs t l) - price b t * at_bus (l_bus0 l) b p));
      [|intros b _; rewrite total_scale; ring].
    rewrite total_minus, total_swap, (sum_at_bus (fun b => price b t) (l_bus0 l)) by assumption.
    rewrite (total_ext _ (fun pe => p * (snd pe * price (fst pe) t)) (outputs t l)); [rewrite total_scale; ring|].
    intros pe J. rewrite (sum_at_bus (fun b => price b t) (fst pe)); [ring|exact N|]. unfold outputs in J. destruct J as [<-|J]; [exact C1|].
    apply in_map_iff in J. destruct J as (q & <- & J). apply filter_In in J. destruct J as [J E]. cbn [fst]. destruct (CP q J) as [Z|Z]; [rewrite Z in E; discriminate E|exact Z]. }
  unfold net_power. rewrite (total_ext _ (fun b =>
    price b t * total (fun c => at_bus (c_bus c) b (gen_p x t c)) (gens n) + price b t * total (fun c => at_bus (c_bus c) b (store_p x t c)) (stores n) +
    price b t * total (fun c => at_bus (c_bus c) b (unit_p x t c)) (units n) +
    price b t * total (branch_at losses x t "Line-s" "Line-loss" b) (lines n) + price b t * total (branch_at losses x t "Transformer-s" "Transformer-loss" b) (trafos n) +
    price b t * total (fun l => total (fun pe => at_bus (fst pe) b (snd pe * link_p x t l)) (outputs t l) - at_bus (l_bus0 l) b (link_p x t l)) (links n))) by (intros b _; ring).
  rewrite !total_plus, K, !settle_comps, !settle_branches; [ring| | | | |];
    intros c I; try (apply CB; apply in_or_app; auto); apply CC; rewrite !in_app_iff; auto.
Qed.
End Settlement.

(* constraints that do not concern the plant *)
Lemma apart_add {B} k ts (l : list B) mask f : (forall t b, In b l -> apart k (f t b)) -> forall c, In c (add_constraints ts l mask f) -> apart k c.
Proof.
  intros H c I. unfold add_constraints in I. apply in_flat_map in I. destruct I as (t & _ & I). apply in_flat_map in I. destruct I as (b & J & I).
  destruct (mask t b); [destruct I as [<-|[]]; apply H, J|destruct I].
Qed.
Lemma dispatch_apart k cls attr nattr kd losses T l : In cls ["Generator"; "Link"; "Line"; "Transformer"; "Store"; "StorageUnit"] ->
  (forall a, In a l -> cls <> pclass k \/ DispatchModel.name a <> pname k) ->
  forall c, In c (DispatchModel.all_constraints cls attr nattr kd losses T l) -> apart k c.
Proof.
  intros CI H.
  assert (V : forall a (t : nat) nm (w : var), In a l -> snd w = DispatchModel.name a -> fst w = (DispatchModel.vname cls nm, t) ->
    snd w <> pname k \/ fst (fst w) <> (pclass k ++ "-p")%string /\ fst (fst w) <> (pclass k ++ "-p_nom")%string).
  { intros a t nm [w m] I E1 E2. cbn [fst snd] in *. subst. destruct (H a I) as [N|N]; [|left; exact N]. right. cbn [fst]. unfold DispatchModel.vname.
    destruct CI as [<-|[<-|[<-|[<-|[<-|[<-|[]]]]]]]; destruct k; cbn [pclass] in *; try congruence; split; intros; discriminate. }
  assert (OPV : forall a t nm (w : var), In a l -> DispatchModel.op cls nm a t = Some w -> snd w <> pname k \/ fst (fst w) <> (pclass k ++ "-p")%string /\ fst (fst w) <> (pclass k ++ "-p_nom")%string).
  { intros a t nm w I E. unfold DispatchModel.op in E. destruct (DispatchModel.active a t); [|discriminate]. injection E as <-. apply (V a t nm); auto. }
  assert (K : forall a (w : var), In a l -> DispatchModel.cap cls nattr a = Some w -> snd w <> pname k \/ fst (fst w) <> (pclass k ++ "-p")%string /\ fst (fst w) <> (pclass k ++ "-p_nom")%string).
  { intros a w I E. injection E as <-. apply (V a O nattr); auto. }
  assert (D : forall a (w : var), In a l -> DispatchModel.n_mod cls a = Some w -> snd w <> pname k \/ fst (fst w) <> (pclass k ++ "-p")%string /\ fst (fst w) <> (pclass k ++ "-p_nom")%string).
  { intros a w I E. injection E as <-. apply (V a O "n_mod"); auto. }
  assert (LT : forall a t sg q (w : var), In a l -> In (q, Some w) (DispatchModel.loss_term cls kd losses sg a t) ->
    snd w <> pname k \/ fst (fst w) <> (pclass k ++ "-p")%string /\ fst (fst w) <> (pclass k ++ "-p_nom")%string).
  { intros a t sg q w I J. unfold DispatchModel.loss_term in J. destruct (DispatchModel.is_passive kd && losses); [|destruct J]. destruct J as [J|[]]. inversion J. eapply OPV; [exact I|eassumption]. }
  assert (FI : forall (g : DispatchModel.asset -> bool) a, In a (filter g l) -> In a l) by (intros g a I; apply filter_In in I; tauto).
  intros c I. unfold DispatchModel.all_constraints, DispatchModel.nominal, DispatchModel.fixed_nominal, DispatchModel.modular, DispatchModel.non_extendables, DispatchModel.extendables,
    DispatchModel.committables, DispatchModel.fixed_operation in I. rewrite !in_app_iff in I.
  repeat match type of I with _ \/ _ => destruct I as [I|I] end; revert c I; apply apart_add; intros t a I; try apply FI in I; unfold apart, DispatchModel.mk; cbn [lhs]; intros q w J;
    repeat match type of J with In _ (_ :: _) => destruct J as [J|J] end;
    try (apply (f_equal snd) in J; cbn [snd] in J; first [exact (OPV _ _ _ _ I J)|exact (K _ _ I J)|exact (D _ _ I J)]); try (destruct J; fail); exact (LT _ _ _ _ _ I J).
Qed.

(* the toll of an emission limit *)
Section Emission.
Import LimitModel.
Lemma coef_app v l r : PriceSpec.coef v (l ++ r) == PriceSpec.coef v l + PriceSpec.coef v r. Proof. apply total_app. Qed.
Lemma final_name lev s sel w : final_label lev s sel = Some w -> fst (fst w) = lev.
Proof.
  unfold final_label. assert (G : forall l acc, (forall w, acc = Some w -> fst (fst w) = lev) ->
    forall w, fold_left (fun acc t => match StorageModel.level lev s t with Some v => Some v | None => acc end) l acc = Some w -> fst (fst w) = lev).
  { induction l as [|t l IH]; intros acc H w' E; [exact (H w' E)|]. cbn [fold_left] in E. apply (IH _) in E; [exact E|]. clear E IH w'. intros w'. unfold StorageModel.level, StorageModel.var_of.
    destruct (StorageModel.s_active s t); [intros E; injection E as <-; reflexivity|apply H]. }
  intros E. apply (G sel None); [intros w'; discriminate|exact E].
Qed.
Lemma coef_sto v em lev l sel : fst (fst v) <> lev -> PriceSpec.coef v (sto_terms em lev l sel) == 0.
Proof.
  intros N. unfold PriceSpec.coef, sto_terms. rewrite total_map. apply total_zero. intros s _. cbn [fst snd]. destruct (final_label lev (st_of s) sel) as [w|] eqn:E; [|reflexivity].
  apply final_name in E. destruct (var_eqb v w) eqn:F; [|reflexivity]. apply var_eqb_eq in F. congruence.
Qed.
Lemma coef_gen ln em cf sel t g l1 l2 : gens ln = l1 ++ g :: l2 -> (forall g', In g' (l1 ++ l2) -> g_name g' <> g_name g) -> NoDup sel -> In t sel -> g_active g t = true ->
  PriceSpec.coef ("Generator-p", t, g_name g) (gen_terms ln em cf sel) == em_of em (g_carrier g) * cf g t.
Proof.
  intros E N ND I P. unfold PriceSpec.coef, gen_terms, my_gens. rewrite total_flat, total_filter, E, total_app. cbn [total fold_right].
  assert (Z : forall l, (forall g', In g' l -> In g' (l1 ++ l2)) ->
    total (fun a => if concerned em (g_carrier a) then
      total (fun cl => match snd cl with Some w => if var_eqb ("Generator-p", t, g_name g) w then fst cl else 0 | None => 0 end) (map (fun t0 => (em_of em (g_carrier a) * cf a t0, gen_var a t0)) sel) else 0) l == 0).
  { intros l S. apply total_zero. intros g' J. destruct (concerned em (g_carrier g')); [|reflexivity]. rewrite total_map. apply total_zero. intros t' _. cbn [fst snd]. unfold gen_var.
    destruct (g_active g' t'); [|reflexivity]. rewrite var_eqb_neq; [reflexivity|]. intros F. injection F. intros F' _. apply (N g'); [apply S; exact J|congruence]. }
  rewrite (Z l1) by (intros; apply in_or_app; auto).
  assert (Z2 := Z l2 ltac:(intros; apply in_or_app; auto)). unfold total in Z2 |- *. rewrite Z2. clear Z Z2.
  destruct (concerned em (g_carrier g)) eqn:C.
  - change (0 + (total (fun cl => match snd cl with Some w => if var_eqb ("Generator-p", t, g_name g) w then fst cl else 0 | None => 0 end) (map (fun t0 => (em_of em (g_carrier g) * cf g t0, gen_var g t0)) sel) + 0) == em_of em (g_carrier g) * cf g t).
    rewrite total_map, (total_ext _ (fun t' => if Nat.eqb t' t then em_of em (g_carrier g) * cf g t' else 0)).
    + clear E N. induction sel as [|s sel IH]; [destruct I|]. apply NoDup_cons_iff in ND. destruct ND as [N1 N2]. cbn [total fold_right]. destruct I as [->|I].
      * rewrite Nat.eqb_refl. assert (Z : total (fun t' => if Nat.eqb t' t then em_of em (g_carrier g) * cf g t' else 0) sel == 0).
        { apply total_zero. intros t' J. destruct (Nat.eqb_spec t' t) as [->|]; [contradiction|reflexivity]. }
        unfold total in Z. rewrite Z. ring.
      * destruct (Nat.eqb_spec s t) as [->|]; [contradiction|]. assert (IH' := IH N2 I). unfold total in IH'. rewrite <- IH'. ring.
    + intros t' _. cbn [fst snd]. unfold gen_var. destruct (Nat.eqb_spec t' t) as [->|NE].
      * rewrite P, var_eqb_refl. reflexivity.
      * destruct (g_active g t'); [|reflexivity]. rewrite var_eqb_neq; [reflexivity|]. intros F. injection F. congruence.
  - unfold em_of. unfold concerned in C. destruct (em (g_carrier g)); [discriminate|]. ring.
Qed.
Lemma lookup_emissions l c : NoDup (map fst l) ->
  match lookup (filter (fun e => negb (Qeq_bool (snd e) 0)) l) c with Some q => q | None => 0 end == match lookup l c with Some q => q | None => 0 end.
Proof.
  unfold lookup. induction l as [|[c' q] l IH]; intros N; [reflexivity|]. cbn [map fst] in N. apply NoDup_cons_iff in N. destruct N as [N1 N2]. cbn [filter find fst snd].
  destruct (Qeq_bool q 0) eqn:Z; cbn [negb].
  - destruct (String.eqb_spec c' c) as [->|NE]; [|apply IH; exact N2]. cbn [option_map snd]. apply Qeq_bool_iff in Z. rewrite Z.
    destruct (find (fun e => String.eqb (fst e) c) (filter (fun e => negb (Qeq_bool (snd e) 0)) l)) as [[c2 q2]|] eqn:F; [|reflexivity]. exfalso. apply N1.
    apply find_some in F. destruct F as [F1 F2]. cbn [fst] in F2. apply String.eqb_eq in F2. subst c2. apply filter_In in F1. destruct F1 as [F1 _]. apply in_map_iff. exists (c, q2). auto.
  - cbn [find fst]. destruct (String.eqb c' c); [reflexivity|apply IH; exact N2].
Qed.
Lemma emission_toll ln gl c y t g : primary_energy ln gl = Some c -> inv_period gl = None -> NoDup (map fst (carriers ln)) ->
  split_at (gens ln) g (fun g' => g_name g' <> g_name g) -> (t < nsnaps ln)%nat -> g_active g t = true ->
  toll [(c, y)] ("Generator-p", t, g_name g) == y * (match lookup (carriers ln) (g_carrier g) with Some q => q | None => 0 end * (weight ln t / g_eff g t)).
Proof.
  intros E IP ND (l1 & l2 & SG & N) L P. unfold primary_energy, selected in E. rewrite IP in E. destruct (LimitModel.nonempty (emissions ln)); [|discriminate].
  unfold limit_con in E. destruct (_ || _ || _); [|discriminate]. injection E as <-. unfold toll. cbn [total fold_right fst snd lhs].
  rewrite !coef_app, !coef_sto by (intros F; discriminate F). rewrite (coef_gen ln _ _ _ t g l1 l2 SG N (seq_NoDup _ _)); [|apply in_seq; lia|exact P].
  unfold em_of. rewrite <- (lookup_emissions (carriers ln) (g_carrier g) ND). unfold emissions. cbv beta. ring.
Qed.
End Emission.
