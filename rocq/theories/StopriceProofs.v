From Coq Require Import List String Bool QArith ZArith Arith Lqa Lia Setoid Permutation.
From Verif Require Import LinModel LinProofs BalanceModel BalanceSpec BalanceProofs PriceSpec PriceProofs StopriceSpec.
From Verif Require DispatchModel ObjectiveModel ObjectiveSpec ObjectiveProofs StorageModel StorageSpec StorageProofs.
Import ListNotations.
Open Scope string_scope.
Open Scope list_scope.
Open Scope Q_scope.

(* the multipliers belong to the constraints of the model *)
Lemma limit_fst T cls attr nattr kd a l : kd <> DispatchModel.Passive ->
  map fst (limit_y T cls attr nattr kd a l) =
  DispatchModel.non_extendables cls attr kd false T [a] ++ DispatchModel.extendables cls attr nattr kd false T [a] ++ DispatchModel.fixed_operation cls attr T [a].
Proof. intros N. unfold limit_y. rewrite !map_app, !map_fst_add. destruct kd; [contradiction| | | |]; reflexivity. Qed.
Lemma size_fst cls nattr a mu : map fst (size_y cls nattr a mu) = DispatchModel.nominal cls nattr [a] ++ DispatchModel.fixed_nominal cls nattr [a].
Proof. unfold size_y. rewrite !map_app, !map_fst_add. reflexivity. Qed.
Lemma energy_fst T periods lev s flows infl y : map fst (energy_y T periods lev s flows infl y) = StorageModel.energy_balance T periods lev s flows infl.
Proof. unfold energy_y. rewrite map_fst_add. reflexivity. Qed.
Lemma spill_iff T s d mu x : sat x (map fst (spill_y T s d mu)) <-> StorageModel.spill_bounds T s d x.
Proof.
  unfold spill_y, StorageModel.spill_bounds. rewrite map_app, !map_fst_add, sat_app, !sat_add. split.
  - intros [A B] t v L E. assert (I : In t (seq 0 T)) by (apply in_seq; lia).
    assert (A' := A t s I (or_introl eq_refl)). assert (B' := B t s I (or_introl eq_refl)). cbv beta in A', B'. rewrite E in A', B'.
    specialize (A' eq_refl). specialize (B' eq_refl). unfold holds in *. cbn [lhs sns rhs eval val] in *. split; lra.
  - intros H. split; intros t b I [<-|[]] M; apply in_seq in I; destruct (StorageModel.spill_label s d t) as [v|] eqn:E; try discriminate M;
      destruct (H t v ltac:(lia) E) as [H1 H2]; unfold holds; cbn [lhs sns rhs eval val]; lra.
Qed.
Lemma unit_fst T periods c d s a ser mu : map fst (device_y T periods (Unit c d) s a ser mu) =
  (DispatchModel.nominal "StorageUnit" "p_nom" [a] ++ DispatchModel.fixed_nominal "StorageUnit" "p_nom" [a]) ++
  (DispatchModel.non_extendables "StorageUnit" "p_dispatch" DispatchModel.Storage_dispatch false T [with_set a (set_out ser)] ++
   DispatchModel.extendables "StorageUnit" "p_dispatch" "p_nom" DispatchModel.Storage_dispatch false T [with_set a (set_out ser)] ++
   DispatchModel.fixed_operation "StorageUnit" "p_dispatch" T [with_set a (set_out ser)]) ++
  (DispatchModel.non_extendables "StorageUnit" "p_store" DispatchModel.Storage_store false T [with_set a (set_in ser)] ++
   DispatchModel.extendables "StorageUnit" "p_store" "p_nom" DispatchModel.Storage_store false T [with_set a (set_in ser)] ++
   DispatchModel.fixed_operation "StorageUnit" "p_store" T [with_set a (set_in ser)]) ++
  (DispatchModel.non_extendables "StorageUnit" "state_of_charge" DispatchModel.Storage_soc false T [with_set a (set_level ser)] ++
   DispatchModel.extendables "StorageUnit" "state_of_charge" "p_nom" DispatchModel.Storage_soc false T [with_set a (set_level ser)] ++
   DispatchModel.fixed_operation "StorageUnit" "state_of_charge" T [with_set a (set_level ser)]) ++
  StorageModel.unit_balance T periods s d ++ map fst (spill_y T s d mu).
Proof. unfold device_y. rewrite !map_app, size_fst, !limit_fst, energy_fst by discriminate. reflexivity. Qed.
Lemma store_fst T periods c h s a ser mu : map fst (device_y T periods (Sto c h) s a ser mu) =
  (DispatchModel.nominal "Store" "e_nom" [a] ++ DispatchModel.fixed_nominal "Store" "e_nom" [a]) ++
  (DispatchModel.non_extendables "Store" "e" DispatchModel.Other false T [with_set a (set_level ser)] ++
   DispatchModel.extendables "Store" "e" "e_nom" DispatchModel.Other false T [with_set a (set_level ser)] ++
   DispatchModel.fixed_operation "Store" "e" T [with_set a (set_level ser)]) ++
  StorageModel.store_balance T periods s h.
Proof. unfold device_y. rewrite !map_app, size_fst, !limit_fst, energy_fst by discriminate. reflexivity. Qed.

(* directions that move the variables of one device only *)
Section Device.
Variable k : device.
Definition supported (d : sol) : Prop := forall v t m, m <> dname k \/ ~ In v (names k) -> d (v, t, m) = 0.
Ltac foreign := destruct k; cbn [names In]; intuition discriminate.

Lemma device_net n losses d t b : placed n k -> supported d ->
  net_power n losses d t b == at_bus (c_bus (base k)) b (c_sign (base k) * (discharge d k t - charge d k t)).
Proof.
  intros [_ L] S. unfold net_power.
  assert (Zg : total (fun c => at_bus (c_bus c) b (gen_p d t c)) (gens n) == 0).
  { apply total_zero. intros c _. rewrite <- (at_bus_zero (c_bus c) b). apply at_bus_ext. unfold gen_p. rewrite value_zero; [ring|]. apply S. right. foreign. }
  assert (Zl : total (branch_at losses d t "Line-s" "Line-loss" b) (lines n) == 0).
  { apply total_zero. intros c _. unfold branch_at, flow. unfold at_bus.
    assert (E1 : value d (b_active c) "Line-s" (b_name c) t == 0) by (apply value_zero, S; right; foreign).
    assert (E2 : value d (b_active c) "Line-loss" (b_name c) t == 0) by (apply value_zero, S; right; foreign).
    destruct (String.eqb (b_bus0 c) b), (String.eqb (b_bus1 c) b), losses; rewrite ?E1, ?E2; ring. }
  assert (Zt : total (branch_at losses d t "Transformer-s" "Transformer-loss" b) (trafos n) == 0).
  { apply total_zero. intros c _. unfold branch_at, flow. unfold at_bus.
    assert (E1 : value d (b_active c) "Transformer-s" (b_name c) t == 0) by (apply value_zero, S; right; foreign).
    assert (E2 : value d (b_active c) "Transformer-loss" (b_name c) t == 0) by (apply value_zero, S; right; foreign).
    destruct (String.eqb (b_bus0 c) b), (String.eqb (b_bus1 c) b), losses; rewrite ?E1, ?E2; ring. }
  assert (Zk : total (fun l => total (fun pe => at_bus (fst pe) b (snd pe * link_p d t l)) (outputs t l) - at_bus (l_bus0 l) b (link_p d t l)) (links n) == 0).
  { apply total_zero. intros l I. unfold link_p. assert (E : value d (l_active l) "Link-p" (l_name l) t == 0) by (apply value_zero, S; right; foreign).
    rewrite (at_bus_ext _ _ _ _ E), at_bus_zero. rewrite total_zero; [ring|]. intros pe _. rewrite <- (at_bus_zero (fst pe) b). apply at_bus_ext. rewrite E. ring. }
  rewrite Zg, Zl, Zt, Zk. clear Zg Zl Zt Zk.
  assert (Zs : forall l, (forall c, In c l -> d ("Store-p", t, c_name c) = 0) -> total (fun c => at_bus (c_bus c) b (store_p d t c)) l == 0).
  { intros l H. apply total_zero. intros c I. rewrite <- (at_bus_zero (c_bus c) b). apply at_bus_ext. unfold store_p. rewrite value_zero; [ring|]. apply H, I. }
  assert (Zu : forall l, (forall c, In c l -> d ("StorageUnit-p_dispatch", t, c_name c) = 0 /\ d ("StorageUnit-p_store", t, c_name c) = 0) -> total (fun c => at_bus (c_bus c) b (unit_p d t c)) l == 0).
  { intros l H. apply total_zero. intros c I. rewrite <- (at_bus_zero (c_bus c) b). apply at_bus_ext. unfold unit_p. rewrite !value_zero; [ring| |]; apply H, I. }
  unfold supported in S. destruct L as (l1 & l2 & E & N).
  destruct k as [c ud|c h]; cbn [base dname] in *.
  - rewrite (Zs (stores n)) by (intros c' _; apply S; right; cbn [names In]; intuition discriminate).
    rewrite E, total_app. cbn [total fold_right].
    change (fold_right (fun a s => at_bus (c_bus a) b (unit_p d t a) + s) 0 l2) with (total (fun a => at_bus (c_bus a) b (unit_p d t a)) l2).
    rewrite (Zu l1), (Zu l2); [|intros c' I; split; apply S; left; apply N, in_or_app; auto|intros c' I; split; apply S; left; apply N, in_or_app; auto].
    unfold unit_p, discharge, charge, dactive, dname. cbn [base out_name]. ring.
  - rewrite (Zu (units n)) by (intros c' _; split; apply S; right; cbn [names In]; intuition discriminate).
    rewrite E, total_app. cbn [total fold_right].
    change (fold_right (fun a s => at_bus (c_bus a) b (store_p d t a) + s) 0 l2) with (total (fun a => at_bus (c_bus a) b (store_p d t a)) l2).
    rewrite (Zs l1), (Zs l2); [|intros c' I; apply S; left; apply N, in_or_app; auto|intros c' I; apply S; left; apply N, in_or_app; auto].
    unfold store_p, discharge, charge, dactive, dname. cbn [base out_name].
    rewrite (at_bus_ext (c_bus c) b (c_sign c * (value d (c_active c) "Store-p" (c_name c) t - 0)) (c_sign c * value d (c_active c) "Store-p" (c_name c) t)) by ring. ring.
Qed.
Lemma device_worth n losses d t price : placed n k -> supported d -> NoDup (buses n) ->
  total (fun b => price b t * net_power n losses d t b) (buses n) == local k price t * (discharge d k t - charge d k t).
Proof.
  intros L S N. rewrite (total_ext _ _ _ (fun b _ => Qmult_comp _ _ (Qeq_refl (price b t)) _ _ (device_net n losses d t b L S))).
  destruct L as [B _]. rewrite (sum_at_bus (fun b => price b t) (c_bus (base k))); [|exact N|exact B]. unfold local. ring.
Qed.

(* the objective *)
Section Obj.
Import ObjectiveModel ObjectiveSpec.
Variable on : ObjectiveModel.net.
Variable o : ObjectiveModel.asset.
Variable ps : list ObjectiveModel.piece.
Variable x : sol.
Hypothesis KN : known on.
Hypothesis CF : const_fixed on x.
Hypothesis PS : proper on a_start.
Hypothesis PD : proper on a_shut.
Hypothesis OB : objective on = Some ps.
Hypothesis VO : valued on o.
Hypothesis NM : a_name o = dname k.
Hypothesis CL : a_class o = dclass k.
Hypothesis ON : forall t, a_on o t = dactive k t.
Hypothesis NC : a_com o = false.
Hypothesis IN : match k with Unit _ d => forall t, a_inflow o t = StorageModel.inflow d t | Sto _ _ => True end.
Variable d : sol.
Hypothesis SD : supported d.

Lemma others_same_s y a : (y = plus x d \/ y = less x d) -> In a (assets on) -> (a_class a = a_class o -> a_name a <> a_name o) -> cost_of on y a == cost_of on x a.
Proof.
  intros Y I NE. rewrite NM, CL in NE.
  assert (Z : forall v t, (dclass k = a_class a \/ ~ In v (names k)) -> d (v, t, a_name a) = 0).
  { intros v t [E|E]; apply SD; [left; apply NE; symmetry; exact E|right; exact E]. }
  assert (A : forall v t, (dclass k = a_class a \/ ~ In v (names k)) -> at_ y a v t == at_ x a v t) by (intros v t H; apply (at_same x d); [exact Y|apply Z; exact H]).
  unfold cost_of. apply Qplus_comp.
  - apply Qmult_comp; [reflexivity|]. apply Qplus_comp; [|reflexivity]. unfold capacity. destruct (a_ext a); [|reflexivity].
    assert (V : forall v, (dclass k = a_class a \/ ~ In v (names k)) -> y (v, O, a_name a) == x (v, O, a_name a)).
    { intros v H. destruct Y as [-> | ->]; unfold plus, less; rewrite (Z v O H); ring. }
    assert (IC := KN a I). unfold is in *. cbn [existsb] in *. rewrite !orb_false_r in *.
    repeat (match goal with |- context [String.eqb (a_class a) ?v] => destruct (String.eqb_spec (a_class a) v) as [E|?] end); apply V; destruct k; cbn [dclass names] in *;
      try (left; congruence); try (right; cbn [In]; intuition discriminate).
    apply String.eqb_eq in IC. left. congruence.
  - apply total_ext. intros t _.
    assert (D1 : dispatch y a t == dispatch x a t).
    { unfold dispatch, is. cbn [existsb]. rewrite !orb_false_r.
      repeat (match goal with |- context [String.eqb (a_class a) ?v] => destruct (String.eqb_spec (a_class a) v) as [E|?] end); try reflexivity; apply A; destruct k; cbn [dclass names] in *;
      try (left; congruence); right; cbn [In]; intuition discriminate. }
    assert (D2 : stored y a t == stored x a t).
    { unfold stored, is. cbn [existsb]. rewrite !orb_false_r.
      repeat (match goal with |- context [String.eqb (a_class a) ?v] => destruct (String.eqb_spec (a_class a) v) as [E|?] end); try reflexivity; apply A; destruct k; cbn [dclass names] in *;
      try (left; congruence); right; cbn [In]; intuition discriminate. }
    assert (D3 : ObjectiveSpec.spilled y a t == ObjectiveSpec.spilled x a t).
    { unfold ObjectiveSpec.spilled, is. cbn [existsb]. rewrite orb_false_r. destruct (String.eqb_spec (a_class a) "StorageUnit") as [E|?]; cbn [andb]; [|reflexivity].
      destruct (positive (a_inflow a t)); [|reflexivity]. apply A. destruct k; cbn [dclass names] in *; [left; congruence|right; cbn [In]; intuition discriminate]. }
    assert (D4 : forall w, w = "status" \/ w = "start_up" \/ w = "shut_down" -> unit_value y w a t == unit_value x w a t).
    { intros w W. unfold unit_value. destruct (a_com a); [|reflexivity]. destruct (is a ["Generator"]); [|destruct (is a ["Link"]); [|reflexivity]]; apply A; right;
      destruct W as [-> |[-> | ->]]; foreign. }
    unfold running, starts. rewrite D1, D2, D3, !D4 by auto. reflexivity.
Qed.
Lemma const_same_s y : (y = plus x d \/ y = less x d) -> const_fixed on y.
Proof.
  intros Y H. specialize (CF H). unfold const_label in *. cbn [val] in *. rewrite <- CF.
  assert (Z : d ("objective_constant", O, "") = 0) by (apply SD; right; foreign).
  destruct Y as [-> | ->]; unfold plus, less; rewrite Z; ring.
Qed.
Lemma own_cost_s y : cost_of on y o == annual on o * ((if a_ext o then y (nom_name k, O, dname k) else a_nom o) - a_nom o) +
  BalanceSpec.total (fun t => weighting on t * (a_marginal o t * discharge y k t + a_quadratic o t * (discharge y k t * discharge y k t) + a_storage o t * energy y k t + a_spill o t * StopriceSpec.spilled y k t)) (days on).
Proof.
  unfold cost_of. apply Qplus_comp.
  - apply Qmult_comp; [reflexivity|]. apply Qplus_comp; [|reflexivity]. unfold capacity, is. rewrite CL, NM. destruct k; destruct (a_ext o); reflexivity.
  - apply total_ext. intros t _. unfold running, starts, unit_value, dispatch, stored, ObjectiveSpec.spilled, is, at_, positive. rewrite NC, CL, NM, ON. unfold discharge, energy, StopriceSpec.spilled, value.
    destruct k as [c ud|c h]; cbn [dclass existsb String.eqb Ascii.eqb Bool.eqb orb andb out_name level_name].
    + rewrite IN. destruct (Qle_bool (StorageModel.inflow ud t) 0); cbn [negb]; ring.
    + ring.
Qed.
Lemma discharge_plus u v t : discharge (plus u v) k t == discharge u k t + discharge v k t.
Proof. unfold discharge, value, plus. destruct (dactive k t); ring. Qed.
Lemma discharge_less u v t : discharge (less u v) k t == discharge u k t - discharge v k t.
Proof. unfold discharge, value, less. destruct (dactive k t); ring. Qed.
Lemma energy_plus u v t : energy (plus u v) k t == energy u k t + energy v k t.
Proof. unfold energy, value, plus. destruct (dactive k t); ring. Qed.
Lemma energy_less u v t : energy (less u v) k t == energy u k t - energy v k t.
Proof. unfold energy, value, less. destruct (dactive k t); ring. Qed.
Lemma spilled_plus u v t : StopriceSpec.spilled (plus u v) k t == StopriceSpec.spilled u k t + StopriceSpec.spilled v k t.
Proof. unfold StopriceSpec.spilled, value, plus. destruct k as [c ud|c h]; [|ring]. destruct (Qle_bool (StorageModel.inflow ud t) 0), (dactive (Unit c ud) t); ring. Qed.
Lemma spilled_less u v t : StopriceSpec.spilled (less u v) k t == StopriceSpec.spilled u k t - StopriceSpec.spilled v k t.
Proof. unfold StopriceSpec.spilled, value, less. destruct k as [c ud|c h]; [|ring]. destruct (Qle_bool (StorageModel.inflow ud t) 0), (dactive (Unit c ud) t); ring. Qed.

Lemma device_slope : slope x d ps == (if a_ext o then yearly on o * d (nom_name k, O, dname k) else 0) +
  BalanceSpec.total (fun t => weight on t * (cost_out o k x t * discharge d k t + a_storage o t * energy d k t + a_spill o t * StopriceSpec.spilled d k t)) (days on).
Proof.
  change (slope x d ps == (if a_ext o then annual on o * d (nom_name k, O, dname k) else 0) +
    BalanceSpec.total (fun t => weighting on t * (cost_out o k x t * discharge d k t + a_storage o t * energy d k t + a_spill o t * StopriceSpec.spilled d k t)) (days on)).
  assert (D := slope_diff x d ps). rewrite !(value_assets on ps KN PS PD OB) in D by (apply const_same_s; auto).
  destruct VO as (l1 & l2 & E & NE). rewrite E, !total_app in D. cbn [BalanceSpec.total fold_right] in D.
  change (fold_right (fun a s => cost_of on (plus x d) a + s) 0 l2) with (BalanceSpec.total (cost_of on (plus x d)) l2) in D.
  change (fold_right (fun a s => cost_of on (less x d) a + s) 0 l2) with (BalanceSpec.total (cost_of on (less x d)) l2) in D.
  assert (SM : forall y l, (y = plus x d \/ y = less x d) -> (forall a, In a l -> In a (l1 ++ l2)) -> BalanceSpec.total (cost_of on y) l == BalanceSpec.total (cost_of on x) l).
  { intros y l Y S. apply total_ext. intros a I. apply others_same_s; [exact Y| |].
    - rewrite E. assert (J := S a I). apply in_app_or in J. apply in_or_app. destruct J; [left|right; right]; assumption.
    - intros C. apply NE; [apply S; exact I|exact C]. }
  rewrite (SM (plus x d) l1), (SM (plus x d) l2), (SM (less x d) l1), (SM (less x d) l2) in D by (auto; intros a I; apply in_or_app; auto).
  rewrite !own_cost_s in D.
  set (A := BalanceSpec.total (cost_of on x) l1) in *. set (B := BalanceSpec.total (cost_of on x) l2) in *. clearbody A B.
  set (W := weighting on) in *.
  assert (T : BalanceSpec.total (fun t => W t * (a_marginal o t * discharge (plus x d) k t + a_quadratic o t * (discharge (plus x d) k t * discharge (plus x d) k t) + a_storage o t * energy (plus x d) k t + a_spill o t * StopriceSpec.spilled (plus x d) k t)) (days on) ==
     BalanceSpec.total (fun t => W t * (a_marginal o t * discharge (less x d) k t + a_quadratic o t * (discharge (less x d) k t * discharge (less x d) k t) + a_storage o t * energy (less x d) k t + a_spill o t * StopriceSpec.spilled (less x d) k t)) (days on) +
     2 * BalanceSpec.total (fun t => W t * (cost_out o k x t * discharge d k t + a_storage o t * energy d k t + a_spill o t * StopriceSpec.spilled d k t)) (days on)).
  { rewrite <- total_scale, <- total_plus. apply total_ext. intros t _. rewrite discharge_plus, discharge_less, energy_plus, energy_less, spilled_plus, spilled_less. unfold cost_out. ring. }
  rewrite T in D. clear T.
  assert (F : forall p q : Q, 2 * p == 2 * q -> q == p) by (intros p q H; lra).
  apply F. rewrite <- D. unfold plus, less. destruct (a_ext o); ring.
Qed.
End Obj.

(* constraints of others *)
Lemma toll_unrelated rest v t : In v (names k) -> (forall c y, In (c, y) rest -> unrelated k c) -> toll rest (v, t, dname k) == 0.
Proof.
  intros V A. apply total_zero. intros [c y] I. cbn [fst snd]. assert (Z : coef (v, t, dname k) (lhs c) == 0); [|rewrite Z; ring].
  apply total_zero. intros [q [w|]] J; cbn [fst snd]; [|reflexivity]. destruct (var_eqb (v, t, dname k) w) eqn:E; [|reflexivity].
  apply var_eqb_eq in E. subst w. destruct (A c y I q _ J) as [H|H]; cbn [fst snd] in *; exfalso; [congruence|exact (H V)].
Qed.
End Device.

(* sums over the constraints of one array, and what they say at a solution *)
Definition given (f : nat -> option Q) (q : nat -> Q) (t : nat) : Q := match f t with Some _ => q t | None => 0 end.
Definition pull (e : bool) (l : limit) (f : nat -> option Q) (lo hi : Q) (t : nat) (v N : Q) : Q :=
  (l_low l t + l_high l t + given f (l_set l) t) * v - (if e then (lo * l_low l t + hi * l_high l t) * N else 0).
Definition bound (l : limit) (f : nat -> option Q) (lo hi : Q) (t : nat) (v : Q) : Prop :=
  (0 <= l_low l t /\ l_low l t * (v - lo) == 0 /\ lo <= v) /\ (l_high l t <= 0 /\ l_high l t * (v - hi) == 0 /\ v <= hi) /\ (forall u, f t = Some u -> v == u).
Definition met (x : sol) (cy : duals) : Prop := forall c y, In (c, y) cy -> signed c y /\ y * (eval x (lhs c) - rhs c) == 0 /\ holds x c.
Lemma met_app x l r : met x (l ++ r) <-> met x l /\ met x r.
Proof. unfold met. split; [intros H; split; intros c y I; apply H, in_or_app; auto|]. intros [H1 H2] c y I. apply in_app_or in I. destruct I; auto. Qed.
Lemma met_add {A} x ts (comps : list A) mask f y : met x (add_duals ts comps mask f y) <->
  forall t a, In t ts -> In a comps -> mask t a = true -> signed (f t a) (y t a) /\ y t a * (eval x (lhs (f t a)) - rhs (f t a)) == 0 /\ holds x (f t a).
Proof.
  unfold met, add_duals. split.
  - intros H t a It Ia M. apply H. apply in_flat_map. exists t. split; auto. apply in_flat_map. exists a. split; auto. rewrite M. left. reflexivity.
  - intros H c y' I. apply in_flat_map in I. destruct I as [t [It I]]. apply in_flat_map in I. destruct I as [a [Ia I]].
    destruct (mask t a) eqn:M; [|destruct I]. destruct I as [I|[]]. injection I as <- <-. auto.
Qed.

Section Arrays.
Import DispatchModel.
Variable T : nat.
Lemma limit_sum cls attr nattr kd a l d : com a = false ->
  BalanceSpec.total (weigh d) (limit_y T cls attr nattr kd a l) ==
  BalanceSpec.total (fun t => if active a t then
    pull (ext a) l (fix_set a) (fst (bounds_pu kd a t)) (snd (bounds_pu kd a t)) t (d (vname cls attr, t, name a)) (d (vname cls nattr, O, name a)) else 0) (seq 0 T).
Proof.
  intros CO. unfold limit_y, fixed_assets, ext_assets, snaps. cbn [filter]. rewrite CO. destruct (ext a) eqn:E; cbn [negb andb]; rewrite !total_app, ?total_add_nil, ?total_add_one.
  - transitivity (BalanceSpec.total (fun t => (if active a t then weigh d (mk [(1, op cls attr a t); (- fst (bounds_pu kd a t), cap cls nattr a)] Ge 0, l_low l t) else 0) +
      (if active a t then weigh d (mk [(1, op cls attr a t); (- snd (bounds_pu kd a t), cap cls nattr a)] Le 0, l_high l t) else 0) +
      (if match fix_set a t with None => false | _ => active a t end then weigh d (mk [(1, op cls attr a t)] Eq (match fix_set a t with Some u => u | None => 0 end), l_set l t) else 0)) (seq 0 T)).
    + rewrite !total_plus. ring.
    + apply total_ext. intros t _. unfold weigh, op, cap, pull, given. cbn [fst snd lhs mk eval]. destruct (active a t); [|destruct (fix_set a t); reflexivity].
      cbn [val]. destruct (fix_set a t); ring.
  - transitivity (BalanceSpec.total (fun t => (if active a t then weigh d (mk [(1, op cls attr a t)] Ge (fst (bounds_pu kd a t) * nom a), l_low l t) else 0) +
      (if active a t then weigh d (mk [(1, op cls attr a t)] Le (snd (bounds_pu kd a t) * nom a), l_high l t) else 0) +
      (if match fix_set a t with None => false | _ => active a t end then weigh d (mk [(1, op cls attr a t)] Eq (match fix_set a t with Some u => u | None => 0 end), l_set l t) else 0)) (seq 0 T)).
    + rewrite !total_plus. ring.
    + apply total_ext. intros t _. unfold weigh, op, pull, given. cbn [fst snd lhs mk eval]. destruct (active a t); [|destruct (fix_set a t); reflexivity].
      cbn [val]. destruct (fix_set a t); ring.
Qed.
Lemma limit_in cls attr nattr kd a l x t : com a = false -> met x (limit_y T cls attr nattr kd a l) -> (t < T)%nat -> active a t = true ->
  let c := if ext a then x (vname cls nattr, O, name a) else nom a in
  bound l (fix_set a) (fst (bounds_pu kd a t) * c) (snd (bounds_pu kd a t) * c) t (x (vname cls attr, t, name a)).
Proof.
  intros CO M L A. assert (I : In t (seq 0 T)) by (apply in_seq; lia). unfold limit_y, fixed_assets, ext_assets, snaps in M. cbn [filter] in M. rewrite CO in M.
  rewrite !met_app, !met_add in M. destruct M as ((F1 & F2) & (E1 & E2) & S1). cbv zeta. unfold bound.
  assert (SS : forall u, fix_set a t = Some u -> x (vname cls attr, t, name a) == u).
  { intros u U. assert (G := S1 t a I (or_introl eq_refl)). cbv beta in G. rewrite U in G. destruct (G A) as (_ & _ & H). unfold holds, mk, op in H. cbn [lhs sns rhs eval] in H. rewrite A in H. cbn [val] in H. lra. }
  destruct (ext a); cbn [negb andb] in *.
  - destruct (E1 t a I (or_introl eq_refl) A) as (G1 & G2 & G3). destruct (E2 t a I (or_introl eq_refl) A) as (H1 & H2 & H3).
    unfold signed, holds, mk, op, cap in *. cbn [lhs sns rhs eval] in *. rewrite A in *. cbn [val] in *.
    split; [split; [exact G1|split; [rewrite <- G2; ring|lra]]|]. split; [split; [exact H1|split; [rewrite <- H2; ring|lra]]|exact SS].
  - destruct (F1 t a I (or_introl eq_refl) A) as (G1 & G2 & G3). destruct (F2 t a I (or_introl eq_refl) A) as (H1 & H2 & H3).
    unfold signed, holds, mk, op, cap in *. cbn [lhs sns rhs eval] in *. rewrite A in *. cbn [val] in *.
    split; [split; [exact G1|split; [rewrite <- G2; ring|lra]]|]. split; [split; [exact H1|split; [rewrite <- H2; ring|lra]]|exact SS].
Qed.
Definition size_mult (a : asset) (mu : sduals) : Q :=
  of_nom_low mu + (match nom_max a with Some _ => of_nom_high mu | None => 0 end) + (match nom_set a with Some _ => of_nom_set mu | None => 0 end).
Lemma size_sum cls nattr a mu d : BalanceSpec.total (weigh d) (size_y cls nattr a mu) == if ext a then size_mult a mu * d (vname cls nattr, O, name a) else 0.
Proof.
  unfold size_y, ext_assets. cbn [filter]. destruct (ext a); rewrite !total_app, ?total_add_nil, ?total_add_one; [|ring].
  rewrite !total_one. unfold weigh, cap, size_mult. cbn [fst snd lhs mk eval val]. destruct (nom_max a), (nom_set a); ring.
Qed.
Lemma size_in cls nattr a mu x : met x (size_y cls nattr a mu) -> ext a = true -> let c := x (vname cls nattr, O, name a) in
  (0 <= of_nom_low mu /\ of_nom_low mu * (c - nom_min a) == 0 /\ nom_min a <= c) /\
  (forall u, nom_max a = Some u -> of_nom_high mu <= 0 /\ of_nom_high mu * (c - u) == 0 /\ c <= u) /\ (forall u, nom_set a = Some u -> c == u).
Proof.
  intros M E. unfold size_y, ext_assets in M. cbn [filter] in M. rewrite E in M. rewrite !met_app, !met_add in M. destruct M as ((M1 & M2) & M3). cbv zeta. split; [|split].
  - destruct (M1 O a (or_introl eq_refl) (or_introl eq_refl) eq_refl) as (G1 & G2 & G3). unfold signed, holds, mk, cap in *. cbn [lhs sns rhs eval val] in *.
    split; [exact G1|]. split; [rewrite <- G2; ring|lra].
  - intros u U. assert (G := M2 O a (or_introl eq_refl) (or_introl eq_refl)). cbv beta in G. rewrite U in G. destruct (G eq_refl) as (G1 & G2 & G3).
    unfold signed, holds, mk, cap in *. cbn [lhs sns rhs eval val] in *. split; [exact G1|]. split; [rewrite <- G2; ring|lra].
  - intros u U. assert (G := M3 O a (or_introl eq_refl) (or_introl eq_refl)). cbv beta in G. rewrite U in G. destruct (G eq_refl) as (_ & _ & G3).
    unfold holds, mk, cap in *. cbn [lhs sns rhs eval val] in *. lra.
Qed.
End Arrays.

Section EnergyRows.
Import StorageModel.
Variables (T : nat) (periods : option (nat -> Z)).
Lemma energy_sum lev s flows infl y d : BalanceSpec.total (weigh d) (energy_y T periods lev s flows infl y) ==
  BalanceSpec.total (fun t => if s_active s t then y t * (- val d (level lev s t) + eval d (flows t) + s_stand s t * val d (prev_label T periods lev s t)) else 0) (seq 0 T).
Proof.
  unfold energy_y. rewrite total_add_one. apply total_ext. intros t _. destruct (s_active s t); [|reflexivity]. unfold weigh. cbn [fst snd lhs eval].
  rewrite StorageProofs.eval_app. cbn [eval]. ring.
Qed.
Lemma energy_in lev s flows infl y x t : met x (energy_y T periods lev s flows infl y) -> (t < T)%nat -> s_active s t = true ->
  - val x (level lev s t) + eval x (flows t) + s_stand s t * val x (prev_label T periods lev s t) == - infl t - (if included periods s t then 0 else s_init s).
Proof.
  intros M L A. unfold energy_y in M. rewrite met_add in M. assert (I : In t (seq 0 T)) by (apply in_seq; lia).
  destruct (M t s I (or_introl eq_refl) A) as (_ & _ & H). unfold holds in H. cbn [lhs sns rhs eval] in H. rewrite StorageProofs.eval_app in H. cbn [eval] in H. rewrite <- H. ring.
Qed.
Lemma spill_sum s d mu e : BalanceSpec.total (weigh e) (spill_y T s d mu) ==
  BalanceSpec.total (fun t => (of_spill_low mu t + of_spill_high mu t) * val e (spill_label s d t)) (seq 0 T).
Proof.
  unfold spill_y. rewrite total_app, !total_add_one, <- total_plus. apply total_ext. intros t _. unfold weigh. destruct (spill_label s d t) as [v|]; cbn [fst snd lhs eval val]; ring.
Qed.
Lemma spill_in s d mu x t v : met x (spill_y T s d mu) -> (t < T)%nat -> spill_label s d t = Some v ->
  (0 <= of_spill_low mu t /\ of_spill_low mu t * x v == 0 /\ 0 <= x v) /\ (of_spill_high mu t <= 0 /\ of_spill_high mu t * (x v - inflow d t) == 0 /\ x v <= inflow d t).
Proof.
  intros M L E. unfold spill_y in M. rewrite met_app, !met_add in M. destruct M as [M1 M2]. assert (I : In t (seq 0 T)) by (apply in_seq; lia).
  assert (G := M1 t s I (or_introl eq_refl)). assert (H := M2 t s I (or_introl eq_refl)). cbv beta in G, H. rewrite E in G, H. specialize (G eq_refl). specialize (H eq_refl).
  unfold signed, holds in *. cbn [lhs sns rhs eval val] in *. destruct G as (G1 & G2 & G3). destruct H as (H1 & H2 & H3).
  split; [split; [exact G1|split; [rewrite <- G2; ring|lra]]|split; [exact H1|split; [rewrite <- H2; ring|lra]]].
Qed.
End EnergyRows.

Section Market.
Variables (n : net) (losses : bool) (T : nat) (cols : list string) (thr : nat) (on : ObjectiveModel.net) (o : ObjectiveModel.asset) (ps : list ObjectiveModel.piece).
Variables (periods : option (nat -> Z)) (k : device) (s : StorageModel.storage) (a : DispatchModel.asset) (ser : series) (x : sol) (price : string -> nat -> Q) (mu : sduals) (rest : duals).
Hypothesis M : storage_market n losses T cols thr on o ps periods k s a ser x price mu rest.
Notation W := (weight on).
Notation nm := (dname k).
Notation act := (dactive k).
Notation y := (of_energy mu).
Notation prev := (StorageModel.prev_label T periods (level_name k) s).

Lemma met_own : met x (device_y T periods k s a ser mu).
Proof.
  intros c q I. destruct (sm_kkt _ _ _ _ _ _ _ _ _ _ _ _ _ _ _ _ _ M) as (F & SG & CS & _).
  assert (J : In (c, q) (nodal_y n losses T cols thr (fun t b => W t * price b t) ++ device_y T periods k s a ser mu ++ rest)) by (apply in_or_app; right; apply in_or_app; left; exact I).
  split; [exact (SG _ _ J)|]. split; [exact (CS _ _ J)|]. apply F. apply in_map_iff. exists (c, q). split; [reflexivity|exact J].
Qed.
Lemma mesh_s b : In b (meshed cols thr) -> In b (buses n).
Proof. apply mesh_ok. apply (sm_mesh _ _ _ _ _ _ _ _ _ _ _ _ _ _ _ _ _ M). Qed.

Lemma station_s d : supported k d ->
  (if DispatchModel.ext a then yearly on o * d (nom_name k, O, nm) else 0) +
  total (fun t => W t * (cost_out o k x t * discharge d k t + ObjectiveModel.a_storage o t * energy d k t + ObjectiveModel.a_spill o t * spilled d k t)) (seq 0 T) ==
  total (fun t => W t * (local k price t * (discharge d k t - charge d k t))) (seq 0 T) + total (weigh d) (device_y T periods k s a ser mu) + total (weigh d) rest.
Proof.
  intros S. assert (H := sm_kkt _ _ _ _ _ _ _ _ _ _ _ _ _ _ _ _ _ M). destruct H as (_ & _ & _ & ST). specialize (ST d).
  destruct (sm_same _ _ _ _ _ _ _ _ _ _ _ _ _ _ _ _ _ M) as (NA & NO & NS & CL & AA & OA & SA & EX & CO & CA & IN).
  rewrite (device_slope k on o ps x) in ST; try (apply M || assumption).
  unfold ObjectiveSpec.days in ST. rewrite EX, (sm_snaps _ _ _ _ _ _ _ _ _ _ _ _ _ _ _ _ _ M) in ST. rewrite ST. clear ST.
  change (fun cy : con * Q => snd cy * eval d (lhs (fst cy))) with (weigh d). rewrite !total_app, nodal_sum; [|apply M|apply mesh_s].
  rewrite (total_ext (fun t => total (fun b => W t * price b t * net_power n losses d t b) (buses n)) (fun t => W t * (local k price t * (discharge d k t - charge d k t)))); [ring|].
  intros t _. rewrite <- (device_worth k n losses d t price); [|apply M|exact S|apply M]. rewrite <- total_scale. apply total_ext. intros b _. ring.
Qed.

(* the sum over the device's own constraints *)
Definition pulls (d : sol) (t : nat) : Q :=
  let N := d (nom_name k, O, nm) in
  match k with
  | Unit _ _ => pull (DispatchModel.ext a) (of_out mu) (set_out ser) 0 (DispatchModel.max_pu a t) t (discharge d k t) N +
                pull (DispatchModel.ext a) (of_in mu) (set_in ser) 0 (- DispatchModel.min_pu a t) t (charge d k t) N
  | Sto _ _ => 0
  end + pull (DispatchModel.ext a) (of_level mu) (set_level ser) (low_level k a t) (high_level k a t) t (energy d k t) N.
Definition row (d : sol) (t : nat) : Q :=
  - energy d k t - drawn k t * discharge d k t + gained k t * charge d k t - hours_of k t * spilled d k t + StorageModel.s_stand s t * val d (prev t).
Lemma device_sum d : total (weigh d) (device_y T periods k s a ser mu) ==
  (if DispatchModel.ext a then size_mult a mu * d (nom_name k, O, nm) else 0) +
  total (fun t => if act t then pulls d t + y t * row d t + (of_spill_low mu t + of_spill_high mu t) * spilled d k t else 0) (seq 0 T).
Proof.
  destruct (sm_same _ _ _ _ _ _ _ _ _ _ _ _ _ _ _ _ _ M) as (NA & NO & NS & CL & AA & OA & SA & EX & CO & CA & IN).
  unfold device_y, pulls, row, drawn, gained, hours_of, low_level, high_level. destruct k as [c ud|c h] eqn:K.
  - rewrite !total_app, size_sum, !limit_sum by exact CA. rewrite energy_sum, spill_sum.
    unfold DispatchModel.vname. cbn [append level_name nom_name]. cbn [with_set DispatchModel.active DispatchModel.ext DispatchModel.fix_set DispatchModel.name DispatchModel.bounds_pu DispatchModel.max_pu DispatchModel.min_pu DispatchModel.max_hours fst snd].
    rewrite NA. rewrite <- !total_plus.
    apply Qplus_comp; [reflexivity|]. apply total_ext. intros t _. rewrite AA, SA.
    unfold discharge, charge, energy, spilled, value. cbn [out_name level_name].
    unfold StorageModel.unit_flows, StorageModel.spill_label, StorageModel.level, StorageModel.var_of. cbn [eval]. rewrite SA, NS.
    fold (dname (Unit c ud)). fold (dactive (Unit c ud)).
    destruct (dactive (Unit c ud) t); cbn [val]; [|destruct (negb (Qle_bool (StorageModel.inflow ud t) 0)); cbn [val]; ring].
    destruct (Qle_bool (StorageModel.inflow ud t) 0); cbn [negb val]; unfold Qdiv; ring.
  - rewrite !total_app, size_sum, !limit_sum by exact CA. rewrite energy_sum.
    unfold DispatchModel.vname. cbn [append level_name nom_name]. cbn [with_set DispatchModel.active DispatchModel.ext DispatchModel.fix_set DispatchModel.name DispatchModel.bounds_pu DispatchModel.max_pu DispatchModel.min_pu DispatchModel.max_hours fst snd].
    rewrite NA. rewrite <- !(total_plus _ _ (seq 0 T)).
    apply Qplus_comp; [reflexivity|]. apply total_ext. intros t _. rewrite AA, SA.
    unfold discharge, charge, energy, spilled, value. cbn [out_name level_name].
    unfold StorageModel.level, StorageModel.var_of. cbn [eval]. rewrite SA, NS.
    destruct (dactive (Sto c h) t); cbn [val]; ring.
Qed.

(* moving one variable *)
Lemma unit_sup v t : In v (names k) -> supported k (unit (v, t, nm)).
Proof.
  intros V v' t' m H. unfold unit. rewrite var_eqb_neq; [reflexivity|]. intros E. injection E. intros <- _ <-. destruct H as [H|H]; [apply H; reflexivity|exact (H V)].
Qed.
Lemma value_unit v v' t0 t : act t0 = true -> value (unit (v, t0, nm)) act v' nm t == if String.eqb v v' && Nat.eqb t t0 then 1 else 0.
Proof.
  intros P. unfold value, unit, var_eqb. cbn [fst snd]. rewrite String.eqb_refl, andb_true_r, (Nat.eqb_sym t0 t).
  destruct (Nat.eqb_spec t t0) as [->|]; [rewrite P|rewrite !andb_false_r; destruct (act t)]; reflexivity.
Qed.
Lemma unit_nom v t0 : v <> nom_name k -> unit (v, t0, nm) (nom_name k, O, nm) = 0.
Proof. intros N. unfold unit. rewrite var_eqb_neq; [reflexivity|]. intros E. injection E. intros. congruence. Qed.
Lemma ffill_some f t w : StorageModel.ffill f t = Some w -> exists t', f t' = Some w.
Proof. induction t as [|t IH]; cbn [StorageModel.ffill]; [destruct (f O) eqn:E; [intros <-; eauto|discriminate]|]. destruct (f (S t)) eqn:E; [intros <-; eauto|exact IH]. Qed.
Lemma prev_some t w : prev t = Some w -> exists t', w = (level_name k, t', nm) /\ act t' = true.
Proof.
  destruct (sm_same _ _ _ _ _ _ _ _ _ _ _ _ _ _ _ _ _ M) as (_ & _ & NS & _ & _ & _ & SA & _).
  assert (L : forall t' w, StorageModel.level (level_name k) s t' = Some w -> exists t', w = (level_name k, t', nm) /\ act t' = true).
  { intros t' w' H. unfold StorageModel.level, StorageModel.var_of in H. destruct (StorageModel.s_active s t') eqn:A; [|discriminate H]. injection H as <-. exists t'. rewrite NS, <- SA. auto. }
  assert (P : StorageModel.previous T (level_name k) s t = Some w -> exists t', w = (level_name k, t', nm) /\ act t' = true).
  { unfold StorageModel.previous, StorageModel.where_ at 1. destruct (StorageModel.include_previous s t); [|discriminate]. intros H. apply ffill_some in H. destruct H as (t1 & H).
    assert (H2 : exists t2, StorageModel.ffill (StorageModel.where_ (StorageModel.level (level_name k) s) (StorageModel.s_active s)) t2 = Some w) by (unfold StorageModel.roll in H; destruct t1; eauto).
    destruct H2 as (t2 & H2). apply ffill_some in H2. destruct H2 as (t3 & H3). unfold StorageModel.where_ in H3. destruct (StorageModel.s_active s t3); [|discriminate]. exact (L t3 w H3). }
  unfold StorageModel.prev_label. destruct periods as [per|]; [|exact P]. destruct (StorageModel.per_period s); [|exact P].
  unfold StorageModel.previous_pp. destruct (StorageModel.include_pp s per t); [|discriminate]. apply L.
Qed.
Lemma prev_unit v t0 t : v <> level_name k -> val (unit (v, t0, nm)) (prev t) = 0.
Proof.
  intros N. destruct (prev t) as [w|] eqn:E; [|reflexivity]. apply prev_some in E. destruct E as (t' & -> & _). cbn [val]. unfold unit. rewrite var_eqb_neq; [reflexivity|].
  intros F. injection F. intros. congruence.
Qed.
Lemma names_out : In (out_name k) (names k) /\ In (level_name k) (names k) /\ In (nom_name k) (names k).
Proof. destruct k; cbn [out_name level_name nom_name names In]; auto 10. Qed.
Lemma total_at f t0 : (t0 < T)%nat -> total (fun t => if Nat.eqb t t0 then f t else 0) (seq 0 T) == f t0.
Proof. apply total_seq_at. Qed.

Definition out_mult (t : nat) : Q := match k with Unit _ _ => l_low (of_out mu) t + l_high (of_out mu) t + given (set_out ser) (l_set (of_out mu)) t | Sto _ _ => 0 end.
Definition in_mult (t : nat) : Q := l_low (of_in mu) t + l_high (of_in mu) t + given (set_in ser) (l_set (of_in mu)) t.
Definition level_mult (t : nat) : Q := l_low (of_level mu) t + l_high (of_level mu) t + given (set_level ser) (l_set (of_level mu)) t.

Section Move.
Variables (v : string) (t0 : nat).
Hypothesis V : In v (names k).
Hypothesis L : (t0 < T)%nat.
Hypothesis P : act t0 = true.
Hypothesis NN : v <> nom_name k.
Notation e := (unit (v, t0, nm)).
Notation isv w := (if String.eqb v w then 1 else 0).
Notation here q t := (if Nat.eqb t t0 then q else 0).
Lemma m_out t : discharge e k t == here (isv (out_name k)) t.
Proof. unfold discharge. rewrite (value_unit v (out_name k) t0 t P). destruct (String.eqb v (out_name k)), (Nat.eqb t t0); reflexivity. Qed.
Lemma m_level t : energy e k t == here (isv (level_name k)) t.
Proof. unfold energy. rewrite (value_unit v (level_name k) t0 t P). destruct (String.eqb v (level_name k)), (Nat.eqb t t0); reflexivity. Qed.
Lemma m_in t : charge e k t == here (match k with Unit _ _ => isv "StorageUnit-p_store" | Sto _ _ => 0 end) t.
Proof.
  unfold charge. assert (U := value_unit v "StorageUnit-p_store" t0 t P). destruct k; [|destruct (Nat.eqb t t0); reflexivity].
  rewrite U. destruct (String.eqb v "StorageUnit-p_store"), (Nat.eqb t t0); reflexivity.
Qed.
Definition sp : Q := match k with Unit _ d => if Qle_bool (StorageModel.inflow d t0) 0 then 0 else isv "StorageUnit-spill" | Sto _ _ => 0 end.
Lemma m_spill t : spilled e k t == here sp t.
Proof.
  unfold spilled, sp. assert (U := value_unit v "StorageUnit-spill" t0 t P). destruct k as [c d|c h]; [|destruct (Nat.eqb t t0); reflexivity].
  destruct (Nat.eqb_spec t t0) as [Et|N].
  - rewrite Et. rewrite Et in U. destruct (Qle_bool (StorageModel.inflow d t0) 0); [reflexivity|]. rewrite U, ?Nat.eqb_refl. destruct (String.eqb v "StorageUnit-spill"); reflexivity.
  - destruct (Qle_bool (StorageModel.inflow d t) 0); [reflexivity|]. rewrite U, andb_false_r. reflexivity.
Qed.
Lemma station_at :
  W t0 * (cost_out o k x t0 * isv (out_name k) + ObjectiveModel.a_storage o t0 * isv (level_name k) + ObjectiveModel.a_spill o t0 * sp) ==
  W t0 * (local k price t0 * (isv (out_name k) - match k with Unit _ _ => isv "StorageUnit-p_store" | Sto _ _ => 0 end)) +
  (out_mult t0 * isv (out_name k) + in_mult t0 * match k with Unit _ _ => isv "StorageUnit-p_store" | Sto _ _ => 0 end + level_mult t0 * isv (level_name k)) +
  y t0 * (- isv (level_name k) - drawn k t0 * isv (out_name k) + gained k t0 * match k with Unit _ _ => isv "StorageUnit-p_store" | Sto _ _ => 0 end - hours_of k t0 * sp) +
  total (fun t => if act t then y t * (StorageModel.s_stand s t * val e (prev t)) else 0) (seq 0 T) +
  (of_spill_low mu t0 + of_spill_high mu t0) * sp + toll rest (v, t0, nm).
Proof.
  assert (H := station_s e (unit_sup v t0 V)). rewrite device_sum, (toll_sum _ rest), (unit_nom v t0 NN) in H.
  set (IN := match k with Unit _ _ => isv "StorageUnit-p_store" | Sto _ _ => 0 end) in *.
  rewrite (total_ext (fun t => W t * (cost_out o k x t * discharge e k t + ObjectiveModel.a_storage o t * energy e k t + ObjectiveModel.a_spill o t * spilled e k t))
    (fun t => here (W t * (cost_out o k x t * isv (out_name k) + ObjectiveModel.a_storage o t * isv (level_name k) + ObjectiveModel.a_spill o t * sp)) t)) in H
    by (intros t _; rewrite m_out, m_level, m_spill; destruct (Nat.eqb t t0); ring).
  rewrite (total_ext (fun t => W t * (local k price t * (discharge e k t - charge e k t))) (fun t => here (W t * (local k price t * (isv (out_name k) - IN))) t)) in H
    by (intros t _; rewrite m_out, m_in; fold IN; destruct (Nat.eqb t t0); ring).
  rewrite (total_ext (fun t => if act t then pulls e t + y t * row e t + (of_spill_low mu t + of_spill_high mu t) * spilled e k t else 0)
    (fun t => here (out_mult t * isv (out_name k) + in_mult t * IN + level_mult t * isv (level_name k) +
       y t * (- isv (level_name k) - drawn k t * isv (out_name k) + gained k t * IN - hours_of k t * sp) + (of_spill_low mu t + of_spill_high mu t) * sp) t +
       (if act t then y t * (StorageModel.s_stand s t * val e (prev t)) else 0))) in H.
  - rewrite total_plus, !total_at in H by exact L. destruct (DispatchModel.ext a); rewrite ?Qmult_0_r, !Qplus_0_l in H; rewrite H; ring.
  - intros t _. destruct (act t) eqn:AT.
    + unfold pulls, row, pull. rewrite (unit_nom v t0 NN). rewrite m_spill.
      assert (E1 := m_out t). assert (E2 := m_in t). assert (E3 := m_level t). fold IN in E2.
      unfold out_mult, in_mult, level_mult. unfold IN in *. clear IN H.
      destruct k as [c ud|c h]; rewrite ?E1, ?E2, ?E3; destruct (Nat.eqb t t0), (DispatchModel.ext a); ring.
    + destruct (Nat.eqb_spec t t0) as [Et|]; [rewrite Et in AT; congruence|ring].
Qed.
End Move.

Lemma no_prev v t0 : v <> level_name k -> total (fun t => if act t then y t * (StorageModel.s_stand s t * val (unit (v, t0, nm)) (prev t)) else 0) (seq 0 T) == 0.
Proof. intros N. apply total_zero. intros t _. rewrite (prev_unit v t0 t N). destruct (act t); ring. Qed.
Lemma station_out t : (t < T)%nat -> act t = true -> W t * cost_out o k x t == sale on k price rest t + out_mult t - y t * drawn k t.
Proof.
  intros L P. assert (H := station_at (out_name k) t (proj1 names_out) L P). assert (N1 : out_name k <> nom_name k) by (destruct k; discriminate). assert (N2 : out_name k <> level_name k) by (destruct k; discriminate).
  specialize (H N1). rewrite (no_prev _ t N2) in H. rewrite String.eqb_refl in H. rewrite (proj2 (String.eqb_neq _ _) N2) in H. unfold sp in H. unfold sale.
  destruct k as [c d|c h]; cbn [out_name] in *.
  - change (String.eqb "StorageUnit-p_dispatch" "StorageUnit-p_store") with false in H. change (String.eqb "StorageUnit-p_dispatch" "StorageUnit-spill") with false in H.
    assert (Z : (if Qle_bool (StorageModel.inflow d t) 0 then 0 else 0) == 0) by (destruct (Qle_bool (StorageModel.inflow d t) 0); reflexivity).
    rewrite Z in H. clear Z. etransitivity; [etransitivity; [|exact H]|]; ring.
  - etransitivity; [etransitivity; [|exact H]|]; ring.
Qed.
Lemma station_in t : (match k with Unit _ _ => True | Sto _ _ => False end) -> (t < T)%nat -> act t = true -> purchase on k price rest t == in_mult t + y t * gained k t.
Proof.
  intros U L P. assert (V : In "StorageUnit-p_store" (names k)) by (destruct k; [cbn; auto|destruct U]).
  assert (H := station_at "StorageUnit-p_store" t V L P). assert (N1 : "StorageUnit-p_store" <> nom_name k) by (destruct k; discriminate). assert (N2 : "StorageUnit-p_store" <> level_name k) by (destruct k; discriminate).
  specialize (H N1). rewrite (no_prev _ t N2) in H. rewrite (proj2 (String.eqb_neq _ _) N2) in H. unfold sp in H. unfold purchase.
  destruct k as [c d|c h]; [|destruct U]. cbn [out_name] in *.
  change (String.eqb "StorageUnit-p_store" "StorageUnit-p_store") with true in H. change (String.eqb "StorageUnit-p_store" "StorageUnit-p_dispatch") with false in H. change (String.eqb "StorageUnit-p_store" "StorageUnit-spill") with false in H.
  assert (Z : (if Qle_bool (StorageModel.inflow d t) 0 then 0 else 0) == 0) by (destruct (Qle_bool (StorageModel.inflow d t) 0); reflexivity).
  rewrite Z in H. clear Z. set (l := local _ _ _) in *. set (g := gained _ _) in *. clearbody l g. set (tl := toll _ _) in *. clearbody tl. set (im := in_mult t) in *. clearbody im. lra.
Qed.
Definition next (t : nat) : Q := total (fun u => if act u then y u * (StorageModel.s_stand s u * val (unit (level_name k, t, nm)) (prev u)) else 0) (seq 0 T).
Lemma station_level t : (t < T)%nat -> act t = true -> y t + holding on o k rest t == next t + level_mult t.
Proof.
  intros L P. assert (H := station_at (level_name k) t (proj1 (proj2 names_out)) L P). assert (N1 : level_name k <> nom_name k) by (destruct k; discriminate). assert (N2 : level_name k <> out_name k) by (destruct k; discriminate).
  specialize (H N1). fold (next t) in H. rewrite String.eqb_refl in H. rewrite (proj2 (String.eqb_neq _ _) N2) in H. unfold sp in H. unfold holding.
  set (nx := next t) in *. clearbody nx. set (lm := level_mult t) in *. clearbody lm. set (tl := toll rest (level_name k, t, nm)) in *. clearbody tl.
  destruct k as [c d|c h]; cbn [level_name] in *.
  - change (String.eqb "StorageUnit-state_of_charge" "StorageUnit-p_store") with false in H. change (String.eqb "StorageUnit-state_of_charge" "StorageUnit-spill") with false in H.
    assert (Z : (if Qle_bool (StorageModel.inflow d t) 0 then 0 else 0) == 0) by (destruct (Qle_bool (StorageModel.inflow d t) 0); reflexivity).
    rewrite Z in H. clear Z. lra.
  - lra.
Qed.

(* limits *)
Lemma bounds_level t : (t < T)%nat -> act t = true -> bound (of_level mu) (set_level ser) (low_level k a t * size x k a) (high_level k a t * size x k a) t (energy x k t).
Proof.
  intros L P. destruct (sm_same _ _ _ _ _ _ _ _ _ _ _ _ _ _ _ _ _ M) as (NA & NO & NS & CL & AA & OA & SA & EX & CO & CA & IN). assert (O := met_own).
  unfold low_level, high_level, size, energy, value. rewrite P.
  destruct k as [c d|c h]; unfold device_y in O; rewrite !met_app in O.
  - destruct O as (_ & _ & _ & O & _). apply limit_in with (t := t) in O; [|exact CA|exact L|exact (eq_trans (AA t) P)].
    unfold DispatchModel.vname in O. cbn [append with_set DispatchModel.ext DispatchModel.name DispatchModel.nom DispatchModel.fix_set DispatchModel.bounds_pu DispatchModel.max_hours fst snd] in O. rewrite NA in O. exact O.
  - destruct O as (_ & O & _). apply limit_in with (t := t) in O; [|exact CA|exact L|exact (eq_trans (AA t) P)].
    unfold DispatchModel.vname in O. cbn [append with_set DispatchModel.ext DispatchModel.name DispatchModel.nom DispatchModel.fix_set DispatchModel.bounds_pu DispatchModel.max_pu DispatchModel.min_pu fst snd] in O. rewrite NA in O. exact O.
Qed.
Lemma bounds_out t : (match k with Unit _ _ => True | Sto _ _ => False end) -> (t < T)%nat -> act t = true ->
  bound (of_out mu) (set_out ser) 0 (DispatchModel.max_pu a t * size x k a) t (discharge x k t) /\ bound (of_in mu) (set_in ser) 0 (- DispatchModel.min_pu a t * size x k a) t (charge x k t).
Proof.
  intros U L P. destruct (sm_same _ _ _ _ _ _ _ _ _ _ _ _ _ _ _ _ _ M) as (NA & NO & NS & CL & AA & OA & SA & EX & CO & CA & IN). assert (O := met_own).
  unfold size, discharge, charge, value.
  destruct k as [c d|c h]; [|destruct U]. rewrite P. unfold device_y in O. rewrite !met_app in O. destruct O as (_ & O1 & O2 & _).
  apply limit_in with (t := t) in O1; [|exact CA|exact L|exact (eq_trans (AA t) P)]. apply limit_in with (t := t) in O2; [|exact CA|exact L|exact (eq_trans (AA t) P)].
  unfold DispatchModel.vname in O1, O2. cbn [append with_set DispatchModel.ext DispatchModel.name DispatchModel.nom DispatchModel.fix_set DispatchModel.bounds_pu DispatchModel.max_pu DispatchModel.min_pu fst snd] in O1, O2.
  rewrite NA in O1, O2. cbn [out_name nom_name].
  assert (Z : forall l f hi v, bound l f (0 * (if DispatchModel.ext a then x ("StorageUnit-p_nom", 0%nat, dname (Unit c d)) else DispatchModel.nom a)) hi t v -> bound l f 0 hi t v).
  { intros l f hi v ((B1 & B2 & B3) & B4 & B5). split; [|split; assumption]. split; [exact B1|]. split; [setoid_replace (v - 0) with (v - 0 * (if DispatchModel.ext a then x ("StorageUnit-p_nom", 0%nat, dname (Unit c d)) else DispatchModel.nom a)) by ring; exact B2|lra]. }
  split; apply Z; assumption.
Qed.

(* within limits the multipliers vanish *)
Lemma bound_low l f lo hi t v : bound l f lo hi t v -> lo < v -> l_low l t == 0.
Proof. intros ((A & B & C) & _) H. apply (qzero (v - lo)); [rewrite <- B; ring|lra]. Qed.
Lemma bound_high l f lo hi t v : bound l f lo hi t v -> v < hi -> l_high l t == 0.
Proof. intros (_ & (A & B & C) & _) H. apply (qzero (v - hi)); [rewrite <- B; ring|lra]. Qed.
Lemma at_low l f lo hi t v : bound l f lo hi t v -> ~ l_low l t == 0 -> v == lo.
Proof. intros ((A & B & C) & _) H. assert (v - lo == 0) by (apply (qzero _ _ B H)). lra. Qed.
Lemma at_high l f lo hi t v : bound l f lo hi t v -> ~ l_high l t == 0 -> v == hi.
Proof. intros (_ & (A & B & C) & _) H. assert (v - hi == 0) by (apply (qzero _ _ B H)). lra. Qed.

Lemma merit_out t : (match k with Unit _ _ => True | Sto _ _ => False end) -> (t < T)%nat -> act t = true -> set_out ser t = None ->
  let earned := sale on k price rest t in let cost := W t * cost_out o k x t + y t * drawn k t in let high := DispatchModel.max_pu a t * size x k a in
  (cost < earned -> discharge x k t == high) /\ (earned < cost -> discharge x k t == 0) /\ (0 < discharge x k t -> cost <= earned) /\ (discharge x k t < high -> earned <= cost).
Proof.
  intros U L P N. cbv zeta. assert (H := station_out t L P). destruct (bounds_out t U L P) as [B _]. unfold out_mult, given in H. rewrite N in H.
  assert (B' := B). destruct B' as ((B1 & _) & (B2 & _) & _).
  assert (H' : W t * cost_out o k x t + y t * drawn k t == sale on k price rest t + (l_low (of_out mu) t + l_high (of_out mu) t)) by (destruct k; [lra|destruct U]).
  split; [|split; [|split]].
  - intros G. apply (at_high _ _ _ _ _ _ B). intros Z. lra.
  - intros G. apply (at_low _ _ _ _ _ _ B). intros Z. lra.
  - intros G. assert (Z := bound_low _ _ _ _ _ _ B G). lra.
  - intros G. assert (Z := bound_high _ _ _ _ _ _ B G). lra.
Qed.
Lemma merit_in t : (match k with Unit _ _ => True | Sto _ _ => False end) -> (t < T)%nat -> act t = true -> set_in ser t = None ->
  let paid := purchase on k price rest t in let worth := y t * gained k t in let high := - DispatchModel.min_pu a t * size x k a in
  (paid < worth -> charge x k t == high) /\ (worth < paid -> charge x k t == 0) /\ (0 < charge x k t -> paid <= worth) /\ (charge x k t < high -> worth <= paid).
Proof.
  intros U L P N. cbv zeta. assert (H := station_in t U L P). destruct (bounds_out t U L P) as [_ B]. unfold in_mult, given in H. rewrite N in H.
  assert (B' := B). destruct B' as ((B1 & _) & (B2 & _) & _).
  split; [|split; [|split]].
  - intros G. apply (at_high _ _ _ _ _ _ B). intros Z. lra.
  - intros G. apply (at_low _ _ _ _ _ _ B). intros Z. lra.
  - intros G. assert (Z := bound_low _ _ _ _ _ _ B G). lra.
  - intros G. assert (Z := bound_high _ _ _ _ _ _ B G). lra.
Qed.
Lemma store_power t : (match k with Unit _ _ => False | Sto _ _ => True end) -> (t < T)%nat -> act t = true -> sale on k price rest t == W t * cost_out o k x t + y t * drawn k t.
Proof. intros U L P. assert (H := station_out t L P). unfold out_mult in H. destruct k; [destruct U|]. lra. Qed.

(* the value of energy over time *)
Lemma one_next r u u' : (u < T)%nat -> (u' < T)%nat -> StorageModel.s_active s u = true -> StorageModel.s_active s u' = true ->
  StorageSpec.comes_from T periods s u (StorageSpec.From r) -> StorageSpec.comes_from T periods s u' (StorageSpec.From r) -> u = u'.
Proof.
  intros L L' P P' C C'. unfold StorageSpec.comes_from in *.
  assert (PL : (StorageSpec.precedes s r u \/ (StorageModel.s_cyclic s = true /\ StorageSpec.is_first s u /\ StorageSpec.is_last T s r)) ->
               (StorageSpec.precedes s r u' \/ (StorageModel.s_cyclic s = true /\ StorageSpec.is_first s u' /\ StorageSpec.is_last T s r)) -> u = u').
  { clear C C'. intros [(A1 & A2 & A3)|(A1 & A2 & A3 & A4 & A5)] [(B1 & B2 & B3)|(B1 & B2 & B3 & B4 & B5)].
    - destruct (Nat.lt_trichotomy u u') as [G|[G|G]]; [|exact G|]; [rewrite (B3 u) in P by lia; discriminate|rewrite (A3 u') in P' by lia; discriminate].
    - rewrite (B5 u) in P by lia. discriminate.
    - rewrite (A5 u') in P' by lia. discriminate.
    - destruct (Nat.lt_trichotomy u u') as [G|[G|G]]; [|exact G|]; [rewrite (B2 u) in P by lia; discriminate|rewrite (A2 u') in P' by lia; discriminate]. }
  destruct periods as [per|]; [|exact (PL C C')]. destruct (StorageSpec.separate_periods (Some per) s); [|exact (PL C C')]. clear PL.
  destruct C as [(A1 & A2)|(A1 & A2 & A3 & A4 & A5)], C' as [(B1 & B2)|(B1 & B2 & B3 & B4 & B5)].
  - lia.
  - exfalso. apply (B5 u); [lia|congruence].
  - exfalso. apply (A5 u'); [lia|congruence].
  - destruct (Nat.lt_trichotomy u u') as [G|[G|G]]; [|exact G|]; exfalso; [apply (B2 u); [lia|congruence]|apply (A2 u'); [lia|congruence]].
Qed.
Lemma prev_from t u : StorageSpec.regular periods -> (u < T)%nat -> act u = true -> act t = true ->
  val (unit (level_name k, t, nm)) (prev u) = 1 /\ StorageSpec.comes_from T periods s u (StorageSpec.From t) \/
  val (unit (level_name k, t, nm)) (prev u) = 0 /\ ~ StorageSpec.comes_from T periods s u (StorageSpec.From t).
Proof.
  intros R L P Pt. destruct (sm_same _ _ _ _ _ _ _ _ _ _ _ _ _ _ _ _ _ M) as (_ & _ & NS & _ & _ & _ & SA & _).
  assert (PS : StorageModel.s_active s u = true) by (rewrite SA; exact P).
  destruct (StorageProofs.source_exists T periods s u R L PS) as (src & C).
  destruct (StorageProofs.source_label T periods (level_name k) s u src L PS C) as [_ E]. rewrite E.
  assert (LT : forall r, StorageModel.level (level_name k) s r = if act r then Some (level_name k, r, nm) else None).
  { intros r. unfold StorageModel.level, StorageModel.var_of. rewrite SA, NS. reflexivity. }
  assert (NE : forall src', StorageSpec.comes_from T periods s u src' -> match src' with StorageSpec.Initial => None | StorageSpec.From r => StorageModel.level (level_name k) s r end =
                            match src with StorageSpec.Initial => None | StorageSpec.From r => StorageModel.level (level_name k) s r end).
  { intros src' C'. destruct (StorageProofs.source_label T periods (level_name k) s u src' L PS C') as [_ E']. exact (eq_trans (eq_sym E') E). }
  destruct src as [|r].
  - right. split; [reflexivity|]. intros C'. specialize (NE _ C'). cbv iota in NE. rewrite LT, Pt in NE. discriminate NE.
  - destruct (Nat.eq_dec r t) as [->|D].
    + left. rewrite LT, Pt. cbn [val]. unfold unit. rewrite var_eqb_refl. auto.
    + right. split.
      * rewrite LT. destruct (act r); [|reflexivity]. cbn [val]. unfold unit. rewrite var_eqb_neq; [reflexivity|]. intros F. injection F. intros. congruence.
      * intros C'. specialize (NE _ C'). cbv iota in NE. rewrite !LT, Pt in NE. destruct (act r); [|discriminate NE]. injection NE. intros. congruence.
Qed.
Lemma next_is t u : StorageSpec.regular periods -> act t = true -> (u < T)%nat -> act u = true -> StorageSpec.comes_from T periods s u (StorageSpec.From t) -> next t == StorageModel.s_stand s u * y u.
Proof.
  intros R Pt L P C. destruct (sm_same _ _ _ _ _ _ _ _ _ _ _ _ _ _ _ _ _ M) as (_ & _ & NS & _ & _ & _ & SA & _). unfold next.
  rewrite (total_ext _ (fun u' => if Nat.eqb u' u then StorageModel.s_stand s u' * y u' else 0)); [apply (total_at (fun u' => StorageModel.s_stand s u' * y u') u L)|].
  intros u' I. apply in_seq in I. destruct (act u') eqn:P'.
  - destruct (prev_from t u' R ltac:(lia) P' Pt) as [[E C']|[E C']]; rewrite E.
    + assert (u' = u) as -> by (apply (one_next t); try (rewrite SA; assumption); try lia; assumption). rewrite Nat.eqb_refl. ring.
    + destruct (Nat.eqb_spec u' u) as [Eu|]; [subst u'; contradiction|ring].
  - destruct (Nat.eqb_spec u' u) as [Eu|]; [congruence|reflexivity].
Qed.
Lemma next_none t : StorageSpec.regular periods -> act t = true -> (forall u, (u < T)%nat -> act u = true -> ~ StorageSpec.comes_from T periods s u (StorageSpec.From t)) -> next t == 0.
Proof.
  intros R Pt H. apply total_zero. intros u I. apply in_seq in I. destruct (act u) eqn:P; [|reflexivity].
  destruct (prev_from t u R ltac:(lia) P Pt) as [[E C]|[E C]]; [exfalso; exact (H u ltac:(lia) P C)|]. rewrite E. ring.
Qed.
Lemma level_value t : StorageSpec.regular periods -> (t < T)%nat -> act t = true -> set_level ser t = None ->
  (forall q, (forall u, (u < T)%nat -> act u = true -> StorageSpec.comes_from T periods s u (StorageSpec.From t) -> q == StorageModel.s_stand s u * y u) ->
     ((forall u, (u < T)%nat -> act u = true -> ~ StorageSpec.comes_from T periods s u (StorageSpec.From t)) -> q == 0) ->
     (low_level k a t * size x k a < energy x k t -> y t + holding on o k rest t <= q) /\
     (energy x k t < high_level k a t * size x k a -> q <= y t + holding on o k rest t)).
Proof.
  intros R L P N q H1 H2.
  assert (E : next t == q).
  { destruct (existsb (fun u => act u && match prev u with Some w => var_eqb (level_name k, t, nm) w | None => false end) (seq 0 T)) eqn:X.
    - apply existsb_exists in X. destruct X as (u & I & X). apply in_seq in I. apply andb_true_iff in X. destruct X as [P' X].
      destruct (prev_from t u R ltac:(lia) P' P) as [[E C]|[E C]].
      + rewrite (next_is t u R P ltac:(lia) P' C). symmetry. apply H1; [lia|exact P'|exact C].
      + exfalso. destruct (prev u) as [w|]; [|discriminate X]. cbn [val] in E. unfold unit in E. rewrite X in E. discriminate E.
    - assert (NC : forall u, (u < T)%nat -> act u = true -> ~ StorageSpec.comes_from T periods s u (StorageSpec.From t)).
      { intros u Lu Pu C. destruct (prev_from t u R Lu Pu P) as [[E C']|[E C']]; [|contradiction].
        assert (Y : existsb (fun u => act u && match prev u with Some w => var_eqb (level_name k, t, nm) w | None => false end) (seq 0 T) = true); [|congruence].
        apply existsb_exists. exists u. split; [apply in_seq; lia|]. rewrite Pu. cbn [andb]. destruct (prev u) as [w|]; [|discriminate E]. cbn [val] in E. unfold unit in E.
        destruct (var_eqb (level_name k, t, nm) w); [reflexivity|discriminate E]. }
      rewrite (next_none t R P NC). symmetry. exact (H2 NC). }
  assert (H := station_level t L P). rewrite E in H. assert (B := bounds_level t L P). unfold level_mult, given in H. rewrite N in H.
  assert (B' := B). destruct B' as ((B1 & _) & (B2 & _) & _). split; intros G.
  - assert (Z := bound_low _ _ _ _ _ _ B G). lra.
  - assert (Z := bound_high _ _ _ _ _ _ B G). lra.
Qed.

(* along paths *)
Lemma path_kept r t f h : StorageSpec.regular periods -> (forall u, (u < T)%nat -> act u = true -> 0 <= StorageModel.s_stand s u) ->
  path T periods k s (filled k a ser x) (holding on o k rest) r t f h -> y r + h <= f * y t.
Proof.
  intros R ST H. induction H as [t|r u t f h Lr Pr Lu Pu C [G N] H IH]; [lra|].
  destruct (level_value r R Lr Pr N (StorageModel.s_stand s u * y u)) as [A _].
  - destruct (sm_same _ _ _ _ _ _ _ _ _ _ _ _ _ _ _ _ _ M) as (_ & _ & _ & _ & _ & _ & SA & _). intros u' L' P' C'.
    rewrite (one_next r u u' Lu L'); try (rewrite SA; assumption); try assumption. reflexivity.
  - intros NC. exfalso. exact (NC u Lu Pu C).
  - specialize (A G). assert (B := Qmult_le_0_compat (StorageModel.s_stand s u) (f * y t - (y u + h)) (ST u Lu Pu) ltac:(lra)).
    assert (B' : StorageModel.s_stand s u * (f * y t - (y u + h)) == StorageModel.s_stand s u * f * y t - StorageModel.s_stand s u * y u - StorageModel.s_stand s u * h) by ring.
    lra.
Qed.
Lemma path_room r t f h : StorageSpec.regular periods -> (forall u, (u < T)%nat -> act u = true -> 0 <= StorageModel.s_stand s u) ->
  path T periods k s (roomy k a ser x) (holding on o k rest) r t f h -> f * y t <= y r + h.
Proof.
  intros R ST H. induction H as [t|r u t f h Lr Pr Lu Pu C [G N] H IH]; [lra|].
  destruct (level_value r R Lr Pr N (StorageModel.s_stand s u * y u)) as [_ A].
  - destruct (sm_same _ _ _ _ _ _ _ _ _ _ _ _ _ _ _ _ _ M) as (_ & _ & _ & _ & _ & _ & SA & _). intros u' L' P' C'.
    rewrite (one_next r u u' Lu L'); try (rewrite SA; assumption); try assumption. reflexivity.
  - intros NC. exfalso. exact (NC u Lu Pu C).
  - specialize (A G). assert (B := Qmult_le_0_compat (StorageModel.s_stand s u) ((y u + h) - f * y t) (ST u Lu Pu) ltac:(lra)).
    assert (B' : StorageModel.s_stand s u * ((y u + h) - f * y t) == StorageModel.s_stand s u * y u + StorageModel.s_stand s u * h - StorageModel.s_stand s u * f * y t) by ring.
    lra.
Qed.
Lemma path_nonneg ok hold r t f h : (forall u, (u < T)%nat -> act u = true -> 0 <= StorageModel.s_stand s u) -> path T periods k s ok hold r t f h -> 0 <= f.
Proof. intros ST H. induction H as [|r u t f h Lr Pr Lu Pu C G H IH]; [lra|]. apply Qmult_le_0_compat; [exact (ST u Lu Pu)|exact IH]. Qed.

Lemma arbitrage r t f h : (match k with Unit _ _ => True | Sto _ _ => False end) -> StorageSpec.regular periods ->
  (forall u, (u < T)%nat -> act u = true -> 0 <= StorageModel.s_stand s u) -> (r < T)%nat -> (t < T)%nat -> act r = true -> act t = true ->
  set_in ser r = None -> set_out ser t = None -> 0 <= gained k r -> 0 <= drawn k t ->
  0 < charge x k r -> 0 < discharge x k t -> path T periods k s (filled k a ser x) (holding on o k rest) r t f h ->
  (purchase on k price rest r + gained k r * h) * drawn k t <= f * gained k r * (sale on k price rest t - W t * cost_out o k x t).
Proof.
  intros U R ST Lr Lt Pr Pt Nr Nt G D Ci Co H.
  destruct (merit_in r U Lr Pr Nr) as (_ & _ & A & _). specialize (A Ci). destruct (merit_out t U Lt Pt Nt) as (_ & _ & B & _). specialize (B Co).
  assert (K := path_kept r t f h R ST H). assert (F := path_nonneg _ _ _ _ _ _ ST H).
  assert (X1 := Qmult_le_0_compat (drawn k t) (y r * gained k r - purchase on k price rest r) D ltac:(lra)).
  assert (X2 := Qmult_le_0_compat (f * gained k r) (sale on k price rest t - (W t * cost_out o k x t + y t * drawn k t)) (Qmult_le_0_compat _ _ F G) ltac:(lra)).
  assert (X3 := Qmult_le_0_compat (drawn k t * gained k r) (f * y t - (y r + h)) (Qmult_le_0_compat _ _ D G) ltac:(lra)).
  ring_simplify in X1. ring_simplify in X2. ring_simplify in X3. ring_simplify. lra.
Qed.
Lemma no_arbitrage r t f h : (match k with Unit _ _ => True | Sto _ _ => False end) -> StorageSpec.regular periods ->
  (forall u, (u < T)%nat -> act u = true -> 0 <= StorageModel.s_stand s u) -> (r < T)%nat -> (t < T)%nat -> act r = true -> act t = true ->
  set_in ser r = None -> set_out ser t = None -> 0 <= gained k r -> 0 <= drawn k t ->
  charge x k r < - DispatchModel.min_pu a r * size x k a -> discharge x k t < DispatchModel.max_pu a t * size x k a -> path T periods k s (roomy k a ser x) (holding on o k rest) r t f h ->
  f * gained k r * (sale on k price rest t - W t * cost_out o k x t) <= (purchase on k price rest r + gained k r * h) * drawn k t.
Proof.
  intros U R ST Lr Lt Pr Pt Nr Nt G D Ci Co H.
  destruct (merit_in r U Lr Pr Nr) as (_ & _ & _ & A). specialize (A Ci). destruct (merit_out t U Lt Pt Nt) as (_ & _ & _ & B). specialize (B Co).
  assert (K := path_room r t f h R ST H). assert (F := path_nonneg _ _ _ _ _ _ ST H).
  assert (X1 := Qmult_le_0_compat (drawn k t) (purchase on k price rest r - y r * gained k r) D ltac:(lra)).
  assert (X2 := Qmult_le_0_compat (f * gained k r) ((W t * cost_out o k x t + y t * drawn k t) - sale on k price rest t) (Qmult_le_0_compat _ _ F G) ltac:(lra)).
  assert (X3 := Qmult_le_0_compat (drawn k t * gained k r) ((y r + h) - f * y t) (Qmult_le_0_compat _ _ D G) ltac:(lra)).
  ring_simplify in X1. ring_simplify in X2. ring_simplify in X3. ring_simplify. lra.
Qed.
Lemma both_ways t : (match k with Unit _ _ => True | Sto _ _ => False end) -> (t < T)%nat -> act t = true -> set_in ser t = None -> set_out ser t = None ->
  (forall c q, In (c, q) rest -> unrelated k c) -> 0 <= gained k t -> gained k t < drawn k t -> 0 <= W t * cost_out o k x t ->
  0 < charge x k t -> 0 < discharge x k t -> y t <= 0 /\ W t * local k price t <= 0.
Proof.
  intros U L P Ni No UR G GD C Ci Co. destruct (merit_in t U L P Ni) as (_ & _ & A & _). specialize (A Ci). destruct (merit_out t U L P No) as (_ & _ & B & _). specialize (B Co).
  unfold purchase in A. unfold sale in B. rewrite (toll_unrelated k rest _ t) in A; [|destruct k; [cbn; auto|destruct U]|exact UR]. rewrite (toll_unrelated k rest _ t (proj1 names_out) UR) in B.
  assert (Y : y t <= 0).
  { destruct (Qlt_le_dec 0 (y t)) as [Z|Z]; [exfalso|exact Z]. assert (X := Qmult_lt_compat_r 0 (y t) (drawn k t - gained k t) ltac:(lra) Z).
    ring_simplify in X. assert (y t * drawn k t <= y t * gained k t) by lra. setoid_replace (y t * drawn k t) with (drawn k t * y t) in H by ring. setoid_replace (y t * gained k t) with (gained k t * y t) in H by ring. lra. }
  split; [exact Y|]. assert (X := Qmult_le_0_compat (- y t) (gained k t) ltac:(lra) G). setoid_replace (- y t * gained k t) with (- (y t * gained k t)) in X by ring. lra.
Qed.

(* the device's own part of the solution *)
Definition mine : sol := fun v => if String.eqb (snd v) nm && existsb (String.eqb (fst (fst v))) (names k) then x v else 0.
Lemma mine_sup : supported k mine.
Proof.
  intros v t m H. unfold mine. cbn [fst snd]. destruct (String.eqb_spec m nm) as [E|E]; [|reflexivity]. destruct (existsb (String.eqb v) (names k)) eqn:X; [|reflexivity].
  apply existsb_exists in X. destruct X as (w & I & X). apply String.eqb_eq in X. subst w. destruct H as [H|H]; contradiction.
Qed.
Lemma mine_at v t : In v (names k) -> mine (v, t, nm) = x (v, t, nm).
Proof. intros I. unfold mine. cbn [fst snd]. rewrite String.eqb_refl. assert (X : existsb (String.eqb v) (names k) = true) by (apply existsb_exists; exists v; split; [exact I|apply String.eqb_refl]). rewrite X. reflexivity. Qed.
Lemma mine_value v t : In v (names k) -> value mine act v nm t = value x act v nm t.
Proof. intros I. unfold value. rewrite (mine_at v t I). reflexivity. Qed.
Lemma mine_out t : discharge mine k t = discharge x k t. Proof. apply mine_value, names_out. Qed.
Lemma mine_level t : energy mine k t = energy x k t. Proof. apply mine_value, names_out. Qed.
Lemma mine_in t : charge mine k t = charge x k t.
Proof. unfold charge. destruct k eqn:K; [|reflexivity]. rewrite <- K. apply mine_value. rewrite K. cbn; auto. Qed.
Lemma mine_spill t : spilled mine k t = spilled x k t.
Proof. unfold spilled. destruct k as [c d|] eqn:K; [|reflexivity]. destruct (Qle_bool (StorageModel.inflow d t) 0); [reflexivity|]. rewrite <- K. apply mine_value. rewrite K. cbn; auto. Qed.
Lemma mine_prev t : val mine (prev t) = val x (prev t).
Proof. destruct (prev t) as [w|] eqn:E; [|reflexivity]. apply prev_some in E. destruct E as (t' & -> & _). cbn [val]. apply mine_at, names_out. Qed.
Lemma mine_rest : (forall c q, In (c, q) rest -> unrelated k c) -> total (weigh mine) rest == 0.
Proof.
  intros UR. apply total_zero. intros [c q] I. unfold weigh. cbn [fst snd]. assert (Z : eval mine (lhs c) == 0); [|rewrite Z; ring].
  assert (H := UR c q I). clear I UR. unfold unrelated in H. induction (lhs c) as [|[p [v|]] l IH]; cbn [eval val]; [reflexivity| |].
  - rewrite IH by (intros q' v' J; exact (H q' v' (or_intror J))). destruct v as [[w t] m]. rewrite (mine_sup w t m (H p _ (or_introl eq_refl))). ring.
  - rewrite IH by (intros q' v' J; exact (H q' v' (or_intror J))). ring.
Qed.

Lemma row_val t : (t < T)%nat -> act t = true -> row x t == - received k t - (if StorageModel.included periods s t then 0 else StorageModel.s_init s).
Proof.
  intros L P. destruct (sm_same _ _ _ _ _ _ _ _ _ _ _ _ _ _ _ _ _ M) as (NA & NO & NS & CL & AA & OA & SA & EX & CO & CA & IN). assert (O := met_own).
  assert (PS : StorageModel.s_active s t = true) by (rewrite SA; exact P).
  unfold row, energy, drawn, gained, discharge, charge, spilled, hours_of, received, value. rewrite P.
  destruct k as [c ud|c h]; unfold device_y in O; rewrite !met_app in O.
  - destruct O as (_ & _ & _ & _ & O & _). apply energy_in with (t := t) in O; [|exact L|exact PS].
    unfold StorageModel.unit_flows, StorageModel.spill_label, StorageModel.level, StorageModel.var_of in O. cbn [eval] in O. rewrite PS, NS in O. cbn [val] in O. cbn [out_name level_name] in *.
    etransitivity; [|exact O]. destruct (Qle_bool (StorageModel.inflow ud t) 0); cbn [negb val]; unfold Qdiv; ring.
  - destruct O as (_ & _ & O). apply energy_in with (t := t) in O; [|exact L|exact PS].
    unfold StorageModel.level, StorageModel.var_of in O. cbn [eval] in O. rewrite PS, NS in O. cbn [val] in O. cbn [out_name level_name] in *.
    etransitivity; [|etransitivity; [exact O|]]; ring.
Qed.
Lemma start_included start t : StorageSpec.regular periods -> starts T periods k s start -> (t < T)%nat -> act t = true -> StorageModel.included periods s t = negb (start t).
Proof.
  intros R ST L P. destruct (sm_same _ _ _ _ _ _ _ _ _ _ _ _ _ _ _ _ _ M) as (_ & _ & _ & _ & _ & _ & SA & _). assert (PS : StorageModel.s_active s t = true) by (rewrite SA; exact P).
  destruct (StorageProofs.source_exists T periods s t R L PS) as (src & C). destruct (StorageProofs.source_label T periods (level_name k) s t src L PS C) as [E _].
  specialize (ST t L P). unfold is_start in ST. destruct (start t) eqn:B; cbn [negb].
  - destruct (StorageProofs.source_label T periods (level_name k) s t _ L PS (proj1 ST eq_refl)) as [E' _]. exact E'.
  - destruct src; [|exact E]. apply ST in C. discriminate C.
Qed.
Lemma spill_val t : (t < T)%nat -> act t = true -> (of_spill_low mu t + of_spill_high mu t) * spilled x k t ==
  match k with Unit _ d => if Qle_bool (StorageModel.inflow d t) 0 then 0 else of_spill_high mu t * StorageModel.inflow d t | Sto _ _ => 0 end.
Proof.
  intros L P. destruct (sm_same _ _ _ _ _ _ _ _ _ _ _ _ _ _ _ _ _ M) as (NA & NO & NS & CL & AA & OA & SA & EX & CO & CA & IN). assert (O := met_own).
  unfold spilled, value. rewrite P. destruct k as [c ud|c h]; [|ring]. unfold device_y in O. rewrite !met_app in O. destruct O as (_ & _ & _ & _ & _ & O).
  destruct (Qle_bool (StorageModel.inflow ud t) 0) eqn:Z; [ring|].
  assert (SL : StorageModel.spill_label s ud t = Some ("StorageUnit-spill", t, dname (Unit c ud))).
  { unfold StorageModel.spill_label, StorageModel.var_of. rewrite Z, SA, P, NS. reflexivity. }
  destruct (spill_in T s ud mu x t _ O L SL) as ((A1 & A2 & A3) & B1 & B2 & B3). set (v := x _) in *. clearbody v.
  assert (B : of_spill_high mu t * v == of_spill_high mu t * StorageModel.inflow ud t) by (assert (of_spill_high mu t * (v - StorageModel.inflow ud t) == of_spill_high mu t * v - of_spill_high mu t * StorageModel.inflow ud t) by ring; lra).
  rewrite Qmult_plus_distr_l, A2, B. ring.
Qed.
Lemma pull_ext l f lo hi t v N : bound l f (lo * N) (hi * N) t v -> f t = None -> pull true l f lo hi t v N == 0.
Proof. intros ((A1 & A2 & A3) & (B1 & B2 & B3) & _) F. unfold pull, given. rewrite F. setoid_replace ((l_low l t + l_high l t + 0) * v - (lo * l_low l t + hi * l_high l t) * N) with (l_low l t * (v - lo * N) + l_high l t * (v - hi * N)) by ring. rewrite A2, B2. ring. Qed.
Lemma pull_fix l f lo hi t v N : bound l f (lo * N) (hi * N) t v -> f t = None -> lo * N <= 0 -> 0 <= hi * N -> forall q lo' hi', pull false l f lo' hi' t v q <= 0.
Proof.
  intros ((A1 & A2 & A3) & (B1 & B2 & B3) & _) F LO HI q lo' hi'. unfold pull, given. rewrite F.
  assert (L1 : l_low l t * v == l_low l t * (lo * N)) by (assert (l_low l t * (v - lo * N) == l_low l t * v - l_low l t * (lo * N)) by ring; lra).
  assert (L2 : l_high l t * v == l_high l t * (hi * N)) by (assert (l_high l t * (v - hi * N) == l_high l t * v - l_high l t * (hi * N)) by ring; lra).
  assert (P1 := Qmult_le_0_compat (l_low l t) (- (lo * N)) A1 ltac:(lra)). assert (P2 := Qmult_le_0_compat (- l_high l t) (hi * N) ltac:(lra) HI).
  setoid_replace (l_low l t * - (lo * N)) with (- (l_low l t * (lo * N))) in P1 by ring. setoid_replace (- l_high l t * (hi * N)) with (- (l_high l t * (hi * N))) in P2 by ring.
  setoid_replace ((l_low l t + l_high l t + 0) * v - 0) with (l_low l t * v + l_high l t * v) by ring. lra.
Qed.

Lemma unset_ok : unset T ser -> forall t, (t < T)%nat -> set_out ser t = None /\ set_in ser t = None /\ set_level ser t = None.
Proof. auto. Qed.
(* accounts: what it earns, what its capacity costs, and what it receives *)
Lemma accounts start : StorageSpec.regular periods -> starts T periods k s start -> (forall c q, In (c, q) rest -> unrelated k c) ->
  surplus on o k x price rest T == (if DispatchModel.ext a then (yearly on o - size_mult a mu) * size x k a else 0) + endowment T start k s mu -
    total (fun t => if act t then pulls x t else 0) (seq 0 T).
Proof.
  intros R ST UR. assert (H := station_s mine mine_sup). rewrite device_sum, (mine_rest UR), (mine_at _ O (proj2 (proj2 names_out))) in H.
  rewrite (total_ext (fun t => W t * (cost_out o k x t * discharge mine k t + ObjectiveModel.a_storage o t * energy mine k t + ObjectiveModel.a_spill o t * spilled mine k t))
    (fun t => W t * (cost_out o k x t * discharge x k t + ObjectiveModel.a_storage o t * energy x k t + ObjectiveModel.a_spill o t * spilled x k t))) in H
    by (intros t _; rewrite mine_out, mine_level, mine_spill; reflexivity).
  rewrite (total_ext (fun t => W t * (local k price t * (discharge mine k t - charge mine k t))) (fun t => W t * (local k price t * (discharge x k t - charge x k t)))) in H
    by (intros t _; rewrite mine_out, mine_in; reflexivity).
  rewrite (total_ext (fun t => if act t then pulls mine t + y t * row mine t + (of_spill_low mu t + of_spill_high mu t) * spilled mine k t else 0)
    (fun t => (if act t then pulls x t else 0) + -1 * (if act t then inflow_value k mu t + (if start t then y t * StorageModel.s_init s else 0) else 0))) in H.
  - rewrite total_plus, total_scale in H. fold (endowment T start k s mu) in H.
    assert (SU : surplus on o k x price rest T == total (fun t => W t * (local k price t * (discharge x k t - charge x k t))) (seq 0 T) +
       -1 * total (fun t => W t * (cost_out o k x t * discharge x k t + ObjectiveModel.a_storage o t * energy x k t + ObjectiveModel.a_spill o t * spilled x k t)) (seq 0 T)).
    { rewrite <- total_scale, <- total_plus. apply total_ext. intros t _. unfold sale, purchase, holding, spilling.
      rewrite (toll_unrelated k rest (out_name k) t (proj1 names_out) UR), (toll_unrelated k rest (level_name k) t (proj1 (proj2 names_out)) UR).
      assert (E1 : toll rest ("StorageUnit-p_store", t, nm) * charge x k t == 0).
      { unfold charge. destruct k as [c d|c h] eqn:K; [|ring]. rewrite <- K in *. rewrite (toll_unrelated k rest _ t); [ring|rewrite K; cbn; auto|exact UR]. }
      assert (E2 : toll rest ("StorageUnit-spill", t, nm) * spilled x k t == 0).
      { unfold spilled. destruct k as [c d|c h] eqn:K; [|ring]. rewrite <- K in *. rewrite (toll_unrelated k rest _ t); [ring|rewrite K; cbn; auto|exact UR]. }
      set (q1 := toll rest ("StorageUnit-p_store", t, nm)) in *. set (q2 := toll rest ("StorageUnit-spill", t, nm)) in *.
      setoid_replace ((W t * local k price t + 0) * discharge x k t - (W t * local k price t - q1) * charge x k t - W t * cost_out o k x t * discharge x k t -
        (W t * ObjectiveModel.a_storage o t - 0) * energy x k t - (W t * ObjectiveModel.a_spill o t - q2) * spilled x k t) with
        (W t * local k price t * discharge x k t - W t * local k price t * charge x k t - W t * cost_out o k x t * discharge x k t -
        W t * ObjectiveModel.a_storage o t * energy x k t - W t * ObjectiveModel.a_spill o t * spilled x k t + q1 * charge x k t + q2 * spilled x k t) by ring.
      rewrite E1, E2. ring. }
    rewrite SU. unfold size. set (A := total _ _) in *. set (B := total _ _) in *. set (C := endowment _ _ _ _ _) in *. set (D := total _ _) in *.
    destruct (DispatchModel.ext a); lra.
  - intros t I. apply in_seq in I. destruct (act t) eqn:P; [|ring]. rewrite mine_spill.
    assert (PE : pulls mine t = pulls x t) by (unfold pulls; rewrite mine_level, mine_in, mine_out, (mine_at _ O (proj2 (proj2 names_out))); reflexivity). rewrite PE.
    assert (RE : row mine t = row x t) by (unfold row; rewrite mine_level, mine_in, mine_out, mine_spill, mine_prev; reflexivity). rewrite RE.
    rewrite (row_val t ltac:(lia) P), (spill_val t ltac:(lia) P), (start_included start t R ST ltac:(lia) P). unfold inflow_value. destruct (start t); cbn [negb]; ring.
Qed.
Lemma recovery_s start : StorageSpec.regular periods -> starts T periods k s start -> (forall c q, In (c, q) rest -> unrelated k c) -> DispatchModel.ext a = true -> unset T ser ->
  surplus on o k x price rest T == yearly on o * size x k a - size_rent a mu + endowment T start k s mu.
Proof.
  intros R ST UR E N. rewrite (accounts start R ST UR), E.
  rewrite (total_zero (fun t => if act t then pulls x t else 0)).
  - assert (SR : size_mult a mu * size x k a == size_rent a mu).
    { destruct (sm_same _ _ _ _ _ _ _ _ _ _ _ _ _ _ _ _ _ M) as (NA & NO & NS & CL & AA & OA & SA & EX & CO & CA & IN).
      assert (Z : exists cls nat_, met x (size_y cls nat_ a mu) /\ (DispatchModel.vname cls nat_) = nom_name k).
      { assert (O := met_own). destruct k; unfold device_y in O; rewrite !met_app in O; [exists "StorageUnit", "p_nom"|exists "Store", "e_nom"]; split; try reflexivity; apply O. }
      destruct Z as (cls & nat_ & Z & ZN). destruct (size_in cls nat_ a mu x Z E) as ((_ & L2 & _) & U2 & S2). rewrite ZN, NA in *.
      unfold size_mult, size_rent, size. rewrite E. set (c := x _) in *. clearbody c.
      assert (Q1 : of_nom_low mu * c == of_nom_low mu * DispatchModel.nom_min a) by (assert (of_nom_low mu * (c - DispatchModel.nom_min a) == of_nom_low mu * c - of_nom_low mu * DispatchModel.nom_min a) by ring; lra).
      rewrite !Qmult_plus_distr_l, Q1. apply Qplus_comp; [apply Qplus_comp; [reflexivity|]|].
      - destruct (DispatchModel.nom_max a) as [u|]; [|ring]. destruct (U2 u eq_refl) as (_ & B & _). assert (of_nom_high mu * (c - u) == of_nom_high mu * c - of_nom_high mu * u) by ring. lra.
      - destruct (DispatchModel.nom_set a) as [u|]; [|ring]. rewrite (S2 u eq_refl). reflexivity. }
    rewrite <- SR. ring.
  - intros t I. apply in_seq in I. destruct (act t) eqn:P; [|reflexivity]. destruct (N t ltac:(lia)) as (N1 & N2 & N3). unfold pulls. rewrite E.
    assert (BL := bounds_level t ltac:(lia) P). unfold size in BL. rewrite E in BL. rewrite (pull_ext _ _ _ _ _ _ _ BL N3).
    assert (BO := bounds_out t). destruct k; [|ring]. destruct (BO Logic.I ltac:(lia) P) as [B1 B2]. unfold size in B1, B2. rewrite E in B1, B2.
    rewrite (pull_ext (of_out mu) (set_out ser) 0), (pull_ext (of_in mu) (set_in ser) 0); try assumption; [ring| |].
    + destruct B2 as ((B21 & B22 & B23) & B24 & B25). split; [|split; assumption]. split; [exact B21|]. rewrite Qmult_0_l. split; assumption.
    + destruct B1 as ((B21 & B22 & B23) & B24 & B25). split; [|split; assumption]. split; [exact B21|]. rewrite Qmult_0_l. split; assumption.
Qed.
Lemma no_loss_s start : StorageSpec.regular periods -> starts T periods k s start -> (forall c q, In (c, q) rest -> unrelated k c) -> DispatchModel.ext a = false -> unset T ser -> may_idle T k a ->
  endowment T start k s mu <= surplus on o k x price rest T.
Proof.
  intros R ST UR E N (NN & LI). rewrite (accounts start R ST UR), E.
  assert (Z : total (fun t => if act t then pulls x t else 0) (seq 0 T) <= 0); [|lra].
  rewrite <- (total_zero (fun _ : nat => 0) (seq 0 T)) by reflexivity. apply total_le. intros t I. apply in_seq in I. destruct (act t) eqn:P; [|lra].
  destruct (N t ltac:(lia)) as (N1 & N2 & N3). destruct (LI t ltac:(lia)) as (L1 & L2 & L3). unfold pulls. rewrite E.
  assert (BL := bounds_level t ltac:(lia) P). unfold size in BL. rewrite E in BL.
  assert (M1 := Qmult_le_0_compat _ _ L1 NN). assert (M2 := Qmult_le_0_compat (- DispatchModel.min_pu a t) _ ltac:(lra) NN). assert (M3 := Qmult_le_0_compat _ _ L3 NN).
  setoid_replace (- DispatchModel.min_pu a t * DispatchModel.nom a) with (- (DispatchModel.min_pu a t * DispatchModel.nom a)) in M2 by ring.
  assert (PL := pull_fix _ _ _ _ _ _ _ BL N3).
  assert (LL : low_level k a t * DispatchModel.nom a <= 0) by (unfold low_level; destruct k; [rewrite Qmult_0_l|]; lra). assert (LH : 0 <= high_level k a t * DispatchModel.nom a) by (unfold high_level; destruct k; lra).
  specialize (PL LL LH (x (nom_name k, O, nm)) (low_level k a t) (high_level k a t)).
  assert (BO := bounds_out t). destruct k; [|lra]. destruct (BO Logic.I ltac:(lia) P) as [B1 B2]. unfold size in B1, B2. rewrite E in B1, B2.
  assert (B1' : bound (of_out mu) (set_out ser) (0 * DispatchModel.nom a) (DispatchModel.max_pu a t * DispatchModel.nom a) t (discharge x (Unit c d) t)).
  { destruct B1 as ((B21 & B22 & B23) & B24 & B25). split; [|split; assumption]. split; [exact B21|]. rewrite Qmult_0_l. split; assumption. }
  assert (B2' : bound (of_in mu) (set_in ser) (0 * DispatchModel.nom a) (- DispatchModel.min_pu a t * DispatchModel.nom a) t (charge x (Unit c d) t)).
  { destruct B2 as ((B21 & B22 & B23) & B24 & B25). split; [|split; assumption]. split; [exact B21|]. rewrite Qmult_0_l. split; assumption. }
  assert (PO := pull_fix _ _ _ _ _ _ _ B1' N1 ltac:(lra) ltac:(lra) (x (nom_name (Unit c d), O, dname (Unit c d))) 0 (DispatchModel.max_pu a t)).
  assert (PI := pull_fix _ _ _ _ _ _ _ B2' N2 ltac:(lra)). 
  assert (HI : 0 <= - DispatchModel.min_pu a t * DispatchModel.nom a) by (setoid_replace (- DispatchModel.min_pu a t * DispatchModel.nom a) with (- (DispatchModel.min_pu a t * DispatchModel.nom a)) by ring; exact M2).
  specialize (PI HI (x (nom_name (Unit c d), O, dname (Unit c d))) 0 (- DispatchModel.min_pu a t)). lra.
Qed.

(* another initial level *)
Lemma initial_value start q x' : StorageSpec.regular periods -> starts T periods k s start -> convex on ->
  sat x' (map fst (nodal_y n losses T cols thr (fun t b => W t * price b t)) ++ map fst (device_y T periods k (with_init s q) a ser mu) ++ map fst rest) ->
  ObjectiveModel.value_of x ps - (q - StorageModel.s_init s) * total (fun t => if act t && start t then y t else 0) (seq 0 T) <= ObjectiveModel.value_of x' ps.
Proof.
  intros R ST C S'. assert (KK := sm_kkt _ _ _ _ _ _ _ _ _ _ _ _ _ _ _ _ _ M). destruct KK as (F & SG & CS & SL). set (d := less x' x).
  assert (E : ObjectiveModel.value_of (plus x d) ps == ObjectiveModel.value_of x' ps) by (apply value_congr; intros v; unfold plus, d, less; ring).
  rewrite <- E. assert (V := value_above x d ps (convex_obj on ps (sm_obj _ _ _ _ _ _ _ _ _ _ _ _ _ _ _ _ _ M) C)). rewrite (SL d) in V.
  change (fun cy : con * Q => snd cy * eval d (lhs (fst cy))) with (weigh d) in V.
  assert (K : forall cy, (forall c z, In (c, z) cy -> signed c z /\ z * (eval x (lhs c) - rhs c) == 0 /\ holds x' c) -> 0 <= total (weigh d) cy).
  { intros cy H. rewrite <- (total_zero (fun _ : con * Q => 0) cy) by reflexivity. apply total_le. intros [c z] I. unfold weigh, d. cbn [fst snd]. rewrite eval_less.
    destruct (H c z I) as (G & Z & HH). unfold holds in HH. unfold signed in G. assert (Z' : z * eval x (lhs c) == z * rhs c) by (assert (z * (eval x (lhs c) - rhs c) == z * eval x (lhs c) - z * rhs c) by ring; lra).
    setoid_replace (z * (eval x' (lhs c) - eval x (lhs c))) with (z * eval x' (lhs c) - z * eval x (lhs c)) by ring. rewrite Z'.
    setoid_replace (z * eval x' (lhs c) - z * rhs c) with (z * (eval x' (lhs c) - rhs c)) by ring.
    destruct (sns c).
    - assert (P := Qmult_le_0_compat (- z) (rhs c - eval x' (lhs c)) ltac:(lra) ltac:(lra)). setoid_replace (- z * (rhs c - eval x' (lhs c))) with (z * (eval x' (lhs c) - rhs c)) in P by ring. exact P.
    - apply Qmult_le_0_compat; lra.
    - rewrite HH. ring_simplify. lra. }
  rewrite !total_app in V.
  assert (V1 : 0 <= total (weigh d) (nodal_y n losses T cols thr (fun t b => W t * price b t))).
  { apply K. intros c z I. assert (J : In (c, z) (nodal_y n losses T cols thr (fun t b => W t * price b t) ++ device_y T periods k s a ser mu ++ rest)) by (apply in_or_app; auto).
    split; [exact (SG c z J)|]. split; [exact (CS c z J)|]. apply S', in_or_app. left. apply in_map_iff. exists (c, z). auto. }
  assert (V2 : 0 <= total (weigh d) rest).
  { apply K. intros c z I. assert (J : In (c, z) (nodal_y n losses T cols thr (fun t b => W t * price b t) ++ device_y T periods k s a ser mu ++ rest)) by (apply in_or_app; right; apply in_or_app; auto).
    split; [exact (SG c z J)|]. split; [exact (CS c z J)|]. apply S', in_or_app. right. apply in_or_app. right. apply in_map_iff. exists (c, z). auto. }
  assert (V3 : - (q - StorageModel.s_init s) * total (fun t => if act t && start t then y t else 0) (seq 0 T) <= total (weigh d) (device_y T periods k s a ser mu)).
  { clear V V1 V2.
    assert (O := met_own). assert (O' : forall c, In c (map fst (device_y T periods k (with_init s q) a ser mu)) -> holds x' c) by (intros c I; apply S', in_or_app; right; apply in_or_app; auto).
    destruct (sm_same _ _ _ _ _ _ _ _ _ _ _ _ _ _ _ _ _ M) as (NA & NO & NS & CL & AA & OA & SA & EX & CO & CA & IN).
    assert (EN : forall flows infl, met x (energy_y T periods (level_name k) s flows infl y) -> (forall c, In c (map fst (energy_y T periods (level_name k) (with_init s q) flows infl y)) -> holds x' c) ->
      total (weigh d) (energy_y T periods (level_name k) s flows infl y) == - (q - StorageModel.s_init s) * total (fun t => if act t && start t then y t else 0) (seq 0 T)).
    { intros flows infl H H'. rewrite energy_sum, <- total_scale. apply total_ext. intros t I. apply in_seq in I. rewrite SA. destruct (act t) eqn:P; cbn [andb]; [|ring].
      assert (PS : StorageModel.s_active s t = true) by (rewrite SA; exact P).
      assert (H1 := energy_in T periods _ s flows infl y x t H ltac:(lia) PS).
      assert (H2 : - val x' (StorageModel.level (level_name k) s t) + eval x' (flows t) + StorageModel.s_stand s t * val x' (prev t) == - infl t - (if StorageModel.included periods s t then 0 else q)).
      { assert (J : In {| lhs := (-(1), StorageModel.level (level_name k) s t) :: flows t ++ [(StorageModel.s_stand s t, prev t)]; sns := Eq; rhs := - infl t - (if StorageModel.included periods s t then 0 else q) |}
          (map fst (energy_y T periods (level_name k) (with_init s q) flows infl y))).
        { apply in_map_iff. eexists (_, y t). split; [reflexivity|]. unfold energy_y, add_duals. apply in_flat_map. exists t. split; [apply in_seq; lia|]. apply in_flat_map. exists (with_init s q). split; [left; reflexivity|].
          cbn [with_init StorageModel.s_active]. rewrite PS. left. reflexivity. }
        apply H' in J. unfold holds in J. cbn [lhs sns rhs eval] in J. rewrite StorageProofs.eval_app in J. cbn [eval] in J. rewrite <- J. ring. }
      rewrite (start_included start t R ST ltac:(lia) P) in H1, H2. unfold d.
      assert (VL : forall l, val (less x' x) l == val x' l - val x l) by (intros [v|]; cbn [val]; unfold less; ring).
      rewrite !VL, eval_less. destruct (start t); cbn [negb] in H1, H2;
      setoid_replace (- (val x' (StorageModel.level (level_name k) s t) - val x (StorageModel.level (level_name k) s t)) + (eval x' (flows t) - eval x (flows t)) + StorageModel.s_stand s t * (val x' (prev t) - val x (prev t)))
        with ((- val x' (StorageModel.level (level_name k) s t) + eval x' (flows t) + StorageModel.s_stand s t * val x' (prev t)) - (- val x (StorageModel.level (level_name k) s t) + eval x (flows t) + StorageModel.s_stand s t * val x (prev t))) by ring;
      rewrite H1, H2; ring. }
    assert (K' : forall cy, met x cy -> (forall c, In c (map fst cy) -> holds x' c) -> 0 <= total (weigh d) cy).
    { intros cy H H'. apply K. intros c z I. destruct (H c z I) as (H1 & H2 & _). split; [exact H1|]. split; [exact H2|]. apply H', in_map_iff. exists (c, z). auto. }
    clear K SG CS SL F E S'. destruct k as [c ud|c h] eqn:K; unfold device_y in *; rewrite !met_app in O; rewrite !map_app in O'.
    - destruct O as (O1 & O2 & O3 & O4 & O5 & O6). rewrite !total_app.
      assert (A1 := K' _ O1 ltac:(intros ? ?; apply O'; rewrite !in_app_iff; tauto)).
      assert (A2 := K' _ O2 ltac:(intros ? ?; apply O'; rewrite !in_app_iff; tauto)).
      assert (A3 := K' _ O3 ltac:(intros ? ?; apply O'; rewrite !in_app_iff; tauto)).
      assert (A4 := K' _ O4 ltac:(intros ? ?; apply O'; rewrite !in_app_iff; tauto)).
      assert (A5 := EN _ _ O5 ltac:(intros ? ?; apply O'; rewrite !in_app_iff; tauto)).
      assert (A6 := K' _ O6 ltac:(intros ? ?; apply O'; rewrite !in_app_iff; tauto)).
      cbn [level_name] in A5. rewrite A5. lra.
    - destruct O as (O1 & O2 & O3). rewrite !total_app.
      assert (A1 := K' _ O1 ltac:(intros ? ?; apply O'; rewrite !in_app_iff; tauto)).
      assert (A2 := K' _ O2 ltac:(intros ? ?; apply O'; rewrite !in_app_iff; tauto)).
      assert (A3 := EN _ _ O3 ltac:(intros ? ?; apply O'; rewrite !in_app_iff; tauto)).
      cbn [level_name] in A3. rewrite A3. lra. }
  set (Y := total (fun t => if act t && start t then y t else 0) (seq 0 T)) in *. assert (- (q - StorageModel.s_init s) * Y == - ((q - StorageModel.s_init s) * Y)) by ring. lra.
Qed.
Lemma break_even_s : StorageSpec.regular periods -> (forall c q, In (c, q) rest -> unrelated k c) -> DispatchModel.ext a = true -> unset T ser ->
  match k with Unit _ d => forall t, (t < T)%nat -> StorageModel.inflow d t == 0 | Sto _ _ => True end -> StorageModel.s_init s == 0 ->
  DispatchModel.nom_set a = None -> (DispatchModel.nom_min a == 0 \/ DispatchModel.nom_min a < size x k a) ->
  match DispatchModel.nom_max a with Some u => size x k a < u | None => True end -> surplus on o k x price rest T == yearly on o * size x k a.
Proof.
  intros R UR E N IF SI F LO HI.
  rewrite (recovery_s (fun t => negb (StorageModel.included periods s t)) R).
  - assert (EN : endowment T (fun t => negb (StorageModel.included periods s t)) k s mu == 0).
    { apply total_zero. intros t I. apply in_seq in I. destruct (act t); [|reflexivity]. unfold inflow_value, received. destruct (negb (StorageModel.included periods s t)); rewrite ?SI; destruct k as [c d|c h]; try ring.
      - assert (Z : StorageModel.inflow d t == 0) by (apply IF; lia). assert (B : Qle_bool (StorageModel.inflow d t) 0 = true) by (apply Qle_bool_iff; lra). rewrite B, Z. ring.
      - assert (Z : StorageModel.inflow d t == 0) by (apply IF; lia). assert (B : Qle_bool (StorageModel.inflow d t) 0 = true) by (apply Qle_bool_iff; lra). rewrite B, Z. ring. }
    rewrite EN. assert (SR : size_rent a mu == 0); [|rewrite SR; ring].
    destruct (sm_same _ _ _ _ _ _ _ _ _ _ _ _ _ _ _ _ _ M) as (NA & NO & NS & CL & AA & OA & SA & EX & CO & CA & IN).
    assert (Z : exists cls nat_, met x (size_y cls nat_ a mu) /\ (DispatchModel.vname cls nat_) = nom_name k).
    { assert (O := met_own). destruct k; unfold device_y in O; rewrite !met_app in O; [exists "StorageUnit", "p_nom"|exists "Store", "e_nom"]; split; try reflexivity; apply O. }
    destruct Z as (cls & nat_ & Z & ZN). destruct (size_in cls nat_ a mu x Z E) as ((L1 & L2 & _) & U2 & _). rewrite ZN, NA in *.
    unfold size_rent. unfold size in LO, HI. rewrite E in LO, HI. rewrite F. set (c := x _) in *. clearbody c.
    assert (Q1 : of_nom_low mu * DispatchModel.nom_min a == 0).
    { destruct LO as [LO|LO]; [rewrite LO; ring|]. rewrite (qzero (c - DispatchModel.nom_min a) (of_nom_low mu)); [ring|rewrite <- L2; ring|lra]. }
    rewrite Q1. destruct (DispatchModel.nom_max a) as [u|]; [|ring]. destruct (U2 u eq_refl) as (_ & B & _). rewrite (qzero (c - u) (of_nom_high mu)); [ring|rewrite <- B; ring|lra].
  - intros t L P. destruct (sm_same _ _ _ _ _ _ _ _ _ _ _ _ _ _ _ _ _ M) as (_ & _ & _ & _ & _ & _ & SA & _). assert (PS : StorageModel.s_active s t = true) by (rewrite SA; exact P).
    destruct (StorageProofs.source_exists T periods s t R L PS) as (src & C). destruct (StorageProofs.source_label T periods (level_name k) s t src L PS C) as [E1 _].
    rewrite E1. unfold is_start. destruct src as [|r]; cbn [negb]; [split; auto|]. split; [discriminate|]. intros C'. destruct (StorageProofs.source_label T periods (level_name k) s t _ L PS C') as [E2 _]. congruence.
  - exact UR.
  - exact E.
  - exact N.
Qed.
End Market.
