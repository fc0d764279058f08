From Coq Require Import List String Bool QArith Lqa Lia.
From Verif Require Import LinModel LinProofs DispatchModel DispatchSpec DispatchProofs RampModel RampSpec FixModel FixSpec.
From Verif Require BalanceSpec RampProofs ObjectiveModel ObjectiveSpec ObjectiveProofs LossModel.
Import ListNotations.
Open Scope string_scope.
Open Scope list_scope.
Open Scope Q_scope.
Notation total := BalanceSpec.total.

Definition classes : list (string * string) :=
  [("Generator", "p_nom"); ("Line", "s_nom"); ("Transformer", "s_nom"); ("Link", "p_nom"); ("Store", "e_nom"); ("StorageUnit", "p_nom")].
Definition ops : list string := ["p"; "s"; "e"; "p_dispatch"; "p_store"; "state_of_charge"; "loss"; "status"].

Lemma mem_dec (v : string) : existsb (String.eqb v) capacity_arrays = false -> forall t a, ~ decides_capacity (v, t, a).
Proof.
  intros H t a I. unfold decides_capacity in I. cbn [fst] in I.
  assert (E : existsb (String.eqb v) capacity_arrays = true) by (apply existsb_exists; exists v; split; [exact I|apply String.eqb_refl]). congruence.
Qed.
Lemma mem_true (v : string) : existsb (String.eqb v) capacity_arrays = true -> forall t a, decides_capacity (v, t, a).
Proof. intros H t a. apply existsb_exists in H. destruct H as [w [I E]]. apply String.eqb_eq in E. subst. exact I. Qed.

Lemma op_names cls nattr v : In (cls, nattr) classes -> In v ops -> existsb (String.eqb (vname cls v)) capacity_arrays = false.
Proof.
  intros I J.
  assert (H : forallb (fun cn => forallb (fun v => negb (existsb (String.eqb (vname (fst cn) v)) capacity_arrays)) ops) classes = true) by (vm_compute; reflexivity).
  rewrite forallb_forall in H. specialize (H _ I). cbn [fst] in H. rewrite forallb_forall in H. specialize (H _ J). now apply negb_true_iff in H.
Qed.
Lemma cap_names cls nattr : In (cls, nattr) classes ->
  existsb (String.eqb (vname cls nattr)) capacity_arrays = true /\ existsb (String.eqb (vname cls "n_mod")) capacity_arrays = true.
Proof.
  intros I.
  assert (H : forallb (fun cn => existsb (String.eqb (vname (fst cn) (snd cn))) capacity_arrays && existsb (String.eqb (vname (fst cn) "n_mod")) capacity_arrays) classes = true)
    by (vm_compute; reflexivity).
  rewrite forallb_forall in H. specialize (H _ I). cbn [fst snd] in H. now apply andb_true_iff in H.
Qed.

Section W.
Variables x y z : sol.
Hypothesis W : with_capacities x y z.

Lemma rep_op cls nattr v (a : asset) t : In (cls, nattr) classes -> In v ops -> reported cls z v a t == reported cls y v a t.
Proof.
  intros I J. unfold reported, op. destruct (active a t); cbn [val]; [|reflexivity].
  apply (proj2 W). apply mem_dec. now apply (op_names cls nattr).
Qed.
Lemma rep_fixed cls v o (a : asset) t : reported cls y v (fix_row o a) t = reported cls y v a t.
Proof. reflexivity. Qed.
Lemma cap_same cls nattr (a : asset) : In (cls, nattr) classes -> nom_opt cls nattr z a == nom_opt cls nattr x a.
Proof.
  intros I. unfold nom_opt. destruct (ext a); [|reflexivity]. cbn [val cap]. apply (proj1 W). apply mem_true. now apply cap_names.
Qed.
Lemma nom_fixed cls nattr (a : asset) : nom_opt cls nattr y (fix_row (nom_opt cls nattr x a) a) = nom_opt cls nattr x a.
Proof. unfold nom_opt at 1. cbn [fix_row ext nom]. unfold nom_opt. now destruct (ext a). Qed.

Lemma within_eq k a t c v l c' v' l' : c == c' -> v == v' -> l == l' -> within k a t c v l <-> within k a t c' v' l'.
Proof.
  intros C V L. destruct k; cbn [within]; rewrite C, V; try rewrite L; tauto.
Qed.
Lemma within_fixed k a o t c v l : within k (fix_row o a) t c v l <-> within k a t c v l.
Proof. destruct k; cbn [within fix_row max_pu min_pu max_hours]; tauto. Qed.

Lemma capacity_same cls nattr a : In (cls, nattr) classes -> capacity_ok cls nattr x a -> capacity_ok cls nattr z a.
Proof.
  intros I [A [B [C D]]]. unfold capacity_ok. pose proof (cap_same cls nattr a I) as E. cbv zeta. repeat split.
  - now rewrite E.
  - intros u U. rewrite E. auto.
  - intros s U. rewrite E. auto.
  - intros P. rewrite E. rewrite (D P). apply Qmult_comp; [reflexivity|]. symmetry. apply (proj1 W). apply mem_true. now apply (cap_names cls nattr).
Qed.

Lemma dispatch_fixed g losses T : proper_group g ->
  (forall a, In a (g_rows g) -> ext a = true -> capacity_ok (g_cls g) (g_nattr g) x a) ->
  (dispatch_ok (g_cls g) (g_attr g) (g_nattr g) (g_kind g) losses T (g_rows (fix_group x g)) y <->
   dispatch_ok (g_cls g) (g_attr g) (g_nattr g) (g_kind g) losses T (g_rows g) z).
Proof.
  intros [IC [IA NC]] OK. assert (JA : In (g_attr g) ops) by (revert IA; unfold ops; cbn [In]; intuition auto).
  assert (JP : In "p" ops) by (left; reflexivity). assert (JL : In "loss" ops) by (unfold ops; cbn [In]; auto 10).
  assert (JS : In "status" ops) by (unfold ops; cbn [In]; auto 10).
  assert (LL : forall a t, loss_of (g_cls g) losses z a t == loss_of (g_cls g) losses y a t).
  { intros a t. unfold loss_of. destruct losses; [|reflexivity]. now apply (rep_op _ (g_nattr g)). }
  unfold dispatch_ok. cbn [fix_group g_rows]. split.
  - intros [_ [H2 [H3 H4]]]. split; [|split; [|split]].
    + intros a I E. apply capacity_same; auto.
    + intros a t I L M E. pose proof (in_map (fun a => fix_row (nom_opt (g_cls g) (g_nattr g) x a) a) _ _ I) as I'.
      specialize (H2 _ t I' L M). assert (C : com a = false) by (destruct E as [E|E]; auto).
      specialize (H2 (or_intror C)). apply within_fixed in H2. rewrite nom_fixed in H2.
      apply (within_eq _ a t _ _ _ _ _ _ (cap_same _ _ a IC) (rep_op _ _ _ a t IC JA) (LL a t)). exact H2.
    + intros a t I L M E. pose proof (in_map (fun a => fix_row (nom_opt (g_cls g) (g_nattr g) x a) a) _ _ I) as I'.
      specialize (H3 _ t I' L M E). assert (X : ext a = false) by (destruct (ext a) eqn:X; auto; specialize (NC a I X); congruence).
      cbv zeta in H3 |- *. rewrite !rep_fixed in H3. cbn [fix_row nom min_pu max_pu] in H3. rewrite X in H3.
      rewrite !(rep_op _ (g_nattr g)) by assumption. exact H3.
    + intros a t s I L M E. pose proof (in_map (fun a => fix_row (nom_opt (g_cls g) (g_nattr g) x a) a) _ _ I) as I'.
      specialize (H4 _ t s I' L M E). rewrite rep_fixed in H4. now rewrite (rep_op _ (g_nattr g)) by assumption.
  - intros [_ [H2 [H3 H4]]]. split; [|split; [|split]].
    + intros b I E. apply in_map_iff in I. destruct I as [a [<- I]]. discriminate.
    + intros b t I L M E. apply in_map_iff in I. destruct I as [a [<- I]]. cbn [fix_row active ext com] in M, E.
      destruct E as [E|E]; [discriminate|]. specialize (H2 a t I L M (or_intror E)).
      apply within_fixed. rewrite nom_fixed. apply (within_eq _ a t _ _ _ _ _ _ (cap_same _ _ a IC) (rep_op _ _ _ a t IC JA) (LL a t)) in H2. exact H2.
    + intros b t I L M E. apply in_map_iff in I. destruct I as [a [<- I]]. cbn [fix_row active com] in M, E.
      specialize (H3 a t I L M E). assert (X : ext a = false) by (destruct (ext a) eqn:X; auto; specialize (NC a I X); congruence).
      cbv zeta in H3 |- *. rewrite !rep_fixed. cbn [fix_row nom min_pu max_pu]. rewrite X.
      rewrite !(rep_op _ (g_nattr g)) in H3 by assumption. exact H3.
    + intros b t s I L M E. apply in_map_iff in I. destruct I as [a [<- I]]. cbn [fix_row active fix_set] in M, E.
      specialize (H4 a t s I L M E). rewrite rep_fixed. now rewrite (rep_op _ (g_nattr g)) in H4 by assumption.
Qed.

(* ---------- ramps ---------- *)
Lemma ramp_within_eq cls nattr (a : rasset) t c c' : In (cls, nattr) classes -> c == c' ->
  (ramps_within cls y a t c <-> ramps_within cls z a t c').
Proof.
  intros I C. assert (JP : In "p" ops) by (left; reflexivity).
  assert (A : p_of cls z a t == p_of cls y a t) by (now apply (rep_op cls nattr)).
  assert (B : p_prev cls z a t == p_prev cls y a t) by (destruct t; [reflexivity|now apply (rep_op cls nattr)]).
  unfold ramps_within. split; intros [H1 H2]; split; intros l E; try specialize (H1 l E); try specialize (H2 l E).
  - rewrite A, B, <- C. exact H1.
  - rewrite A, B, <- C. exact H2.
  - rewrite A, B, <- C in H1. exact H1.
  - rewrite A, B, <- C in H2. exact H2.
Qed.
Lemma early_fixed r T : early_return T (r_rows (fix_rgroup x r)) = early_return T (r_rows r).
Proof.
  unfold early_return, everywhere. cbn [fix_rgroup r_rows].
  assert (H : forall f, forallb (fun a => forallb (fun t => f (up a t) && f (down a t)) (seq 0 T)) (map (fun a => fix_ramp (nom_opt (r_cls r) (r_nattr r) x (base a)) a) (r_rows r)) =
                        forallb (fun a => forallb (fun t => f (up a t) && f (down a t)) (seq 0 T)) (r_rows r)).
  { intros f. induction (r_rows r) as [|a l IH]; [reflexivity|]. cbn [map forallb]. rewrite IH. reflexivity. }
  now rewrite !H.
Qed.

Lemma ramps_fixed r T : proper_ramps r ->
  (sat y (ramps (r_cls r) (r_nattr r) T (r_rolling r) (r_rows (fix_rgroup x r))) <->
   sat z (ramps (r_cls r) (r_nattr r) T (r_rolling r) (r_rows r))).
Proof.
  intros [IC NC]. assert (KC : In (r_cls r, r_nattr r) classes) by (revert IC; unfold classes; cbn [In]; intuition auto).
  assert (JP : In "p" ops) by (left; reflexivity). assert (JS : In "status" ops) by (unfold ops; cbn [In]; auto 10).
  assert (PV : forall a t, p_prev (r_cls r) z a t == p_prev (r_cls r) y a t) by (intros a [|t]; [reflexivity|now apply (rep_op _ (r_nattr r))]).
  assert (PO : forall a t, p_of (r_cls r) z a t == p_of (r_cls r) y a t) by (intros a t; now apply (rep_op _ (r_nattr r))).
  assert (SV : forall a t, s_prev (r_cls r) z a t == s_prev (r_cls r) y a t) by (intros a [|t]; [reflexivity|now apply (rep_op _ (r_nattr r))]).
  assert (SO : forall a t, s_of (r_cls r) z a t == s_of (r_cls r) y a t) by (intros a t; now apply (rep_op _ (r_nattr r))).
  unfold ramps. rewrite early_fixed. destruct (early_return T (r_rows r)); [split; intros _; apply sat_nil|].
  rewrite !sat_app, !RampProofs.fixed_iff, !RampProofs.extendable_iff, !RampProofs.com_iff. cbn [fix_rgroup r_rows]. split.
  - intros [H1 [_ H3]]. split; [|split].
    + intros a t I E C A P. pose proof (in_map (fun a => fix_ramp (nom_opt (r_cls r) (r_nattr r) x (base a)) a) _ _ I) as I'.
      specialize (H1 _ t I' eq_refl C A P). cbn [fix_ramp base fix_row nom] in H1. rewrite E in H1.
      apply (ramp_within_eq (r_cls r) (r_nattr r) a t (nom a) (nom a) KC (Qeq_refl _)). exact H1.
    + intros a t I E A P. pose proof (in_map (fun a => fix_ramp (nom_opt (r_cls r) (r_nattr r) x (base a)) a) _ _ I) as I'.
      specialize (H1 _ t I' eq_refl (NC a I E) A P). cbn [fix_ramp base fix_row nom] in H1. rewrite E in H1.
      apply (ramp_within_eq (r_cls r) (r_nattr r) a t (nom_opt (r_cls r) (r_nattr r) x (base a)) _ KC); [symmetry; now apply cap_same|]. exact H1.
    + intros a t I C A P. pose proof (in_map (fun a => fix_ramp (nom_opt (r_cls r) (r_nattr r) x (base a)) a) _ _ I) as I'.
      specialize (H3 _ t I' C A P). assert (X : ext (base a) = false) by (destruct (ext (base a)) eqn:X; auto; specialize (NC a I X); congruence).
      cbn [fix_ramp base fix_row nom up_static down_static start_lim shut_lim] in H3. rewrite X in H3. destruct H3 as [U D].
      split; intros l Q; [specialize (U l Q); rewrite PO, PV, SO, SV; exact U|specialize (D l Q); rewrite PO, PV, SO, SV; exact D].
  - intros [H1 [H2 H3]]. split; [|split].
    + intros b t I E C A P. apply in_map_iff in I. destruct I as [a [<- I]]. cbn [fix_ramp base fix_row com active] in C, A.
      cbn [fix_ramp base fix_row nom]. destruct (ext (base a)) eqn:X.
      * specialize (H2 a t I X A P). apply (ramp_within_eq (r_cls r) (r_nattr r) a t (nom_opt (r_cls r) (r_nattr r) x (base a)) _ KC) in H2; [exact H2|].
        symmetry. now apply cap_same.
      * specialize (H1 a t I X C A P). apply (ramp_within_eq (r_cls r) (r_nattr r) a t (nom a) (nom a) KC (Qeq_refl _)) in H1. exact H1.
    + intros b t I E. apply in_map_iff in I. destruct I as [a [<- I]]. discriminate.
    + intros b t I C A P. apply in_map_iff in I. destruct I as [a [<- I]]. cbn [fix_ramp base fix_row com active] in C, A.
      specialize (H3 a t I C A P). assert (X : ext (base a) = false) by (destruct (ext (base a)) eqn:X; auto; specialize (NC a I X); congruence).
      cbn [fix_ramp base fix_row nom up_static down_static start_lim shut_lim]. rewrite X. destruct H3 as [U D].
      split; intros l Q; [specialize (U l Q); rewrite PO, PV, SO, SV in U; exact U|specialize (D l Q); rewrite PO, PV, SO, SV in D; exact D].
Qed.
End W.

(* ---------- costs ---------- *)
Section C.
Import ObjectiveModel ObjectiveSpec.
Lemma total_ext {A} (f g : A -> Q) l : (forall a, In a l -> f a == g a) -> total f l == total g l.
Proof.
  induction l as [|a l IH]; intros H; [reflexivity|]. cbn [BalanceSpec.total fold_right].
  rewrite (H a (or_introl eq_refl)). apply Qplus_comp; [reflexivity|]. apply IH. intros; apply H; now right.
Qed.
Lemma total_map {A B} (f : B -> Q) (h : A -> B) l : total f (map h l) = total (fun a => f (h a)) l.
Proof. induction l as [|a l IH]; [reflexivity|]. unfold BalanceSpec.total in *. cbn [map fold_right]. now rewrite IH. Qed.
Lemma total_zero {A} (f : A -> Q) l : (forall a, In a l -> f a == 0) -> total f l == 0.
Proof. intros H. rewrite (total_ext f (fun _ => 0)) by exact H. clear H. induction l as [|a l IH]; [reflexivity|]. unfold BalanceSpec.total in *. cbn [fold_right]. rewrite IH. reflexivity. Qed.

Variables x y z : sol.
Hypothesis W : with_capacities x y z.
Lemma at_same a v t : existsb (String.eqb v) capacity_arrays = false -> at_ z a v t == at_ y a v t.
Proof. intros H. unfold at_. destruct (a_on a t); [|reflexivity]. apply (proj2 W). now apply mem_dec. Qed.
Ltac at_tac := repeat match goal with |- context [if ?b then _ else _] => destruct b end; try reflexivity; apply at_same; reflexivity.
Lemma dispatch_same a t : dispatch z a t == dispatch y a t.
Proof. unfold dispatch. at_tac. Qed.
Lemma stored_same a t : stored z a t == stored y a t.
Proof. unfold stored. at_tac. Qed.
Lemma spilled_same a t : spilled z a t == spilled y a t.
Proof. unfold spilled. at_tac. Qed.
Lemma unit_same what a t : In what ["status"; "start_up"; "shut_down"] -> unit_value z what a t == unit_value y what a t.
Proof. intros [<-|[<-|[<-|[]]]]; unfold unit_value; at_tac. Qed.
Lemma running_same a t : running z a t == running y a t.
Proof. unfold running. rewrite dispatch_same, stored_same, spilled_same, unit_same by (left; reflexivity). reflexivity. Qed.
Lemma starts_same a t : starts z a t == starts y a t.
Proof. unfold starts. rewrite !unit_same by (cbn [In]; auto). reflexivity. Qed.

Lemma capacity_cost_same a : capacity z a == capacity x a.
Proof.
  unfold capacity. destruct (a_ext a); [|reflexivity]. apply (proj1 W).
  repeat match goal with |- context [if ?b then _ else _] => destruct b end; apply mem_true; reflexivity.
Qed.

Lemma running_fixed o a t : running y (fix_cost o a) t = running y a t.
Proof. reflexivity. Qed.

Lemma value_fixed n ps ps' : proper_costs n -> const_fixed n x -> objective n = Some ps -> objective (fix_costs x n) = Some ps' ->
  value_of z ps == expansion n x (annual n) + value_of y ps'.
Proof.
  intros [K [S1 S2]] CF O1 O2.
  assert (CZ : const_fixed n z).
  { intros N. rewrite <- (CF N). unfold const_label. cbn [val]. apply (proj1 W). apply mem_true. reflexivity. }
  assert (K' : known (fix_costs x n)).
  { intros b I. cbn [fix_costs assets] in I. apply in_map_iff in I. destruct I as [a [<- I]]. exact (K a I). }
  assert (P1 : ObjectiveSpec.proper (fix_costs x n) a_start).
  { intros b I. cbn [fix_costs assets] in I. apply in_map_iff in I. destruct I as [a [<- I]]. exact (S1 a I). }
  assert (P2 : ObjectiveSpec.proper (fix_costs x n) a_shut).
  { intros b I. cbn [fix_costs assets] in I. apply in_map_iff in I. destruct I as [a [<- I]]. exact (S2 a I). }
  assert (Z0 : constant (fix_costs x n) == 0).
  { rewrite (ObjectiveProofs.constant_part _ K'). apply total_zero. intros b I. cbn [fix_costs assets] in I. apply in_map_iff in I. destruct I as [a [<- I]]. reflexivity. }
  assert (CY : const_fixed (fix_costs x n) y).
  { intros N. apply Qeq_bool_iff in Z0. rewrite Z0 in N. discriminate. }
  rewrite (ObjectiveProofs.objective_value n z ps K CZ S1 S2 O1), (ObjectiveProofs.objective_value _ y ps' K' CY P1 P2 O2).
  assert (E1 : expansion n z (annual n) == expansion n x (annual n)).
  { unfold expansion. apply total_ext. intros a I. now rewrite capacity_cost_same. }
  assert (E2 : expansion (fix_costs x n) y (annual (fix_costs x n)) == 0).
  { unfold expansion. apply total_zero. intros b I. cbn [fix_costs assets] in I. apply in_map_iff in I. destruct I as [a [<- I]].
    unfold capacity. cbn [fix_cost a_ext]. ring. }
  assert (E3 : operating n z (weighting n) == operating (fix_costs x n) y (weighting (fix_costs x n))).
  { unfold operating. cbn [fix_costs nsnaps days assets]. unfold days. cbn [fix_costs nsnaps]. apply total_ext. intros t I.
    change (weighting (fix_costs x n) t) with (weighting n t). apply Qmult_comp; [reflexivity|]. rewrite total_map. apply total_ext. intros a J.
    rewrite running_fixed. apply running_same. }
  assert (E4 : switching_cost n z == switching_cost (fix_costs x n) y).
  { unfold switching_cost, days. cbn [fix_costs nsnaps assets]. apply total_ext. intros t I. rewrite total_map. apply total_ext. intros a J. exact (starts_same a t). }
  rewrite E1, E2, E3, E4. ring.
Qed.
End C.

(* ---------- the problem ---------- *)
Lemma sat_flat {A} s (f : A -> list con) l : sat s (flat_map f l) <-> forall a, In a l -> sat s (f a).
Proof.
  unfold sat. split.
  - intros H a I c J. apply H. apply in_flat_map. eauto.
  - intros H c J. apply in_flat_map in J. destruct J as [a [I J]]. eauto.
Qed.
Lemma sat_flat_map {A B} s (f : B -> list con) (h : A -> B) l : sat s (flat_map f (map h l)) <-> forall a, In a l -> sat s (f (h a)).
Proof.
  rewrite sat_flat. split; intros H a I.
  - apply H. now apply in_map.
  - apply in_map_iff in I. destruct I as [b [<- I]]. auto.
Qed.

Lemma build_some pb b : build pb = Some b -> fst b = limits pb /\ ObjectiveModel.objective (costs pb) = Some (snd b).
Proof.
  unfold build. destruct (forallb known_set (groups pb)); [|discriminate]. destruct (ObjectiveModel.objective (costs pb)) as [ps|]; [|discriminate].
  intros E. inversion E; subst. auto.
Qed.

Lemma domains_fixed x y z g T : with_capacities x y z -> proper_group g -> domains (g_cls g) T (g_rows g) x ->
  (domains (g_cls g) T (g_rows (fix_group x g)) y <-> domains (g_cls g) T (g_rows g) z).
Proof.
  intros W [IC [IA NC]] [_ [DM _]]. cbn [fix_group g_rows]. unfold domains.
  assert (L : forall t a, x (vname (g_cls g) "n_mod", t, name a) == z (vname (g_cls g) "n_mod", t, name a)).
  { intros t a. symmetry. apply (proj1 W). apply mem_true. exact (proj2 (cap_names _ _ IC)). }
  assert (LO : forall t a, z (vname (g_cls g) "loss", t, name a) == y (vname (g_cls g) "loss", t, name a)).
  { intros t a. apply (proj2 W). apply mem_dec. apply (op_names _ _ _ IC). cbn; auto 10. }
  assert (ST : forall t a, z (vname (g_cls g) "status", t, name a) == y (vname (g_cls g) "status", t, name a)).
  { intros t a. apply (proj2 W). apply mem_dec. apply (op_names _ _ _ IC). cbn; auto 10. }
  split.
  - intros [D1 [D2 D3]]. split; [|split].
    + intros a t I LT A. rewrite LO. exact (D1 _ t (in_map (fun a => fix_row (nom_opt (g_cls g) (g_nattr g) x a) a) _ _ I) LT A).
    + intros a I. destruct (DM a I) as [k E]. exists k. now rewrite <- L.
    + intros a t I LT A. rewrite ST. unfold com_assets in I. apply filter_In in I. destruct I as [I C].
      apply (D3 (fix_row (nom_opt (g_cls g) (g_nattr g) x a) a) t); auto. unfold com_assets. apply filter_In. split; [|exact C].
      exact (in_map (fun a => fix_row (nom_opt (g_cls g) (g_nattr g) x a) a) _ _ I).
  - intros [D1 [D2 D3]]. split; [|split].
    + intros b t I LT A. apply in_map_iff in I. destruct I as [a [<- I]]. cbn [fix_row name]. rewrite <- LO. exact (D1 a t I LT A).
    + intros b I. unfold mod_assets in I. apply filter_In in I. destruct I as [I E]. apply in_map_iff in I. destruct I as [a [<- I]]. discriminate.
    + intros b t I LT A. unfold com_assets in I. apply filter_In in I. destruct I as [I C]. apply in_map_iff in I. destruct I as [a [<- I]].
      cbn [fix_row name]. rewrite <- ST. apply (D3 a t); auto. apply filter_In. auto.
Qed.

Section Main.
Variables (pb : problem) (P G : sol -> Prop) (x : sol) (b b' : list con * list ObjectiveModel.piece).
Hypothesis PR : FixSpec.proper pb.
Hypothesis OP : operational P.
Hypothesis SG : structural G.
Hypothesis B : build pb = Some b.
Hypothesis B' : build (fix_optimal_capacities x pb) = Some b'.
Let PG (s : sol) : Prop := P s /\ G s.
Let fb := fix_optimal_capacities x pb.

Lemma solution_fixed y z : solution pb (fst b) PG x -> with_capacities x y z -> (solution fb (fst b') P y <-> solution pb (fst b) PG z).
Proof.
  intros [S0 [[D0 C0] [P0 G0]]] W. destruct PR as [PG1 [PR1 PC1]].
  destruct (build_some _ _ B) as [E1 O1]. destruct (build_some _ _ B') as [E2 O2]. unfold solution, in_domains. rewrite E1, E2.
  rewrite E1 in S0. unfold limits in S0 |- *. rewrite sat_app in S0. destruct S0 as [S0 R0]. rewrite sat_flat in S0. rewrite sat_flat in R0.
  assert (OKC : forall g, In g (groups pb) -> forall a, In a (g_rows g) -> ext a = true -> capacity_ok (g_cls g) (g_nattr g) x a).
  { intros g I. specialize (S0 g I). apply dispatch_iff in S0. exact (proj1 S0). }
  unfold fb. cbn [fix_optimal_capacities groups ramping costs losses horizon]. rewrite !sat_app, !sat_flat_map, !sat_flat.
  assert (CZ : ObjectiveModel.const_fixed (costs pb) z).
  { intros N. rewrite <- (C0 N). unfold ObjectiveModel.const_label. cbn [val]. apply (proj1 W). apply mem_true. reflexivity. }
  assert (CY : ObjectiveModel.const_fixed (fix_costs x (costs pb)) y).
  { intros N. exfalso. assert (Z0 : ObjectiveModel.constant (fix_costs x (costs pb)) == 0).
    { rewrite (ObjectiveProofs.constant_part (fix_costs x (costs pb))).
      - apply total_zero. intros a I. cbn [fix_costs ObjectiveModel.assets] in I. apply in_map_iff in I. destruct I as [c [<- I]]. reflexivity.
      - intros a I. cbn [fix_costs ObjectiveModel.assets] in I. apply in_map_iff in I. destruct I as [c [<- I]]. exact (proj1 PC1 c I). }
    apply Qeq_bool_iff in Z0. rewrite Z0 in N. discriminate. }
  assert (PYZ : P y <-> P z).
  { split; apply OP; intros v N; [symmetry|]; now apply (proj2 W). }
  assert (GZ : G z) by (apply (SG x); [|exact G0]; intros v N; symmetry; now apply (proj1 W)).
  unfold PG. split.
  - intros [[A R] [[D _] Y]]. split; [split|split; [split|]].
    + intros g I. specialize (A g I). apply dispatch_iff. apply (dispatch_fixed x y z W g _ _ (PG1 g I) (OKC g I)). apply dispatch_iff. exact A.
    + intros r I. specialize (R r I). apply (ramps_fixed x y z W r _ (PR1 r I)). exact R.
    + intros g I. apply (domains_fixed x y z g _ W (PG1 g I) (D0 g I)). apply (D (fix_group x g)). now apply in_map.
    + exact CZ.
    + split; [now apply PYZ|exact GZ].
  - intros [[A R] [[D _] [Y _]]]. split; [split|split; [split|]].
    + intros g I. specialize (A g I). apply dispatch_iff. apply (dispatch_fixed x y z W g _ _ (PG1 g I) (OKC g I)). apply dispatch_iff. exact A.
    + intros r I. specialize (R r I). apply (ramps_fixed x y z W r _ (PR1 r I)). exact R.
    + intros g' I. apply in_map_iff in I. destruct I as [g [<- I]]. apply (domains_fixed x y z g _ W (PG1 g I) (D0 g I)). exact (D g I).
    + exact CY.
    + now apply PYZ.
Qed.

Lemma value_split y z : solution pb (fst b) PG x -> with_capacities x y z ->
  ObjectiveModel.value_of z (snd b) == ObjectiveSpec.expansion (costs pb) x (ObjectiveModel.annual (costs pb)) + ObjectiveModel.value_of y (snd b').
Proof.
  intros [_ [[_ C0] _]] W. destruct (build_some _ _ B) as [_ O1]. destruct (build_some _ _ B') as [_ O2].
  exact (value_fixed x y z W (costs pb) (snd b) (snd b') (proj2 (proj2 PR)) C0 O1 O2).
Qed.

Definition isdec (v : var) : bool := existsb (String.eqb (fst (fst v))) capacity_arrays.
Definition merge (s y : sol) : sol := fun v => if isdec v then s v else y v.
Lemma merge_with s y : with_capacities s y (merge s y).
Proof.
  unfold merge. split; intros [[v t] a] N; unfold isdec; cbn [fst].
  - destruct (existsb (String.eqb v) capacity_arrays) eqn:E; [reflexivity|]. exfalso. exact (mem_dec v E t a N).
  - destruct (existsb (String.eqb v) capacity_arrays) eqn:E; [|reflexivity]. exfalso. apply N. exact (mem_true v E t a).
Qed.
Lemma self_with s : with_capacities s s s.
Proof. split; intros; reflexivity. Qed.

Lemma fixed_optimum : optimum pb b PG x -> optimum fb b' P x.
Proof.
  intros [S M]. split; [now apply (solution_fixed x x S (self_with x))|]. intros y Y.
  pose proof (merge_with x y) as W. apply (solution_fixed y _ S W) in Y. specialize (M _ Y).
  rewrite (value_split y _ S W), (value_split x x S (self_with x)) in M. lra.
Qed.
Lemma fixed_converse y z : optimum pb b PG x -> optimum fb b' P y -> with_capacities x y z -> optimum pb b PG z.
Proof.
  intros [S M] [SY MY] W. split; [now apply (solution_fixed y z S W)|]. intros w SW.
  specialize (M w SW). assert (X : solution fb (fst b') P x) by now apply (solution_fixed x x S (self_with x)).
  specialize (MY x X). rewrite (value_split y z S W). rewrite (value_split x x S (self_with x)) in M. lra.
Qed.
End Main.

(* ---------- rows, definedness ---------- *)
Lemma rows_fixed x g : Forall2 (fun a a' => same_row a a' (nom_opt (g_cls g) (g_nattr g) x a)) (g_rows g) (g_rows (fix_group x g)).
Proof.
  cbn [fix_group g_rows]. induction (g_rows g) as [|a l IH]; constructor; [|exact IH]. unfold same_row. cbn [fix_row ext nom name nom_min nom_max nom_set nom_mod com active min_pu max_pu max_hours fix_set].
  repeat split. unfold nom_opt. now destruct (ext a).
Qed.
Lemma again x x' pb : fix_optimal_capacities x' (fix_optimal_capacities x pb) = fix_optimal_capacities x pb.
Proof.
  unfold fix_optimal_capacities. cbn [groups ramping costs losses horizon]. f_equal.
  - rewrite map_map. apply map_ext. intros g. unfold fix_group. cbn [g_cls g_attr g_nattr g_kind g_rows]. f_equal. rewrite map_map. apply map_ext. intros a. reflexivity.
  - rewrite map_map. apply map_ext. intros g. unfold fix_rgroup. cbn [r_cls r_nattr r_rolling r_rows]. f_equal. rewrite map_map. apply map_ext. intros a. reflexivity.
  - unfold fix_costs. cbn [ObjectiveModel.assets ObjectiveModel.nsnaps ObjectiveModel.w_snap ObjectiveModel.per ObjectiveModel.multi]. f_equal. rewrite map_map. apply map_ext. intros a. reflexivity.
Qed.
Lemma builds x pb : (exists b, build (fix_optimal_capacities x pb) = Some b) <->
  (forall g a, In g (groups pb) -> In a (g_rows g) -> nom_set a = None) /\ exists ps, ObjectiveModel.objective (fix_costs x (costs pb)) = Some ps.
Proof.
  unfold build. cbn [fix_optimal_capacities groups costs].
  assert (K : forallb known_set (map (fix_group x) (groups pb)) = true <-> forall g a, In g (groups pb) -> In a (g_rows g) -> nom_set a = None).
  { rewrite forallb_forall. split.
    - intros H g a I J. specialize (H _ (in_map (fix_group x) _ _ I)). unfold known_set in H. apply orb_true_iff in H. destruct H as [H|H].
      + apply existsb_exists in H. destruct H as [c [Ic E]]. cbn [fix_group g_rows] in Ic. apply in_map_iff in Ic. destruct Ic as [d [<- _]]. discriminate.
      + rewrite forallb_forall in H. specialize (H _ (in_map (fun a => fix_row (nom_opt (g_cls g) (g_nattr g) x a) a) _ _ J)). cbn [fix_row nom_set] in H.
        destruct (nom_set a); [discriminate|reflexivity].
    - intros H c I. apply in_map_iff in I. destruct I as [g [<- I]]. unfold known_set. apply orb_true_iff. right. apply forallb_forall. intros d J.
      cbn [fix_group g_rows] in J. apply in_map_iff in J. destruct J as [a [<- J]]. cbn [fix_row nom_set]. now rewrite (H g a I J). }
  split.
  - intros [b E]. destruct (forallb known_set _) eqn:F; [|discriminate]. split; [now apply K|].
    destruct (ObjectiveModel.objective _) as [ps|]; [exists ps; reflexivity|discriminate].
  - intros [H [ps E]]. rewrite (proj2 K H), E. cbn [option_map]. eauto.
Qed.
(* conditions given by constraints without capacity variables *)
Lemma constraints_operational cs : (forall c q v, In c cs -> In (q, Some v) (lhs c) -> ~ decides_capacity v) -> operational (fun x => sat x cs).
Proof.
  intros H x y E S c I. specialize (S c I). unfold holds in *.
  assert (V : eval x (lhs c) == eval y (lhs c)).
  { specialize (H c). revert H. generalize (lhs c). intros l H. induction l as [|[q [v|]] l IH]; [reflexivity| |].
    - cbn [eval val]. rewrite (E v (H q v I (or_introl eq_refl))), IH; [reflexivity|]. intros q' v' I' J. apply (H q' v' I'). now right.
    - cbn [eval val]. rewrite IH; [reflexivity|]. intros q' v' I' J. apply (H q' v' I'). now right. }
  destruct (sns c); rewrite <- V; exact S.
Qed.

Lemma costs_fixed x n : ObjectiveSpec.known n ->
  Forall2 (fun a b => same_costs a b (ObjectiveSpec.capacity x a)) (ObjectiveModel.assets n) (ObjectiveModel.assets (fix_costs x n)).
Proof.
  intros K. unfold fix_costs. cbn [ObjectiveModel.assets]. unfold ObjectiveSpec.known in K. induction (ObjectiveModel.assets n) as [|a l IH]; [constructor|]. cbn [map]. constructor.
  - unfold same_costs, fix_cost. cbn. split; [reflexivity|]. split; [|repeat split]. unfold ObjectiveSpec.capacity. destruct (ObjectiveModel.a_ext a); [|reflexivity].
    assert (I := K a (or_introl eq_refl)). unfold opt_cost, ObjectiveSpec.is in *. cbn [existsb] in *.
    rewrite !orb_true_iff, !String.eqb_eq in I. destruct I as [E|[E|[E|[E|[E|[E|E]]]]]]; [rewrite E; reflexivity..|discriminate E].
  - apply IH. intros b I. apply K. right. exact I.
Qed.
