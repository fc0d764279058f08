From Coq Require Import List String Bool QArith ZArith Arith Lqa Lia.
From Verif Require Import LinModel LinProofs StorageModel StorageSpec StorageProofs LimitModel LimitSpec.
From Verif Require BalanceProofs.
Import ListNotations.
Open Scope string_scope.
Open Scope list_scope.
Open Scope Q_scope.

Lemma eval_total x l : eval x l == total (fun cv => fst cv * val x (snd cv)) l.
Proof. induction l as [|[c v] l IH]; [reflexivity|]. cbn [eval]. rewrite IH. reflexivity. Qed.

Lemma asc_filter f a k l1 t l2 : filter f (seq a k) = l1 ++ t :: l2 -> forall r, In r l2 -> (t < r)%nat.
Proof.
  revert a l1. induction k as [|k IH]; intros a l1 E r I; cbn [seq filter] in E; [destruct l1; discriminate|].
  destruct (f a); [|eapply IH; eauto]. destruct l1 as [|b l1]; cbn [app] in E.
  - injection E as E1 E2. rewrite <- E2 in I. apply filter_In in I. destruct I as [I _]. apply in_seq in I. lia.
  - injection E as E1 E2. eapply IH; eauto.
Qed.
Lemma selected_is n g sel : selected n g = Some sel -> exists f, sel = filter f (seq 0 (nsnaps n)).
Proof.
  unfold selected. destruct (inv_period g) as [p|].
  - destruct (period n) as [per|]; [|discriminate]. destruct (existsb _ _); [|discriminate]. intros E. injection E as <-. eauto.
  - intros E. injection E as <-. exists (fun _ => true). symmetry. induction (seq 0 (nsnaps n)) as [|a l IH]; [reflexivity|]. cbn [filter]. now rewrite IH.
Qed.
Lemma selected_about n g sel : selected n g = Some sel -> NoDup sel /\ forall t, In t sel <-> about n g t.
Proof.
  unfold selected, about. destruct (inv_period g) as [p|].
  - destruct (period n) as [per|]; [|discriminate]. destruct (existsb _ _); [|discriminate]. intros E. injection E as <-. split; [apply NoDup_filter, seq_NoDup|].
    intros t. rewrite filter_In, in_seq, Z.eqb_eq. intuition lia.
  - intros E. injection E as <-. split; [apply seq_NoDup|]. intros t. rewrite in_seq. destruct (period n); intuition lia.
Qed.

Lemma fold_inactive lev s l acc : (forall r, In r l -> s_active s r = false) ->
  fold_left (fun acc t => match level lev s t with Some v => Some v | None => acc end) l acc = acc.
Proof.
  revert acc. induction l as [|a l IH]; intros acc H; [reflexivity|]. cbn [fold_left]. unfold level at 2. unfold var_of at 1. rewrite (H a) by (simpl; auto). apply IH. intros r I. apply H. simpl. auto.
Qed.
Lemma final_value x lev s f a k q : final_level x lev s (filter f (seq a k)) q -> val x (final_label lev s (filter f (seq a k))) == q.
Proof.
  intros [t [I [A [N Q]]]]. destruct (in_split _ _ I) as [l1 [l2 E]]. pose proof (asc_filter f a k l1 t l2 E) as AS. unfold final_label. rewrite E in *.
  rewrite fold_left_app. cbn [fold_left]. unfold level at 2. unfold var_of at 1. rewrite A. rewrite fold_inactive.
  - cbn [val]. rewrite Q. unfold value. now rewrite A.
  - intros r Ir. apply N; auto. apply in_or_app. simpl. auto.
Qed.
(* a store that is inactive throughout has no final level: it counts as 0 *)
Lemma final_inactive x lev s sel : (forall t, In t sel -> s_active s t = false) -> val x (final_label lev s sel) = 0.
Proof. intros H. unfold final_label. now rewrite fold_inactive. Qed.

Section C.
Variables (n : net) (em : string -> option Q) (coef : gen -> nat -> Q) (x : sol).
Lemma gen_total sel : eval x (gen_terms n em coef sel) == total (fun g => total (fun t => em_of em (g_carrier g) * coef g t * output x g t) sel) (gens n).
Proof.
  rewrite eval_total. unfold gen_terms, my_gens. rewrite BalanceProofs.total_flat, BalanceProofs.total_filter. apply BalanceProofs.total_ext. intros g _.
  unfold concerned, em_of. destruct (em (g_carrier g)) as [q|].
  - rewrite BalanceProofs.total_map. apply BalanceProofs.total_ext. intros t _. cbn [fst snd]. unfold gen_var, output. destruct (g_active g t); reflexivity.
  - symmetry. apply BalanceProofs.total_zero. intros t _. ring.
Qed.
Lemma sto_total lev (final : sto -> Q) l sel :
  (forall s, In s l -> concerned em (st_carrier s) = true -> s_cyclic (st_of s) = false -> val x (final_label lev (st_of s) sel) == final s) ->
  let my := filter (fun s => concerned em (st_carrier s) && negb (s_cyclic (st_of s))) l in
  eval x (sto_terms em lev my sel) + initial_of em my == total (fun s => if s_cyclic (st_of s) then 0 else em_of em (st_carrier s) * (s_init (st_of s) - final s)) l.
Proof.
  intros H my. rewrite eval_total. unfold sto_terms. rewrite BalanceProofs.total_map. change (initial_of em my) with (total (fun s => em_of em (st_carrier s) * s_init (st_of s)) my).
  rewrite <- BalanceProofs.total_plus. unfold my. rewrite BalanceProofs.total_filter. apply BalanceProofs.total_ext. intros s I. cbn [fst snd]. specialize (H s I).
  unfold concerned, em_of in *. destruct (em (st_carrier s)) as [q|]; destruct (s_cyclic (st_of s)); cbn [andb negb]; try ring. rewrite H by auto. ring.
Qed.
Lemma limit_iff g sel c (final : string -> sto -> Q) : limit_con n em coef g sel = Some c ->
  (forall lev s, In s (units n ++ stores n) -> concerned em (st_carrier s) = true -> s_cyclic (st_of s) = false -> val x (final_label lev (st_of s) sel) == final lev s) ->
  (holds x c <-> limited n x g sel (em_of em) coef final).
Proof.
  intros E F. unfold limit_con in E. destruct (_ || _); [|discriminate]. injection E as <-. unfold holds, limited. cbn [sns lhs rhs].
  assert (EV : eval x (gen_terms n em coef sel ++ sto_terms em "StorageUnit-state_of_charge" (my_units n em) sel ++ sto_terms em "Store-e" (my_stores n em) sel)
     == eval x (gen_terms n em coef sel) + eval x (sto_terms em "StorageUnit-state_of_charge" (my_units n em) sel) + eval x (sto_terms em "Store-e" (my_stores n em) sel)).
  { rewrite !eval_app. ring. }
  pose proof (sto_total "StorageUnit-state_of_charge" (final "StorageUnit-state_of_charge") (units n) sel (fun s I => F _ s (in_or_app _ _ _ (or_introl I)))) as U.
  pose proof (sto_total "Store-e" (final "Store-e") (stores n) sel (fun s I => F _ s (in_or_app _ _ _ (or_intror I)))) as S.
  cbn zeta in U, S. fold (my_units n em) in U. fold (my_stores n em) in S. rewrite gen_total in EV.
  set (G := total _ (gens n)) in *. set (TU := total _ (units n)) in *. set (TS := total _ (stores n)) in *.
  destruct (sense_of g); unfold sense_holds; rewrite EV; split; intros; lra.
Qed.
End C.

Lemma em_emission n c : NoDup (map fst (carriers n)) -> em_of (lookup (emissions n)) c == emission n c.
Proof.
  unfold em_of, lookup, emissions, emission. induction (carriers n) as [|[k q] l IH]; intros ND; [reflexivity|]. inversion ND as [|? ? NI ND']; subst. specialize (IH ND').
  cbn [filter find map fst snd] in *. destruct (Qeq_bool q 0) eqn:Z; cbn [negb find fst snd].
  - destruct (String.eqb_spec k c) as [->|D]; [|exact IH]. apply Qeq_bool_iff in Z. cbn [snd]. rewrite Z.
    destruct (find (fun e => String.eqb (fst e) c) (filter _ l)) as [e|] eqn:F; [|reflexivity].
    apply find_some in F. destruct F as [I Q]. apply String.eqb_eq in Q. apply filter_In in I. exfalso. apply NI. apply in_map_iff. exists e. intuition.
  - destruct (String.eqb_spec k c) as [->|D]; [reflexivity|exact IH].
Qed.

Lemma limited_ext n x g sel e e' p f : (forall c, e c == e' c) -> limited n x g sel e p f <-> limited n x g sel e' p f.
Proof.
  intros E. unfold limited.
  assert (G : total (fun gn => total (fun t => e (g_carrier gn) * p gn t * output x gn t) sel) (gens n) == total (fun gn => total (fun t => e' (g_carrier gn) * p gn t * output x gn t) sel) (gens n)).
  { apply BalanceProofs.total_ext. intros gn _. apply BalanceProofs.total_ext. intros t _. now rewrite E. }
  assert (S : forall lev l, total (fun s => if s_cyclic (st_of s) then 0 else e (st_carrier s) * (s_init (st_of s) - f lev s)) l == total (fun s => if s_cyclic (st_of s) then 0 else e' (st_carrier s) * (s_init (st_of s) - f lev s)) l).
  { intros lev l. apply BalanceProofs.total_ext. intros s _. destruct (s_cyclic (st_of s)); [reflexivity|]. now rewrite E. }
  destruct (sense_of g); cbn [sense_holds]; rewrite G, !S; reflexivity.
Qed.

Lemma primary_iff n g sel c x final : NoDup (map fst (carriers n)) -> selected n g = Some sel -> primary_energy n g = Some c ->
  (forall lev s, In s (units n ++ stores n) -> s_cyclic (st_of s) = false -> ~ emission n (st_carrier s) == 0 -> final_level x lev (st_of s) sel (final lev s)) ->
  (holds x c <-> limited n x g sel (emission n) (fun gn t => weight n t / g_eff gn t) final).
Proof.
  intros ND S P F. unfold primary_energy in P. rewrite S in P. destruct (nonempty (emissions n)); [|discriminate].
  destruct (selected_is n g sel S) as [f E]. rewrite (limit_iff n _ _ x g sel c final P).
  - apply limited_ext. intros k. apply em_emission. auto.
  - intros lev s I C N. rewrite E. apply final_value. rewrite <- E. apply F; auto. rewrite <- (em_emission n) by auto.
    unfold concerned in C. unfold em_of. destruct (lookup (emissions n) (st_carrier s)) as [q|] eqn:L; [|discriminate].
    unfold lookup, emissions in L. destruct (find _ _) as [e|] eqn:FD; [|discriminate]. injection L as <-. apply find_some in FD. destruct FD as [FI _]. apply filter_In in FI. destruct FI as [_ Z].
    intros Q. apply Qeq_bool_iff in Q. rewrite Q in Z. discriminate.
Qed.
Lemma operational_iff n g sel c x final : selected n g = Some sel -> operational_limit n g = Some c ->
  (forall lev s, In s (units n ++ stores n) -> s_cyclic (st_of s) = false -> st_carrier s = carrier_attr g -> final_level x lev (st_of s) sel (final lev s)) ->
  (holds x c <-> limited n x g sel (fun k => if String.eqb k (carrier_attr g) then 1 else 0) (fun _ t => weight n t) final).
Proof.
  intros S P F. unfold operational_limit in P. rewrite S in P. destruct (selected_is n g sel S) as [f E]. rewrite (limit_iff n _ _ x g sel c final P).
  - apply limited_ext. intros k. unfold em_of. destruct (String.eqb k (carrier_attr g)); reflexivity.
  - intros lev s I C N. rewrite E. apply final_value. rewrite <- E. apply F; auto. unfold concerned in C. destruct (String.eqb_spec (st_carrier s) (carrier_attr g)); auto. discriminate.
Qed.

(* over one horizon, without standing losses: storage counts with the energy it has delivered in total *)
Lemma depleted T s hours x : s_cyclic s = false -> (0 < T)%nat -> (forall t, s_active s t = true) -> (forall t, s_stand s t == 1) ->
  sat x (store_balance T None s hours) ->
  exists q, final_level x "Store-e" s (seq 0 T) q /\ s_init s - q == total (fun t => hours t * value x s "Store-p" t) (seq 0 T).
Proof.
  intros C P A St S. exists (value x s "Store-e" (T - 1)). split.
  - exists (T - 1)%nat. split; [apply in_seq; lia|]. split; auto. split; [|reflexivity]. intros r I L. apply in_seq in I. lia.
  - apply store_iff in S; [|exact I]. pose proof (closed_form T s _ _ S C (fun t _ => A t) (T - 1)%nat ltac:(lia)) as F. replace (Datatypes.S (T - 1)) with T in F by lia.
    assert (D : forall b k, decay (s_stand s) b k == 1) by (intros b k; induction k; cbn [decay]; [reflexivity|rewrite IHk, St; ring]).
    rewrite F, D. rewrite (sumto_ext _ (fun t => -(1) * (hours t * value x s "Store-p" t)) (seq 0 T)).
    + rewrite sumto_scale. change (sumto ?f ?l) with (total f l). ring.
    + intros t _. rewrite D. unfold store_gain. ring.
Qed.

(* where no constraint is written, nothing is emitted *)
Lemma skipped n g x sel : NoDup (map fst (carriers n)) -> selected n g = Some sel -> primary_energy n g = None ->
  (forall gn, In gn (gens n) -> emission n (g_carrier gn) == 0) /\ (forall s, In s (units n ++ stores n) -> s_cyclic (st_of s) = true \/ emission n (st_carrier s) == 0) /\
  forall final, limited n x {| constant := 0; sense_of := Eq; inv_period := inv_period g; carrier_attr := carrier_attr g |} sel (emission n) (fun gn t => weight n t / g_eff gn t) final.
Proof.
  intros ND S P. unfold primary_energy in P. rewrite S in P.
  assert (K : forall c, concerned (lookup (emissions n)) c = false -> emission n c == 0).
  { intros c C. rewrite <- (em_emission n) by auto. unfold concerned in C. unfold em_of. destruct (lookup _ c); [discriminate|reflexivity]. }
  assert (Z : (forall gn, In gn (gens n) -> concerned (lookup (emissions n)) (g_carrier gn) = false) /\
              (forall s, In s (units n ++ stores n) -> concerned (lookup (emissions n)) (st_carrier s) && negb (s_cyclic (st_of s)) = false)).
  { destruct (nonempty (emissions n)) eqn:E.
    - unfold limit_con in P. destruct (nonempty (my_gens n _)) eqn:E1; [discriminate|]. destruct (nonempty (my_units n _)) eqn:E2; [discriminate|]. destruct (nonempty (my_stores n _)) eqn:E3; [discriminate|].
      assert (NE : forall A (f : A -> bool) l, nonempty (filter f l) = false -> forall a, In a l -> f a = false).
      { intros A f l H a I. destruct (f a) eqn:Fa; auto. assert (J : In a (filter f l)) by (apply filter_In; auto). destruct (filter f l); [destruct J|discriminate]. }
      split; [exact (NE _ _ _ E1)|]. intros s I. apply in_app_or in I. destruct I; [exact (NE _ _ _ E2 s H)|exact (NE _ _ _ E3 s H)].
    - assert (L : forall c, concerned (lookup (emissions n)) c = false) by (intros c; unfold lookup; destruct (emissions n); [reflexivity|discriminate]).
      split; intros; rewrite L; reflexivity. }
  destruct Z as [Z1 Z2]. assert (G1 : forall gn, In gn (gens n) -> emission n (g_carrier gn) == 0) by auto.
  assert (G2 : forall s, In s (units n ++ stores n) -> s_cyclic (st_of s) = true \/ emission n (st_carrier s) == 0).
  { intros s I. specialize (Z2 s I). destruct (s_cyclic (st_of s)); [left; reflexivity|]. right. apply K. cbn [negb] in Z2. rewrite andb_true_r in Z2. exact Z2. }
  split; auto. split; auto. intros final. unfold limited. cbn [sense_of constant sense_holds].
  rewrite (BalanceProofs.total_zero _ (gens n)), (BalanceProofs.total_zero _ (units n)), (BalanceProofs.total_zero _ (stores n)); [ring| | |].
  - intros s I. destruct (G2 s (in_or_app _ _ _ (or_intror I))) as [E|E]; [rewrite E; reflexivity|]. destruct (s_cyclic (st_of s)); [reflexivity|]. rewrite E. ring.
  - intros s I. destruct (G2 s (in_or_app _ _ _ (or_introl I))) as [E|E]; [rewrite E; reflexivity|]. destruct (s_cyclic (st_of s)); [reflexivity|]. rewrite E. ring.
  - intros gn I. apply BalanceProofs.total_zero. intros t _. rewrite (G1 gn I). ring.
Qed.

(* counterexamples: networks whose only emitter is one store of gas *)
Definition gas_net (s : storage) (per : option (nat -> Z)) : net :=
  {| gens := []; units := []; stores := [{| st_of := s; st_carrier := "gas" |}]; carriers := [("gas", 1)]; weight := fun _ => 1; nsnaps := 4; period := per |}.
Definition at_most_in (q : Q) (p : option Z) : glc := {| constant := q; sense_of := Le; inv_period := p; carrier_attr := "co2_emissions" |}.

Lemma refill_hides : exists s x c, s_cyclic s = false /\ s_cyclic_pp s = true /\ s_init_pp s = false /\ (forall t, s_active s t = true /\ s_stand s t == 1) /\
  primary_energy (gas_net s (Some two_periods)) (at_most_in 10 None) = Some c /\ holds x c /\
  sat x (store_balance 4 (Some two_periods) s (fun _ => 1)) /\
  10 < total (fun t => 1 * value x s "Store-p" t) (seq 0 4).
Proof.
  exists (ex_s (fun _ => 1) 10 false true false), (sol3 (fun w t => if String.eqb w "Store-p" then nth t [10; 0; 10; 0] 0 else 0)). eexists.
  split; [reflexivity|]. split; [reflexivity|]. split; [reflexivity|]. split; [intros t; split; reflexivity|].
  split; [reflexivity|]. split; [apply holdsb_iff; reflexivity|]. split; [apply satb_iff; reflexivity|]. reflexivity.
Qed.
Lemma earlier_depletion_counted : exists s x c, s_cyclic s = false /\ s_cyclic_pp s = false /\ s_init_pp s = false /\ (forall t, s_active s t = true /\ s_stand s t == 1) /\
  primary_energy (gas_net s (Some two_periods)) (at_most_in 5 (Some 2040%Z)) = Some c /\
  sat x (store_balance 4 (Some two_periods) s (fun _ => 1)) /\
  (forall t, two_periods t = 2040%Z -> value x s "Store-p" t == 0) /\ ~ holds x c.
Proof.
  exists (ex_s (fun _ => 1) 10 false false false), (sol3 (fun w t => if String.eqb w "Store-p" then nth t [10; 0; 0; 0] 0 else 0)). eexists.
  split; [reflexivity|]. split; [reflexivity|]. split; [reflexivity|]. split; [intros t; split; reflexivity|].
  split; [reflexivity|]. split; [apply satb_iff; reflexivity|]. split.
  - intros t P. unfold value, sol3, ex_s. cbn [s_active s_name String.eqb]. destruct t as [|[|[|[|t]]]]; try discriminate P; try reflexivity. cbn. destruct t; reflexivity.
  - rewrite <- holdsb_iff. discriminate.
Qed.
Lemma inactive_counted : exists s c, s_cyclic s = false /\ (forall t, s_active s t = false) /\
  primary_energy (gas_net s None) (at_most_in 5 None) = Some c /\ forall x, ~ holds x c.
Proof.
  exists {| s_name := "s"; s_active := fun _ => false; s_stand := fun _ => 1; s_init := 10; s_cyclic := false; s_cyclic_pp := true; s_init_pp := false |}. eexists.
  split; [reflexivity|]. split; [reflexivity|]. split; [reflexivity|]. intros x H. unfold holds in H. cbn in H. lra.
Qed.
