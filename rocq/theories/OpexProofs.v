From Coq Require Import List String Bool QArith ZArith Arith Lqa Lia Setoid.
From Verif Require Import LinModel LinProofs BalanceProofs ObjectiveModel ObjectiveSpec ObjectiveProofs OpexModel OpexSpec.
Import ListNotations.
Open Scope string_scope.
Open Scope list_scope.
Open Scope Q_scope.

Section P.
Variables (n : net) (ws : weightings) (x : sol).
Notation opex_func := (opex_func n ws x).
Notation ts := (seq 0 (nsnaps n)).
Notation classes := ["Generator"; "Line"; "Transformer"; "Link"; "Store"; "StorageUnit"].

Lemma sum_total l : sum_series l = total snd l.
Proof. reflexivity. Qed.
Lemma wsum w f : weighted_sum n w f == total (fun t => w t * f t) ts.
Proof. reflexivity. Qed.
Definition spent (a : asset) : Q := total (fun t => own_weight ws a t * running x a t + starts x a t) ts.

Lemma com_nonempty c a : In a (assets n) -> a_class a = c -> a_com a = true -> nonempty (com n c) = true.
Proof. intros I C M. apply nonempty_filter. exists a. split; auto. apply filter_In. split; auto. rewrite C. apply String.eqb_refl. Qed.

Ltac zeros := repeat (rewrite Qplus_0_l || rewrite Qplus_0_r).
Ltac finish E M := cbn beta; unfold spent; rewrite ?M, ?wsum; zeros; rewrite <- ?total_plus; apply total_ext; intros t _;
  unfold own_weight, running, starts, dispatch, stored, spilled, unit_value, is; rewrite ?E, ?M; cbn [existsb fst snd String.eqb Ascii.eqb Bool.eqb orb andb];
  rewrite ?lab_at by reflexivity; unfold vname, cost_of, get_weightings; cbn [String.append existsb fst snd String.eqb Ascii.eqb Bool.eqb orb andb].
Lemma generator_cost a : In a (assets n) -> a_class a = "Generator" -> exists f, opex_func "Generator" = Some f /\ f a == spent a.
Proof.
  intros I E. unfold OpexModel.opex_func, switching_term. cbn [has_column existsb fst snd String.eqb Ascii.eqb Bool.eqb orb andb]. destruct (nonempty (com n "Generator")) eqn:N.
  - eexists. split; [reflexivity|]. destruct (a_com a) eqn:M; finish E M; ring.
  - assert (M : a_com a = false) by (destruct (a_com a) eqn:M; auto; rewrite (com_nonempty "Generator" a I E M) in N; discriminate).
    eexists. split; [reflexivity|]. finish E M; ring.
Qed.
Lemma store_cost a : a_class a = "Store" -> exists f, opex_func "Store" = Some f /\ f a == spent a.
Proof. intros E. eexists. split; [reflexivity|]. destruct (a_com a) eqn:M; finish E M; ring. Qed.
Lemma unit_cost a : a_class a = "StorageUnit" -> exists f, opex_func "StorageUnit" = Some f /\ f a == spent a.
Proof.
  intros E. eexists. split; [reflexivity|]. destruct (a_com a) eqn:M; finish E M;
    (assert (SP : val x (op_label "StorageUnit" "spill" a t) == if positive (a_inflow a t) then at_ x a "StorageUnit-spill" t else 0)
      by (unfold op_label, at_; cbn [andb vname String.append is_spill String.eqb Ascii.eqb Bool.eqb]; destruct (a_on a t), (positive (a_inflow a t)); reflexivity));
    cbn [of_spill of_storage of_marginal find fst snd option_map String.eqb Ascii.eqb Bool.eqb]; rewrite SP; ring.
Qed.
Lemma passive_cost a c : In c ["Line"; "Transformer"] -> a_class a = c -> exists f, opex_func c = Some f /\ f a == spent a.
Proof.
  intros C E. simpl in C. destruct C as [<-|[<-|[]]]; (eexists; split; [reflexivity|]); cbn beta; zeros; symmetry; unfold spent; apply total_zero; intros t _;
    unfold own_weight, running, starts, dispatch, stored, spilled, unit_value, is; rewrite ?E; cbn [existsb String.eqb Ascii.eqb Bool.eqb orb andb]; destruct (a_com a); ring.
Qed.
Lemma link_cost : opex_func "Link" = None.
Proof. reflexivity. Qed.

Lemma opex_value : known n -> sum_series (opex n ws x) == total (fun a => if a_flag a && negb (is a ["Link"]) then spent a else 0) (assets n).
Proof.
  intros K. unfold opex. rewrite sum_total, total_flat.
  rewrite (total_ext _ (fun c => total (fun a => if a_flag a then match opex_func c with Some f => f a | None => 0 end else 0) (cls n c))).
  - rewrite (rows_total n (fun c a => if a_flag a then match opex_func c with Some f => f a | None => 0 end else 0) (fun c => c)). apply total_ext. intros a I.
    specialize (K a I). unfold is in *. cbn [existsb] in K |- *. rewrite orb_false_r in *. cbn [BalanceSpec.total fold_right].
    repeat match type of K with context [String.eqb (a_class a) ?c] => destruct (String.eqb_spec (a_class a) c) as [E|_]; [rewrite ?E; cbn [String.eqb Ascii.eqb Bool.eqb andb negb orb]|] end;
      [| | | | | |discriminate K]; zeros; destruct (a_flag a); cbn [andb]; try reflexivity.
    + destruct (generator_cost a I E) as [f [-> F]]. exact F.
    + destruct (passive_cost a "Line" ltac:(simpl; auto) E) as [f [-> F]]. exact F.
    + destruct (passive_cost a "Transformer" ltac:(simpl; auto) E) as [f [-> F]]. exact F.
    + destruct (store_cost a E) as [f [-> F]]. exact F.
    + destruct (unit_cost a E) as [f [-> F]]. exact F.
  - intros c _. destruct (opex_func c) as [f|].
    + rewrite total_map, total_filter. reflexivity.
    + symmetry. apply total_zero. intros a _. destruct (a_flag a); reflexivity.
Qed.
Lemma inactive_spends_nothing a : (forall t, a_on a t = false) -> spent a == 0.
Proof.
  intros H. unfold spent. apply total_zero. intros t _. unfold running, starts, dispatch, stored, spilled, unit_value, at_. rewrite !H.
  destruct (is a ["StorageUnit"]), (is a ["Generator"]), (is a ["Link"]), (is a ["Store"]), (a_com a), (positive (a_inflow a t)); cbn [andb]; ring.
Qed.
Lemma opex_operating : single n -> alike n ws -> no_links n -> sum_series (opex n ws x) == operating n x (weighting n) + switching_cost n x.
Proof.
  intros [M [K A]] L NL. rewrite opex_value by auto. unfold operating, switching_cost, days. rewrite <- total_plus.
  rewrite (total_ext _ (fun t => total (fun a => weighting n t * running x a t + starts x a t) (assets n))) by (intros t _; now rewrite total_plus, total_scale).
  rewrite total_swap. apply total_ext. intros a I.
  assert (S : spent a == total (fun t => weighting n t * running x a t + starts x a t) ts).
  { unfold spent. apply total_ext. intros t _. unfold own_weight, weighting. rewrite M. destruct (L t) as [L1 [L2 L3]]. destruct (is a ["Generator"]); [now rewrite L1|]. destruct (is a ["Store"; "StorageUnit"]); [now rewrite L2|now rewrite L3]. }
  rewrite <- S. unfold is. cbn [existsb]. rewrite orb_false_r. destruct (String.eqb_spec (a_class a) "Link") as [E|_]; [exfalso; eapply NL; eauto|]. cbn [negb]. rewrite andb_true_r.
  destruct (a_flag a) eqn:F; [reflexivity|]. symmetry. apply inactive_spends_nothing. intros t. rewrite (A a t I). exact F.
Qed.
Lemma capex_value : known n -> sum_series (capex n x) == total (fun a => if a_flag a then capacity x a * a_capital a else 0) (assets n).
Proof.
  intros K. unfold capex. rewrite sum_total, total_flat.
  rewrite (total_ext _ (fun ca => total (fun a => if a_flag a then nom_opt x (fst ca) (snd ca) a * a_capital a else 0) (cls n (fst ca)))).
  - rewrite (rows_total n (fun ca a => if a_flag a then nom_opt x (fst ca) (snd ca) a * a_capital a else 0) fst). apply total_ext. intros a I.
    specialize (K a I). unfold is in K. cbn [existsb] in K. rewrite orb_false_r in K. cbn [BalanceSpec.total fold_right nominal fst snd]. unfold capacity, is. cbn [existsb]. rewrite !orb_false_r.
    repeat match type of K with context [String.eqb (a_class a) ?c] => destruct (String.eqb_spec (a_class a) c) as [E|_]; [rewrite ?E; cbn [String.eqb Ascii.eqb Bool.eqb andb negb orb]|] end;
      [| | | | | |discriminate K]; zeros; destruct (a_flag a); try reflexivity; unfold nom_opt; destruct (a_ext a); reflexivity.
  - intros ca _. rewrite total_map, total_filter. reflexivity.
Qed.
End P.
Lemma opex_objective n ws x ps : single n -> alike n ws -> no_links n -> const_fixed n x -> proper n a_start -> proper n a_shut -> objective n = Some ps ->
  value_of x ps == expansion n x (annual n) + sum_series (opex n ws x).
Proof. intros S A NL C P1 P2 O. rewrite (objective_value n x ps) by (auto; apply S). rewrite (opex_operating n ws x) by auto. ring. Qed.
Lemma system_cost n ws x ps : single n -> alike n ws -> no_links n -> const_fixed n x -> proper n a_start -> proper n a_shut -> objective n = Some ps ->
  sum_series (capex n x) + sum_series (opex n ws x) == value_of x ps + constant n + total (fun a => if a_flag a && negb (a_ext a) then a_nom a * a_capital a else 0) (assets n).
Proof.
  intros S A NL C P1 P2 O. rewrite (objective_total n x ps) by (auto; apply S). rewrite (opex_operating n ws x), capex_value by (auto; apply S).
  assert (E : total (fun a => if a_flag a then capacity x a * a_capital a else 0) (assets n) ==
    total (fun a => if a_ext a then annual n a * capacity x a else 0) (assets n) + total (fun a => if a_flag a && negb (a_ext a) then a_nom a * a_capital a else 0) (assets n)).
  { rewrite <- total_plus. apply total_ext. intros a _. unfold annual, capacity. destruct S as [M _]. rewrite M. destruct (a_flag a), (a_ext a); cbn [andb negb]; ring. }
  rewrite E. ring.
Qed.

(* counterexamples *)
Definition weigh (g s o : Q) : weightings := {| w_generators := fun _ => g; w_stores := fun _ => s; w_objective := fun _ => o |}.
Lemma links_left_out : exists n ws x ps, single n /\ alike n ws /\ const_fixed n x /\ proper n a_start /\ proper n a_shut /\ objective n = Some ps /\
  expansion n x (annual n) == 0 /\ value_of x ps == 100 /\ opex n ws x = [].
Proof.
  exists (of_assets [with_marginal 5 (plain "Link" "k")] None), (weigh 1 1 1), (fun _ => 10). eexists.
  split; [split; [reflexivity|]; split; [intros a [<-|[]]; reflexivity|intros a t [<-|[]]; reflexivity]|].
  split; [intros t; repeat split; reflexivity|]. split; [intros H; discriminate H|]. split; [intros a [<-|[]]; discriminate|]. split; [intros a [<-|[]]; discriminate|].
  split; [reflexivity|]. split; [reflexivity|]. split; reflexivity.
Qed.
Lemma generator_weighting : exists n ws x ps, single n /\ no_links n /\ (forall t, w_objective ws t == w_snap n t) /\ const_fixed n x /\ proper n a_start /\ proper n a_shut /\ objective n = Some ps /\
  ~ value_of x ps == expansion n x (annual n) + sum_series (opex n ws x).
Proof.
  exists (of_assets [with_marginal 5 (plain "Generator" "g")] None), (weigh 3 1 1), (fun _ => 10). eexists.
  split; [split; [reflexivity|]; split; [intros a [<-|[]]; reflexivity|intros a t [<-|[]]; reflexivity]|].
  split; [intros a [<-|[]]; discriminate|]. split; [intros t; reflexivity|]. split; [intros H; discriminate H|]. split; [intros a [<-|[]]; discriminate|]. split; [intros a [<-|[]]; discriminate|].
  split; [reflexivity|]. vm_compute. discriminate.
Qed.
