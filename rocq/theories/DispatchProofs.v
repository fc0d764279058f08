From Coq Require Import List String Bool QArith Lqa Lia.
From Verif Require Import LinModel LinProofs DispatchModel DispatchSpec.
Import ListNotations.
Open Scope string_scope.
Open Scope Q_scope.

Section P.
Variables cls attr nattr : string.
Variable k : kind.
Variable losses : bool.
Variable T : nat.
Variable assets : list asset.

Lemma snaps_In t : In t (snaps T) <-> (t < T)%nat.
Proof. unfold snaps. rewrite in_seq. lia. Qed.

Ltac unf := unfold holds; cbn [lhs sns rhs mk eval val app].

Lemma nominal_iff x : sat x (nominal cls nattr assets ++ fixed_nominal cls nattr assets ++ modular cls nattr assets) <->
  forall a, In a assets -> ext a = true -> capacity_ok cls nattr x a.
Proof.
  unfold nominal, fixed_nominal, modular. rewrite !sat_app, !sat_add.
  unfold ext_assets, mod_assets, capacity_ok, nom_opt.
  split.
  - intros [[A B] [C D]] a I E. rewrite E.
    assert (J : In a (filter ext assets)) by (apply filter_In; auto).
    specialize (A O a (or_introl eq_refl) J eq_refl). revert A. unf. intros A.
    split; [lra|]. split; [|split].
    + intros u U. specialize (B O a (or_introl eq_refl) J). rewrite U in B. specialize (B eq_refl). revert B. unf. intros; lra.
    + intros s U. specialize (C O a (or_introl eq_refl) J). rewrite U in C. specialize (C eq_refl). revert C. unf. intros; lra.
    + intros P. assert (J' : In a (filter (fun a => ext a && negb (Qle_bool (nom_mod a) 0)) assets)).
      { apply filter_In. split; auto. rewrite E. simpl. apply negb_true_iff. destruct (Qle_bool (nom_mod a) 0) eqn:Q; auto.
        apply Qle_bool_iff in Q. lra. }
      specialize (D O a (or_introl eq_refl) J' eq_refl). revert D. unf. unfold n_mod, cap; cbn [val]. intros; lra.
  - intros H. repeat split.
    + intros t a _ J _. apply filter_In in J. destruct J as [J E]. destruct (H a J E) as [A _]. rewrite E in A. revert A. unf. intros; lra.
    + intros t a _ J M. apply filter_In in J. destruct J as [J E]. destruct (H a J E) as [_ [B _]]. rewrite E in B.
      destruct (nom_max a) as [u|]; [|discriminate]. specialize (B u eq_refl). revert B. unf. intros; lra.
    + intros t a _ J M. apply filter_In in J. destruct J as [J E]. destruct (H a J E) as [_ [_ [C _]]]. rewrite E in C.
      destruct (nom_set a) as [u|]; [|discriminate]. specialize (C u eq_refl). revert C. unf. intros; lra.
    + intros t a _ J M. apply filter_In in J. destruct J as [J E]. apply andb_true_iff in E. destruct E as [E Q].
      destruct (H a J E) as [_ [_ [_ D]]]. rewrite E in D. apply negb_true_iff in Q.
      assert (P : 0 < nom_mod a). { apply Qnot_le_lt. intros L. apply Qle_bool_iff in L. congruence. }
      specialize (D P). revert D. unf. unfold cap, n_mod; cbn [val]. intros; lra.
Qed.

Lemma eval_loss x s a t : eval x (loss_term cls k losses s a t) == s * (if is_passive k then loss_of cls losses x a t else 0).
Proof.
  unfold loss_term, loss_of, reported. destruct (is_passive k), losses; cbn [andb eval]; ring.
Qed.

Lemma within_iff (a : asset) t c v l :
  within k a t c v l <->
  fst (bounds_pu k a t) * c <= v + - (1) * (if is_passive k then l else 0) /\
  v + (if is_passive k then l else 0) <= snd (bounds_pu k a t) * c.
Proof. destruct k; cbn [within bounds_pu fst snd is_passive]; split; intros [? ?]; split; lra. Qed.

Lemma fixed_iff x : sat x (non_extendables cls attr k losses T assets ++ extendables cls attr nattr k losses T assets) <->
  forall a t, In a assets -> (t < T)%nat -> active a t = true -> (ext a = true \/ com a = false) ->
     within k a t (nom_opt cls nattr x a) (reported cls x attr a t) (loss_of cls losses x a t).
Proof.
  unfold non_extendables, extendables. rewrite !sat_app, !sat_add. unfold fixed_assets, ext_assets. split.
  - intros [[A B] [C D]] a t I L M EC. rewrite within_iff. unfold nom_opt. destruct (ext a) eqn:E.
    + assert (J : In a (filter ext assets)) by (apply filter_In; auto).
      apply snaps_In in L. specialize (C t a L J M). specialize (D t a L J M). revert C D. unf. rewrite !eval_loss.
      unfold reported, op. rewrite M. cbn [val]. intros C D. split; lra.
    + destruct EC as [EC|EC]; [discriminate|].
      assert (J : In a (filter (fun a => negb (ext a) && negb (com a)) assets)) by (apply filter_In; rewrite E, EC; auto).
      apply snaps_In in L. specialize (A t a L J M). specialize (B t a L J M). revert A B. unf. rewrite !eval_loss.
      unfold reported, op. rewrite M. cbn [val]. intros A B. split; lra.
  - intros H.
    assert (F : forall a, In a (filter (fun a => negb (ext a) && negb (com a)) assets) -> In a assets /\ ext a = false /\ com a = false).
    { intros a J. apply filter_In in J. destruct J as [J E]. apply andb_true_iff in E. rewrite !negb_true_iff in E. tauto. }
    assert (G : forall a, In a (filter ext assets) -> In a assets /\ ext a = true) by (intros a J; apply filter_In in J; tauto).
    repeat split; intros t a L J M; apply snaps_In in L.
    + destruct (F a J) as [I [E EC]]. specialize (H a t I L M (or_intror EC)). apply within_iff in H. revert H. unfold nom_opt. rewrite E.
      unf. rewrite eval_loss. unfold reported, op. rewrite M. cbn [val]. intros [? ?]. lra.
    + destruct (F a J) as [I [E EC]]. specialize (H a t I L M (or_intror EC)). apply within_iff in H. revert H. unfold nom_opt. rewrite E.
      unf. rewrite eval_loss. unfold reported, op. rewrite M. cbn [val]. intros [? ?]. lra.
    + destruct (G a J) as [I E]. specialize (H a t I L M (or_introl E)). apply within_iff in H. revert H. unfold nom_opt. rewrite E.
      unf. rewrite eval_loss. unfold reported, op. rewrite M. cbn [val]. intros [? ?]. lra.
    + destruct (G a J) as [I E]. specialize (H a t I L M (or_introl E)). apply within_iff in H. revert H. unfold nom_opt. rewrite E.
      unf. rewrite eval_loss. unfold reported, op. rewrite M. cbn [val]. intros [? ?]. lra.
Qed.

Lemma committable_iff x : sat x (committables cls T assets) <->
  forall a t, In a assets -> (t < T)%nat -> active a t = true -> com a = true ->
     let u := reported cls x "status" a t in
     min_pu a t * nom a * u <= reported cls x "p" a t /\ reported cls x "p" a t <= max_pu a t * nom a * u.
Proof.
  unfold committables. rewrite sat_app, !sat_add. unfold com_assets. split.
  - intros [A B] a t I L M E. apply snaps_In in L.
    assert (J : In a (filter com assets)) by (apply filter_In; auto).
    specialize (A t a L J M). specialize (B t a L J M). revert A B. unf. unfold reported. cbn [val bounds_pu fst snd]. intros; split; lra.
  - intros H. split; intros t a L J M; apply snaps_In in L; apply filter_In in J; destruct J as [J E];
      specialize (H a t J L M E); revert H; unf; unfold reported; cbn [val bounds_pu fst snd]; intros [? ?]; lra.
Qed.

Lemma operation_iff x : sat x (fixed_operation cls attr T assets) <->
  forall a t s, In a assets -> (t < T)%nat -> active a t = true -> fix_set a t = Some s -> reported cls x attr a t == s.
Proof.
  unfold fixed_operation. rewrite sat_add. split.
  - intros A a t s I L M E. apply snaps_In in L. specialize (A t a L I). rewrite E in A. specialize (A M). revert A. unf.
    unfold reported. cbn [val]. intros; lra.
  - intros H t a L I M. apply snaps_In in L. destruct (fix_set a t) as [s|] eqn:E; [|discriminate].
    specialize (H a t s I L M E). revert H. unf. unfold reported. cbn [val]. intros; lra.
Qed.

Lemma dispatch_iff x :
  sat x (all_constraints cls attr nattr k losses T assets) <-> dispatch_ok cls attr nattr k losses T assets x.
Proof.
  unfold all_constraints, dispatch_ok. rewrite !app_assoc, sat_app, operation_iff, sat_app, committable_iff.
  rewrite <- (app_assoc (_ ++ _)), sat_app, fixed_iff. rewrite <- app_assoc, nominal_iff. unfold loss_of. tauto.
Qed.

Lemma inactive_zero x v a t : active a t = false -> reported cls x v a t = 0.
Proof. unfold reported, op. now intros ->. Qed.

(* zero when off, within the full band when on *)
Lemma off_zero x a t :
  dispatch_ok cls attr nattr k losses T assets x -> In a assets -> (t < T)%nat -> active a t = true -> com a = true ->
  (reported cls x "status" a t == 0 -> reported cls x "p" a t == 0) /\
  (reported cls x "status" a t == 1 ->
     min_pu a t * nom a <= reported cls x "p" a t /\ reported cls x "p" a t <= max_pu a t * nom a).
Proof.
  intros [_ [_ [H _]]] I L M E. specialize (H a t I L M E). cbv zeta in H. destruct H as [A B].
  split; intros U; rewrite U in A, B; [|split]; lra.
Qed.

(* a modular asset is built in whole modules *)
Lemma modular_multiple x a :
  domains cls T assets x -> dispatch_ok cls attr nattr k losses T assets x ->
  In a assets -> ext a = true -> 0 < nom_mod a ->
  exists z : nat, nom_opt cls nattr x a == nom_mod a * inject_Z (Z.of_nat z).
Proof.
  intros [_ [D _]] [H _] I E P. destruct (H a I E) as [_ [_ [_ M]]]. specialize (M P).
  destruct (D a) as [z Z].
  - unfold mod_assets. apply filter_In. split; auto. rewrite E. simpl. apply negb_true_iff.
    destruct (Qle_bool (nom_mod a) 0) eqn:Q; auto. apply Qle_bool_iff in Q. lra.
  - exists z. rewrite <- Z. exact M.
Qed.

(* a passive branch never carries more than its capacity allows, losses reduce what it can carry *)
Lemma branch_limit x a t :
  k = Passive -> domains cls T assets x -> dispatch_ok cls attr nattr k losses T assets x ->
  In a assets -> (t < T)%nat -> active a t = true -> (ext a = true \/ com a = false) ->
  let c := max_pu a t * nom_opt cls nattr x a in
  - c <= reported cls x attr a t /\ reported cls x attr a t <= c.
Proof.
  intros K [D _] [_ [H _]] I L M E. specialize (H a t I L M E). specialize (D a t I L M). subst k. cbn [within] in H.
  unfold loss_of, reported, op in *. rewrite M in *. cbn [val] in *. destruct losses; destruct H; split; lra.
Qed.
End P.
