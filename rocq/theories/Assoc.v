(* Python dictionaries with string keys, as insertion-ordered association lists.
   Shared vocabulary: a lookup finds the first entry, assignment replaces the entry in place or
   appends a new one at the end (CPython dict semantics), pop/del removes the entry. *)
From Coq Require Import List String Bool Arith Lia.
Import ListNotations.

Section Assoc.
Context {V : Type}.

Definition dict := list (string * V).

(* d.get(k) *)
Fixpoint dget (d : dict) (k : string) : option V :=
  match d with
  | [] => None
  | (k', v) :: r => if String.eqb k' k then Some v else dget r k
  end.

(* k in d *)
Definition dmem (d : dict) (k : string) : bool :=
  match dget d k with Some _ => true | None => false end.

(* d[k] = v *)
Fixpoint dset (d : dict) (k : string) (v : V) : dict :=
  match d with
  | [] => [(k, v)]
  | (k', v') :: r => if String.eqb k' k then (k', v) :: r else (k', v') :: dset r k v
  end.

(* del d[k] / d.pop(k): every entry with that key (a well-formed dict has at most one) *)
Definition ddel (d : dict) (k : string) : dict :=
  filter (fun e => negb (String.eqb (fst e) k)) d.

Definition dkeys (d : dict) : list string := map fst d.

Lemma dget_dset_eq d k v : dget (dset d k v) k = Some v.
Proof.
  induction d as [|[k' v'] r IH]; simpl.
  - now rewrite String.eqb_refl.
  - destruct (String.eqb k' k) eqn:E; simpl; rewrite E; auto.
Qed.

Lemma dget_dset_neq d k k' v : k <> k' -> dget (dset d k v) k' = dget d k'.
Proof.
  intros N. induction d as [|[k0 v0] r IH]; simpl.
  - apply String.eqb_neq in N. now rewrite N.
  - destruct (String.eqb k0 k) eqn:E; simpl.
    + apply String.eqb_eq in E; subst k0. apply String.eqb_neq in N. now rewrite N.
    + destruct (String.eqb k0 k'); auto.
Qed.

Lemma dget_ddel_eq d k : dget (ddel d k) k = None.
Proof.
  induction d as [|[k' v'] r IH]; simpl; auto.
  destruct (String.eqb k' k) eqn:E; simpl; auto. now rewrite E.
Qed.

Lemma dget_ddel_neq d k k' : k <> k' -> dget (ddel d k) k' = dget d k'.
Proof.
  intros N. induction d as [|[k0 v0] r IH]; simpl; auto.
  destruct (String.eqb k0 k) eqn:E; simpl.
  - apply String.eqb_eq in E; subst k0. apply String.eqb_neq in N. now rewrite N, IH.
  - destruct (String.eqb k0 k'); auto.
Qed.

Lemma dget_In d k v : dget d k = Some v -> In (k, v) d.
Proof.
  induction d as [|[k' v'] r IH]; simpl; [discriminate|].
  destruct (String.eqb k' k) eqn:E; intros H.
  - apply String.eqb_eq in E; subst. injection H as ->. now left.
  - right; auto.
Qed.

Lemma dget_Some_keys d k v : dget d k = Some v -> In k (dkeys d).
Proof. intros H. apply dget_In in H. unfold dkeys. now apply (in_map fst) in H. Qed.

Lemma dget_None_keys d k : dget d k = None <-> ~ In k (dkeys d).
Proof.
  unfold dkeys. induction d as [|[k' v'] r IH]; simpl; [tauto|].
  destruct (String.eqb k' k) eqn:E.
  - apply String.eqb_eq in E. subst. split; [discriminate|tauto].
  - apply String.eqb_neq in E. rewrite IH. tauto.
Qed.

Lemma dget_keys_Some d k : In k (dkeys d) -> exists v, dget d k = Some v.
Proof.
  intros H. destruct (dget d k) as [v|] eqn:E; [now exists v|].
  apply dget_None_keys in E. contradiction.
Qed.

Lemma In_dget d k v : NoDup (dkeys d) -> In (k, v) d -> dget d k = Some v.
Proof.
  unfold dkeys. induction d as [|[k' v'] r IH]; simpl; [tauto|].
  intros ND [H|H]; inversion ND as [|? ? NI ND']; subst.
  - injection H as -> ->. now rewrite String.eqb_refl.
  - destruct (String.eqb k' k) eqn:E; auto.
    apply String.eqb_eq in E; subst. exfalso. apply NI. now apply (in_map fst) in H.
Qed.

Lemma dmem_true d k : dmem d k = true <-> exists v, dget d k = Some v.
Proof.
  unfold dmem. destruct (dget d k) as [v|]; split; intros H; try discriminate; eauto.
  now destruct H.
Qed.

Lemma dmem_false d k : dmem d k = false <-> dget d k = None.
Proof. unfold dmem. now destruct (dget d k). Qed.

Lemma dmem_In d k : dmem d k = true <-> In k (dkeys d).
Proof.
  rewrite dmem_true. split.
  - intros [v H]. now apply dget_Some_keys in H.
  - apply dget_keys_Some.
Qed.

Lemma dkeys_dset_in d k v : In k (dkeys d) -> dkeys (dset d k v) = dkeys d.
Proof.
  unfold dkeys. induction d as [|[k' v'] r IH]; simpl; [tauto|].
  intros H. destruct (String.eqb k' k) eqn:E; simpl; auto.
  apply String.eqb_neq in E. f_equal. apply IH. tauto.
Qed.

Lemma dkeys_dset_notin d k v : ~ In k (dkeys d) -> dkeys (dset d k v) = dkeys d ++ [k].
Proof.
  unfold dkeys. induction d as [|[k' v'] r IH]; simpl; auto.
  intros H. destruct (String.eqb k' k) eqn:E; simpl.
  - apply String.eqb_eq in E. tauto.
  - f_equal. apply IH. tauto.
Qed.

Lemma NoDup_snoc {A} (l : list A) a : NoDup l -> ~ In a l -> NoDup (l ++ [a]).
Proof.
  induction l as [|b l IH]; simpl; intros ND NI.
  - constructor; auto.
  - inversion ND as [|? ? NI' ND']; subst. constructor.
    + rewrite in_app_iff. simpl. intuition.
    + apply IH; auto.
Qed.

Lemma NoDup_dset d k v : NoDup (dkeys d) -> NoDup (dkeys (dset d k v)).
Proof.
  intros ND. destruct (in_dec string_dec k (dkeys d)) as [H|H].
  - now rewrite dkeys_dset_in.
  - rewrite dkeys_dset_notin by exact H. now apply NoDup_snoc.
Qed.

Lemma dkeys_ddel d k k' : In k' (dkeys (ddel d k)) <-> In k' (dkeys d) /\ k' <> k.
Proof.
  unfold dkeys, ddel. rewrite !in_map_iff. split.
  - intros [[a b] [E H]]. apply filter_In in H. destruct H as [H1 H2]. simpl in *. subst a.
    apply negb_true_iff, String.eqb_neq in H2. split; auto. now exists (k', b).
  - intros [[[a b] [E H]] N]. simpl in E. subst a. exists (k', b). split; auto.
    apply filter_In. split; auto. simpl. now apply negb_true_iff, String.eqb_neq.
Qed.

Lemma NoDup_map_filter {A B} (f : A -> B) (p : A -> bool) l :
  NoDup (map f l) -> NoDup (map f (filter p l)).
Proof.
  induction l as [|a l IH]; simpl; auto.
  intros ND. inversion ND as [|? ? NI ND']; subst.
  destruct (p a); simpl; auto. constructor; auto.
  intros H. apply NI. apply in_map_iff in H. destruct H as [x [E H]].
  apply filter_In in H. rewrite <- E. now apply in_map.
Qed.

Lemma NoDup_ddel d k : NoDup (dkeys d) -> NoDup (dkeys (ddel d k)).
Proof. unfold dkeys, ddel. apply NoDup_map_filter. Qed.

End Assoc.

Arguments dict : clear implicits.
