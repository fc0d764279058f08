From Coq Require Import List String Bool QArith.
From Verif Require Import LinModel.
Import ListNotations.
Open Scope list_scope.

Lemma sat_add {A} x ts (comps : list A) mask f :
  sat x (add_constraints ts comps mask f) <->
  forall t a, In t ts -> In a comps -> mask t a = true -> holds x (f t a).
Proof.
  unfold sat, add_constraints. split.
  - intros H t a It Ia M. apply H. apply in_flat_map. exists t. split; auto.
    apply in_flat_map. exists a. split; auto. rewrite M. simpl. auto.
  - intros H c I. apply in_flat_map in I. destruct I as [t [It I]]. apply in_flat_map in I. destruct I as [a [Ia I]].
    destruct (mask t a) eqn:M; [|destruct I]. destruct I as [<-|[]]. auto.
Qed.

Lemma sat_app x l r : sat x (l ++ r) <-> sat x l /\ sat x r.
Proof.
  unfold sat. split.
  - intros H. split; intros c I; apply H; apply in_or_app; auto.
  - intros [H1 H2] c I. apply in_app_or in I. destruct I; auto.
Qed.

Lemma sat_nil x : sat x [].
Proof. intros c []. Qed.

Lemma sat_if x (b : bool) l : sat x (if b then l else []) <-> (b = true -> sat x l).
Proof. destruct b; split; auto; [intros _ H; discriminate H|intros _; apply sat_nil]. Qed.

(* deciding a concrete instance *)
Definition holdsb (x : sol) (c : con) : bool :=
  match sns c with
  | Le => Qle_bool (eval x (lhs c)) (rhs c)
  | Ge => Qle_bool (rhs c) (eval x (lhs c))
  | Eq => Qeq_bool (eval x (lhs c)) (rhs c)
  end.
Definition satb (x : sol) (cs : list con) : bool := forallb (holdsb x) cs.

Lemma holdsb_iff x c : holdsb x c = true <-> holds x c.
Proof. unfold holdsb, holds. destruct (sns c); rewrite ?Qle_bool_iff, ?Qeq_bool_iff; tauto. Qed.

Lemma satb_iff x cs : satb x cs = true <-> sat x cs.
Proof.
  unfold satb, sat. rewrite forallb_forall. split; intros H c I; [apply holdsb_iff; auto|].
  apply holdsb_iff. auto.
Qed.
