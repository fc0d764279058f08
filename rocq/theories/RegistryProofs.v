From Coq Require Import List String Bool ZArith.
From Verif Require Import Assoc TablesModel RegistryModel.
Import ListNotations.
Open Scope string_scope.
Open Scope list_scope.

(* the registration that counts for a list name: the last one that was accepted *)
Definition accepted (r : registry) (g : reg) : bool := negb (dmem r (rname g)).

Fixpoint last_for (r : registry) (gs : list reg) (k : string) (cur : option ctype) : option ctype :=
  match gs with
  | [] => cur
  | g :: rest =>
      last_for (fst (add_component_type r g)) rest k
        (if accepted r g && String.eqb (rlist g) k then Some (mk_ctype g) else cur)
  end.

Lemma add_get r g k :
  dget (fst (add_component_type r g)) k =
  if accepted r g && String.eqb (rlist g) k then Some (mk_ctype g) else dget r k.
Proof.
  unfold add_component_type, accepted. destruct (dmem r (rname g)); simpl; auto.
  destruct (String.eqb (rlist g) k) eqn:E.
  - apply String.eqb_eq in E. subst k. apply dget_dset_eq.
  - apply dget_dset_neq. now apply String.eqb_neq.
Qed.

Lemma run_get gs r k : dget (run_regs r gs) k = last_for r gs k (dget r k).
Proof.
  unfold run_regs. revert r. induction gs as [|g gs IH]; intros r; simpl; auto.
  rewrite IH. f_equal. apply add_get.
Qed.

Lemma run_kept gs r k :
  (forall g, In g gs -> rlist g <> k) -> dget (run_regs r gs) k = dget r k.
Proof.
  unfold run_regs. revert r. induction gs as [|g gs IH]; intros r H; simpl; auto.
  rewrite IH by (intros; apply H; now right). rewrite add_get.
  assert (N : String.eqb (rlist g) k = false) by (apply String.eqb_neq, H; now left).
  now rewrite N, andb_false_r.
Qed.

Lemma run_member gs r k : dmem r k = true -> dmem (run_regs r gs) k = true.
Proof.
  unfold run_regs. revert r. induction gs as [|g gs IH]; intros r H; simpl; auto.
  apply IH. unfold dmem in *. rewrite add_get. destruct (accepted r g && _); auto.
Qed.

(* exactly the registrations whose list names are still free and whose name clashes with no list name *)
Lemma registered_kept r gs1 g gs2 :
  accepted (run_regs r gs1) g = true ->
  (forall h, In h gs2 -> rlist h <> rlist g) ->
  dget (run_regs r (gs1 ++ g :: gs2)) (rlist g) = Some (mk_ctype g).
Proof.
  intros A H. unfold run_regs in *. rewrite fold_left_app. simpl.
  change (dget (run_regs (fst (add_component_type (fold_left (fun r g => fst (add_component_type r g)) gs1 r) g)) gs2)
            (rlist g) = Some (mk_ctype g)).
  rewrite run_kept by exact H. rewrite add_get, A, String.eqb_refl. reflexivity.
Qed.

Lemma get_registered alias r gs1 g gs2 :
  accepted (run_regs r gs1) g = true ->
  (forall h, In h gs2 -> rlist h <> rlist g) ->
  (forall x, dget alias x = Some (rlist g) -> get_type alias (run_regs r (gs1 ++ g :: gs2)) x = inl (mk_ctype g)) /\
  (dget alias (rlist g) = None -> get_type alias (run_regs r (gs1 ++ g :: gs2)) (rlist g) = inl (mk_ctype g)).
Proof.
  intros A H. split.
  - intros x Hx. unfold get_type. rewrite Hx, registered_kept; auto.
  - intros Hx. unfold get_type. rewrite Hx, registered_kept; auto.
Qed.

Lemma rejected_unchanged r g e : snd (add_component_type r g) = Some e -> fst (add_component_type r g) = r.
Proof. unfold add_component_type. destruct (dmem r (rname g)); simpl; auto. discriminate. Qed.

(* every attribute is static or time-dependent or both, as its type says *)
Lemma fmt_flags a :
  (astatic (fmt_attr a) = true <-> rtype a <> "series") /\
  (avarying (fmt_attr a) = true <-> rtype a = "series" \/ rtype a = "static or series") /\
  (astatic (fmt_attr a) || avarying (fmt_attr a) = true).
Proof.
  unfold fmt_attr, is_static_type, is_varying_type; simpl. split; [|split].
  - rewrite negb_true_iff. apply String.eqb_neq.
  - rewrite orb_true_iff, !String.eqb_eq. tauto.
  - destruct (String.eqb (rtype a) "series"); reflexivity.
Qed.

Lemma fmt_bool a : rtype a = "boolean" -> exists b, adef (fmt_attr a) = VBool b.
Proof.
  intros H. simpl. unfold fmt_default. rewrite H. simpl.
  destruct (rdefault a) as [[z|s|b|]|]; simpl; eauto. destruct b; eauto.
Qed.

Lemma fmt_string_not_nan a : rtype a = "string" -> adef (fmt_attr a) <> VNaN.
Proof.
  intros H. simpl. unfold fmt_default. rewrite H. simpl.
  destruct (rdefault a) as [[z|s|b|]|]; discriminate.
Qed.

Lemma fmt_declared a :
  (rtype a = "boolean" -> forall b, rdefault a = Some (VBool b) \/
     rdefault a = Some (VStr (if b then "True" else "False")) -> adef (fmt_attr a) = VBool b) /\
  (rtype a = "string" -> forall s, rdefault a = Some (VStr s) -> adef (fmt_attr a) = VStr s) /\
  (rtype a <> "boolean" -> rtype a <> "string" -> forall v, rdefault a = Some v -> adef (fmt_attr a) = v).
Proof.
  simpl. unfold fmt_default. split; [|split].
  - intros -> b [-> | ->]; simpl; destruct b; reflexivity.
  - intros -> s ->. reflexivity.
  - intros N1 N2 v ->. unfold typ_of.
    destruct (String.eqb_spec (rtype a) "boolean"); [contradiction|].
    destruct (rtype a =? "int")%string; [reflexivity|].
    destruct (String.eqb_spec (rtype a) "string"); [contradiction|].
    destruct (rtype a =? "geometry")%string; reflexivity.
Qed.

Lemma fmt_missing a :
  rdefault a = None ->
  adef (fmt_attr a) = if String.eqb (rtype a) "boolean" then VBool false
                      else if String.eqb (rtype a) "string" then VStr "" else VNaN.
Proof.
  simpl. unfold fmt_default, typ_of. intros ->.
  destruct (String.eqb_spec (rtype a) "boolean"); [reflexivity|].
  destruct (String.eqb_spec (rtype a) "int") as [E|E]; [rewrite E; reflexivity|].
  destruct (String.eqb_spec (rtype a) "string"); [reflexivity|].
  destruct (rtype a =? "geometry")%string; reflexivity.
Qed.
