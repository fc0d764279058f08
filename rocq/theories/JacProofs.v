From Coq Require Import Reals Arith Lia Lra Bool.
From Coquelicot Require Import Coquelicot.
From Verif Require Import JacModel JacSpec.
Open Scope R_scope.

(* ---------- derivatives of complex-valued functions of a real variable ---------- *)
Definition dC (x : R -> C) (t : R) (d : C) : Prop :=
  is_derive (fun t => Re (x t)) t (Re d) /\ is_derive (fun t => Im (x t)) t (Im d).

Lemma is_derive_eq (h : R -> R) t d d' : is_derive h t d -> d = d' -> is_derive h t d'.
Proof. now intros H <-. Qed.

Lemma dC_eq x t d d' : dC x t d -> d = d' -> dC x t d'.
Proof. now intros H <-. Qed.

Lemma d_const (a : R) t : is_derive (fun _ : R => a) t 0.
Proof. exact (is_derive_const (K := R_AbsRing) (V := R_NormedModule) a t). Qed.

Lemma dC_const c t : dC (fun _ => c) t (RtoC 0).
Proof. split; apply d_const. Qed.

Lemma dC_plus x y t a b : dC x t a -> dC y t b -> dC (fun t => Cplus (x t) (y t)) t (Cplus a b).
Proof.
  intros [H1 H2] [H3 H4]. split.
  - exact (is_derive_plus (fun t => Re (x t)) (fun t => Re (y t)) t _ _ H1 H3).
  - exact (is_derive_plus (fun t => Im (x t)) (fun t => Im (y t)) t _ _ H2 H4).
Qed.

Lemma dC_opp x t a : dC x t a -> dC (fun t => Copp (x t)) t (Copp a).
Proof.
  intros [H1 H2]. split.
  - exact (is_derive_opp (fun t => Re (x t)) t _ H1).
  - exact (is_derive_opp (fun t => Im (x t)) t _ H2).
Qed.

Lemma dC_conj x t a : dC x t a -> dC (fun t => Cconj (x t)) t (Cconj a).
Proof.
  intros [H1 H2]. split; [exact H1|]. exact (is_derive_opp (fun t => Im (x t)) t _ H2).
Qed.

Lemma is_derive_Rmult (u v : R -> R) t a b :
  is_derive u t a -> is_derive v t b -> is_derive (fun t => u t * v t) t (a * v t + u t * b).
Proof.
  intros H1 H2. apply (is_derive_mult u v t a b H1 H2). intros n m. apply Rmult_comm.
Qed.

Lemma dC_mult x y t a b : dC x t a -> dC y t b ->
  dC (fun t => Cmult (x t) (y t)) t (Cplus (Cmult a (y t)) (Cmult (x t) b)).
Proof.
  intros [H1 H2] [H3 H4]. split.
  - eapply is_derive_eq.
    + exact (is_derive_minus _ _ t _ _ (is_derive_Rmult _ _ _ _ _ H1 H3) (is_derive_Rmult _ _ _ _ _ H2 H4)).
    + unfold minus, plus, opp; simpl. unfold Re, Im. ring.
  - eapply is_derive_eq.
    + exact (is_derive_plus _ _ t _ _ (is_derive_Rmult _ _ _ _ _ H1 H4) (is_derive_Rmult _ _ _ _ _ H2 H3)).
    + unfold plus; simpl. unfold Re, Im. ring.
Qed.

Lemma dC_R (u : R -> R) t a : is_derive u t a -> dC (fun t => RtoC (u t)) t (RtoC a).
Proof.
  intros H. split; [exact H|]. exact (d_const 0 t).
Qed.

Lemma dC_cis (u : R -> R) t a : is_derive u t a ->
  dC (fun t => (cos (u t), sin (u t))) t (Cmult (Cmult Ci (RtoC a)) (cos (u t), sin (u t))).
Proof.
  intros H. split; simpl.
  - eapply is_derive_eq.
    + exact (is_derive_comp cos u t _ _ (is_derive_cos (u t)) H).
    + unfold scal; simpl. unfold mult; simpl. ring.
  - eapply is_derive_eq.
    + exact (is_derive_comp sin u t _ _ (is_derive_sin (u t)) H).
    + unfold scal; simpl. unfold mult; simpl. ring.
Qed.

Lemma dC_csum n (x : R -> nat -> C) t d :
  (forall j, (j < n)%nat -> dC (fun t => x t j) t (d j)) -> dC (fun t => csum n (x t)) t (csum n d).
Proof.
  induction n as [|n IH]; intros H; simpl.
  - apply dC_const.
  - apply dC_plus; [apply IH; auto with arith|apply H; auto].
Qed.

(* ---------- finite complex sums ---------- *)
Lemma csum_ext n x y : (forall j, (j < n)%nat -> x j = y j) -> csum n x = csum n y.
Proof.
  induction n as [|n IH]; intros H; simpl; auto. rewrite H by lia. rewrite IH; auto.
Qed.
Lemma csum_zero n x : (forall j, (j < n)%nat -> x j = RtoC 0) -> csum n x = RtoC 0.
Proof.
  intros H. rewrite (csum_ext n x (fun _ => RtoC 0) H). clear H. induction n as [|n IH]; simpl; auto.
  rewrite IH. apply Cplus_0_r.
Qed.
Lemma csum_plus n x y : csum n (fun j => Cplus (x j) (y j)) = Cplus (csum n x) (csum n y).
Proof. induction n as [|n IH]; simpl; [|rewrite IH]; ring. Qed.
Lemma csum_mult_l n a x : csum n (fun j => Cmult a (x j)) = Cmult a (csum n x).
Proof. induction n as [|n IH]; simpl; [|rewrite IH]; ring. Qed.
Lemma csum_mult_r n a x : csum n (fun j => Cmult (x j) a) = Cmult (csum n x) a.
Proof. induction n as [|n IH]; simpl; [|rewrite IH]; ring. Qed.
Lemma csum_conj n x : csum n (fun j => Cconj (x j)) = Cconj (csum n x).
Proof.
  induction n as [|n IH]; simpl.
  - unfold Cconj, RtoC. simpl. now rewrite Ropp_0.
  - rewrite IH. unfold Cconj, Cplus. simpl. now rewrite Ropp_plus_distr.
Qed.
Lemma csum_one n i x : (i < n)%nat -> csum n (fun j => if Nat.eqb i j then x j else RtoC 0) = x i.
Proof.
  induction n as [|n IH]; intros L; [lia|]. simpl. destruct (Nat.eq_dec i n) as [->|N].
  - rewrite Nat.eqb_refl. rewrite csum_zero; [apply Cplus_0_l|].
    intros j Hj. destruct (Nat.eqb_spec n j); auto. lia.
  - rewrite IH by lia. destruct (Nat.eqb_spec i n); [lia|]. apply Cplus_0_r.
Qed.
Lemma csum_shift n k x : csum (n + k) x = Cplus (csum n x) (csum k (fun j => x (n + j)%nat)).
Proof.
  induction k as [|k IH].
  - rewrite Nat.add_0_r. simpl. now rewrite Cplus_0_r.
  - rewrite Nat.add_succ_r. simpl. rewrite IH. now rewrite Cplus_assoc.
Qed.

(* real sums *)
Lemma rsum_ext n x y : (forall j, (j < n)%nat -> x j = y j) -> rsum n x = rsum n y.
Proof. induction n as [|n IH]; intros H; simpl; auto. rewrite H by lia. rewrite IH; auto. Qed.
Lemma rsum_shift n k x : rsum (n + k) x = rsum n x + rsum k (fun j => x (n + j)%nat).
Proof.
  induction k as [|k IH].
  - rewrite Nat.add_0_r. simpl. ring.
  - rewrite Nat.add_succ_r. simpl. rewrite IH. ring.
Qed.
Lemma Re_csum n x : Re (csum n x) = rsum n (fun j => Re (x j)).
Proof. induction n as [|n IH]; simpl; auto. rewrite <- IH. reflexivity. Qed.
Lemma Im_csum n x : Im (csum n x) = rsum n (fun j => Im (x j)).
Proof. induction n as [|n IH]; simpl; auto. rewrite <- IH. reflexivity. Qed.

(* ---------- products with diagonal matrices ---------- *)
Lemma mm_diag_l n x B i j : (i < n)%nat -> mm n (diag x) B i j = Cmult (x i) (B i j).
Proof.
  intros L. unfold mm.
  rewrite (csum_ext n _ (fun k => if Nat.eqb i k then Cmult (x k) (B k j) else RtoC 0)).
  - now rewrite csum_one.
  - intros k _. unfold diag. destruct (Nat.eqb_spec i k) as [->|]; ring.
Qed.
Lemma mm_diag_r n A x i j : (j < n)%nat -> mm n A (diag x) i j = Cmult (A i j) (x j).
Proof.
  intros L. unfold mm.
  rewrite (csum_ext n _ (fun k => if Nat.eqb j k then Cmult (A i k) (x k) else RtoC 0)).
  - now rewrite csum_one.
  - intros k _. unfold diag. rewrite Nat.eqb_sym. destruct (Nat.eqb_spec j k) as [->|]; ring.
Qed.
Lemma mm_sdiag_l n c x B i j : (i < n)%nat ->
  mm n (fun i j => Cmult c (diag x i j)) B i j = Cmult (Cmult c (x i)) (B i j).
Proof.
  intros L. rewrite <- (mm_diag_l n (fun i => Cmult c (x i))) by exact L. unfold mm. apply csum_ext.
  intros k _. f_equal. unfold diag. destruct (Nat.eqb i k); ring.
Qed.

Section Pf.
Variables npv npq : nat.
Variable Y : nat -> nat -> C.
Variable s : nat -> C.
Variable v_set : nat -> R.
Notation nb := (nb npv npq).
Notation npvpq := (npvpq npv npq).
Notation v_mag := (v_mag npv npq v_set).
Notation V := (V npv npq v_set).
Notation I_bus := (I_bus npv npq Y v_set).
Notation V_norm := (V_norm npv npq v_set).
Notation dS_dVa := (dS_dVa npv npq Y v_set).
Notation dS_dVm := (dS_dVm npv npq Y v_set).
Notation f := (f npv npq Y s v_set).
Notation dfdx := (dfdx npv npq Y v_set).
Notation mismatch := (mismatch npv npq Y s v_set).
Notation nrows := (nrows npv npq).
Notation nvars := (nvars npv npq).

Lemma dS_dVa_at g i j : (i < nb)%nat -> (j < nb)%nat ->
  dS_dVa g i j =
  Cmult (Cmult Ci (V g i)) (Cconj (Cminus (if Nat.eqb i j then I_bus g i else RtoC 0) (Cmult (Y i j) (V g j)))).
Proof.
  intros Hi Hj. unfold JacModel.dS_dVa. rewrite mm_sdiag_l by exact Hi. unfold mconj.
  rewrite mm_diag_r by exact Hj. reflexivity.
Qed.
Lemma dS_dVm_at g i j : (i < nb)%nat -> (j < nb)%nat ->
  dS_dVm g i j =
  Cplus (if Nat.eqb i j then Cmult (V_norm g i) (Cconj (I_bus g i)) else RtoC 0)
        (Cmult (V g i) (Cconj (Cmult (Y i j) (V_norm g j)))).
Proof.
  intros Hi Hj. unfold JacModel.dS_dVm. rewrite !mm_diag_l by exact Hi. unfold mconj.
  rewrite mm_diag_r by exact Hj. f_equal. unfold diag. destruct (Nat.eqb i j); auto.
  apply injective_projections; simpl; ring.
Qed.

Lemma cis_mod a : Cmod (cos a, sin a) = 1.
Proof.
  unfold Cmod. simpl. replace (cos a * (cos a * 1) + sin a * (sin a * 1)) with 1.
  - apply sqrt_1.
  - pose proof (sin2_cos2 a) as H. unfold Rsqr in H. lra.
Qed.

Lemma V_norm_pos g i : 0 < v_mag g i -> V_norm g i = (cos (v_ang g i), sin (v_ang g i)).
Proof.
  intros P. unfold JacModel.V_norm, JacModel.V. rewrite Cmod_mult, cis_mod, Cmod_R, Rmult_1_r.
  rewrite Rabs_pos_eq by lra. field. intros E. apply RtoC_inj in E. lra.
Qed.

(* derivative of the voltages *)
Definition da (d : nat -> R) (i : nat) : R := v_ang d i.
Definition dm (d : nat -> R) (i : nat) : R :=
  if Nat.ltb i (1 + npv) then 0 else d (npvpq + (i - (1 + npv)))%nat.

Lemma d_V (gam : R -> nat -> R) t0 d :
  (forall c, (c < npvpq + npq)%nat -> is_derive (fun t => gam t c) t0 (d c)) ->
  forall i, (i < nb)%nat ->
  dC (fun t => V (gam t) i) t0
     (Cplus (Cmult (RtoC (dm d i)) (cos (v_ang (gam t0) i), sin (v_ang (gam t0) i)))
            (Cmult (Cmult Ci (RtoC (da d i))) (V (gam t0) i))).
Proof.
  intros H i Hi. unfold JacModel.nb, JacModel.npvpq in *.
  assert (Ha : is_derive (fun t => v_ang (gam t) i) t0 (da d i)).
  { unfold da, v_ang. destruct i as [|k]; [exact (d_const 0 t0)|]. apply H. lia. }
  assert (Hm : is_derive (fun t => v_mag (gam t) i) t0 (dm d i)).
  { unfold JacModel.v_mag, dm. destruct (Nat.ltb_spec i (1 + npv)) as [L|L].
    - exact (d_const (v_set i) t0).
    - apply H. unfold JacModel.npvpq. lia. }
  eapply dC_eq.
  - exact (dC_mult _ _ _ _ _ (dC_R _ _ _ Hm) (dC_cis _ _ _ Ha)).
  - unfold JacModel.V. ring.
Qed.

(* what the two matrices of partial derivatives contribute at bus i *)
Lemma dS_sum g d i : (i < nb)%nat ->
  (forall j, (1 + npv <= j < nb)%nat -> 0 < v_mag g j) ->
  let dv j := Cplus (Cmult (RtoC (dm d j)) (cos (v_ang g j), sin (v_ang g j)))
                    (Cmult (Cmult Ci (RtoC (da d j))) (V g j)) in
  Cplus (Cmult (dv i) (Cconj (I_bus g i))) (Cmult (V g i) (Cconj (csum nb (fun j => Cmult (Y i j) (dv j))))) =
  Cplus (csum nb (fun j => Cmult (dS_dVa g i j) (RtoC (da d j))))
        (csum nb (fun j => Cmult (dS_dVm g i j) (RtoC (dm d j)))).
Proof.
  intros Hi Pos dv. rewrite <- csum_plus.
  transitivity (csum nb (fun j =>
     Cplus (if Nat.eqb i j then Cmult (dv j) (Cconj (I_bus g i)) else RtoC 0)
           (Cmult (V g i) (Cconj (Cmult (Y i j) (dv j)))))).
  - rewrite csum_plus, csum_one by exact Hi. rewrite csum_mult_l, csum_conj. reflexivity.
  - apply csum_ext. intros j Hj. rewrite dS_dVa_at, dS_dVm_at by assumption. unfold dv.
    assert (E : Cmult (V_norm g j) (RtoC (dm d j)) =
                Cmult (RtoC (dm d j)) (cos (v_ang g j), sin (v_ang g j))).
    { unfold dm. destruct (Nat.ltb_spec j (1 + npv)) as [L|L]; [ring|].
      rewrite V_norm_pos; [ring|]. apply Pos. lia. }
    rewrite <- E. clear E.
    destruct (Nat.eqb_spec i j) as [->|N]; apply injective_projections; simpl; ring.
Qed.

(* the columns of the Jacobian seen as sums over all buses *)
Lemma sum_a (h : nat -> C) d :
  csum nb (fun j => Cmult (h j) (RtoC (da d j))) =
  csum npvpq (fun c => Cmult (h (1 + c)%nat) (RtoC (d c))).
Proof.
  unfold JacModel.nb. rewrite (csum_shift 1). simpl. rewrite Cmult_0_r, !Cplus_0_l. reflexivity.
Qed.
Lemma sum_m (h : nat -> C) d :
  csum nb (fun j => Cmult (h j) (RtoC (dm d j))) =
  csum npq (fun c => Cmult (h (1 + npv + c)%nat) (RtoC (d (npvpq + c)%nat))).
Proof.
  unfold JacModel.nb, JacModel.npvpq. rewrite Nat.add_assoc. rewrite csum_shift.
  rewrite csum_zero.
  - rewrite Cplus_0_l. apply csum_ext. intros c _. unfold dm.
    destruct (Nat.ltb_spec (1 + npv + c) (1 + npv)); [lia|]. unfold JacModel.npvpq.
    replace (1 + npv + c - (1 + npv))%nat with c by lia. reflexivity.
  - intros j Hj. unfold dm. destruct (Nat.ltb_spec j (1 + npv)); [|lia]. apply Cmult_0_r.
Qed.

Lemma d_mismatch ds w gam t0 d :
  (forall c, (c < nvars ds)%nat -> is_derive (fun t => gam t c) t0 (d c)) ->
  (forall j, (1 + npv <= j < nb)%nat -> 0 < v_mag (gam t0) j) ->
  forall i, (i < nb)%nat ->
  dC (fun t => mismatch ds w (gam t) i) t0
     (Cplus (Cplus (csum npvpq (fun c => Cmult (dS_dVa (gam t0) i (1 + c)%nat) (RtoC (d c))))
                   (csum npq (fun c => Cmult (dS_dVm (gam t0) i (1 + npv + c)%nat) (RtoC (d (npvpq + c)%nat)))))
            (RtoC (if ds then w i * d (npvpq + npq)%nat else 0))).
Proof.
  intros H Pos i Hi. rewrite <- sum_a, <- sum_m, <- (dS_sum _ d i Hi Pos). unfold JacModel.mismatch.
  assert (HV := d_V gam t0 d). specialize (HV (fun c Hc => H c ltac:(unfold JacModel.nvars; destruct ds; lia))).
  assert (HI : dC (fun t => mv nb Y (V (gam t)) i) t0
            (csum nb (fun j => Cmult (Y i j)
               (Cplus (Cmult (RtoC (dm d j)) (cos (v_ang (gam t0) j), sin (v_ang (gam t0) j)))
                      (Cmult (Cmult Ci (RtoC (da d j))) (V (gam t0) j)))))).
  { unfold mv. apply (dC_csum nb (fun t j => Cmult (Y i j) (V (gam t) j))). intros j Hj.
    eapply dC_eq; [exact (dC_mult _ _ _ _ _ (dC_const (Y i j) t0) (HV j Hj))|].
    rewrite Cmult_0_l, Cplus_0_l. reflexivity. }
  assert (HS := dC_mult _ _ _ _ _ (HV i Hi) (dC_conj _ _ _ HI)).
  assert (HM := dC_plus _ _ _ _ _ HS (dC_opp _ _ _ (dC_const (s i) t0))).
  destruct ds.
  - assert (HW : dC (fun t => RtoC (w i * gam t (npvpq + npq)%nat)) t0 (RtoC (w i * d (npvpq + npq)%nat))).
    { apply (dC_R (fun t => w i * gam t (npvpq + npq)%nat)). eapply is_derive_eq.
      - apply (is_derive_Rmult (fun _ => w i) (fun t => gam t (npvpq + npq)%nat) t0 0 (d (npvpq + npq)%nat)).
        + exact (d_const (w i) t0).
        + apply H. unfold JacModel.nvars. lia.
      - cbv beta. match goal with |- ?a = ?b => change (@eq R a b) end. ring. }
    eapply dC_eq; [exact (dC_plus _ _ _ _ _ HM HW)|]. unfold JacModel.I_bus. ring.
  - eapply dC_eq; [exact HM|]. unfold JacModel.I_bus. cbv beta iota. ring.
Qed.

Lemma Re_sum n (h : nat -> C) d :
  Re (csum n (fun c => Cmult (h c) (RtoC (d c)))) = rsum n (fun c => Re (h c) * d c).
Proof. rewrite Re_csum. apply rsum_ext. intros j _. unfold Re, Im. simpl. ring. Qed.
Lemma Im_sum n (h : nat -> C) d :
  Im (csum n (fun c => Cmult (h c) (RtoC (d c)))) = rsum n (fun c => Im (h c) * d c).
Proof. rewrite Im_csum. apply rsum_ext. intros j _. unfold Re, Im. simpl. ring. Qed.

Lemma Re_plus a b : Re (Cplus a b) = Re a + Re b. Proof. reflexivity. Qed.
Lemma Im_plus a b : Im (Cplus a b) = Im a + Im b. Proof. reflexivity. Qed.

Ltac ltb_case := match goal with |- context [Nat.ltb ?a ?b] => destruct (Nat.ltb_spec a b); try lia end.

Lemma row_P (ds : bool) w g d i r : (r < if ds then nb else npvpq)%nat -> i = ((if ds then 0 else 1) + r)%nat ->
  rsum (nvars ds) (fun c => dfdx ds w g r c * d c) =
  rsum npvpq (fun c => Re (dS_dVa g i (1 + c)%nat) * d c) +
  rsum npq (fun c => Re (dS_dVm g i (1 + npv + c)%nat) * d (npvpq + c)%nat) +
  (if ds then w i * d (npvpq + npq)%nat else 0).
Proof.
  intros Hr Hi.
  assert (A : rsum (npvpq + npq) (fun c => dfdx ds w g r c * d c) =
     rsum npvpq (fun c => Re (dS_dVa g i (1 + c)%nat) * d c) +
     rsum npq (fun c => Re (dS_dVm g i (1 + npv + c)%nat) * d (npvpq + c)%nat)).
  { rewrite rsum_shift. f_equal; apply rsum_ext; intros c Hc; unfold JacModel.dfdx; f_equal; cbv zeta.
    - ltb_case. ltb_case. now subst i.
    - ltb_case. ltb_case. ltb_case. replace (npvpq + c - npvpq)%nat with c by lia. now subst i. }
  unfold JacModel.nvars. destruct ds.
  - rewrite rsum_shift, A. simpl rsum. rewrite Nat.add_0_r, Rplus_0_l. f_equal. f_equal.
    unfold JacModel.dfdx. ltb_case. ltb_case. ltb_case. now subst i.
  - rewrite A. ring.
Qed.

Lemma row_Q (ds : bool) w g d i r : ((if ds then nb else npvpq) <= r)%nat -> i = (1 + npv + (r - if ds then nb else npvpq))%nat ->
  rsum (nvars ds) (fun c => dfdx ds w g r c * d c) =
  rsum npvpq (fun c => Im (dS_dVa g i (1 + c)%nat) * d c) +
  rsum npq (fun c => Im (dS_dVm g i (1 + npv + c)%nat) * d (npvpq + c)%nat).
Proof.
  intros Hr Hi.
  assert (A : rsum (npvpq + npq) (fun c => dfdx ds w g r c * d c) =
     rsum npvpq (fun c => Im (dS_dVa g i (1 + c)%nat) * d c) +
     rsum npq (fun c => Im (dS_dVm g i (1 + npv + c)%nat) * d (npvpq + c)%nat)).
  { rewrite rsum_shift. f_equal; apply rsum_ext; intros c Hc; unfold JacModel.dfdx; f_equal; cbv zeta.
    - ltb_case. ltb_case. now subst i.
    - ltb_case. ltb_case. ltb_case. replace (npvpq + c - npvpq)%nat with c by lia. now subst i. }
  unfold JacModel.nvars. destruct ds.
  - rewrite rsum_shift, A. simpl rsum. rewrite Nat.add_0_r, Rplus_0_l.
    unfold JacModel.dfdx. ltb_case. ltb_case. ltb_case. ring.
  - exact A.
Qed.

Lemma is_derive_ext_eq (h k : R -> R) t d d' :
  (forall t, h t = k t) -> d = d' -> is_derive h t d -> is_derive k t d'.
Proof. intros E <- H. now apply (is_derive_ext h k). Qed.

Theorem jacobian ds w gam t0 d :
  (forall c, (c < nvars ds)%nat -> is_derive (fun t => gam t c) t0 (d c)) ->
  (forall j, (1 + npv <= j < nb)%nat -> 0 < v_mag (gam t0) j) ->
  forall r, (r < nrows ds)%nat ->
  is_derive (fun t => f ds w (gam t) r) t0 (rsum (nvars ds) (fun c => dfdx ds w (gam t0) r c * d c)).
Proof.
  intros H Pos r Hr.
  assert (B : nb = S npvpq) by reflexivity.
  assert (B2 : npvpq = (npv + npq)%nat) by reflexivity.
  destruct (Nat.ltb_spec r (if ds then nb else npvpq)) as [L|L].
  - rewrite (row_P ds w (gam t0) d ((if ds then 0 else 1) + r)%nat r L eq_refl).
    destruct (d_mismatch ds w gam t0 d H Pos ((if ds then 0 else 1) + r)%nat) as [D _].
    { destruct ds; lia. }
    eapply is_derive_ext_eq; [| |exact D].
    + intros t. unfold JacModel.f. destruct ds; (ltb_case; reflexivity).
    + rewrite !Re_plus, !Re_sum. reflexivity.
  - rewrite (row_Q ds w (gam t0) d _ r L eq_refl).
    destruct (d_mismatch ds w gam t0 d H Pos (1 + npv + (r - if ds then nb else npvpq))%nat) as [_ D].
    { unfold JacModel.nrows in Hr. destruct ds; lia. }
    eapply is_derive_ext_eq; [| |exact D].
    + intros t. unfold JacModel.f. destruct ds; (ltb_case; reflexivity).
    + rewrite !Im_plus, !Im_sum. match goal with |- ?a = ?b => change (@eq R a b) end.
      destruct ds; cbn [Im RtoC snd]; ring.
Qed.

Lemma csum_csum_ext g h : (forall i, g i = h i) -> forall n, csum n g = csum n h.
Proof. intros E n. apply csum_ext. auto. Qed.

(* everything depends on the guess only through its values *)
Lemma v_ang_ext g h i : (forall c, g c = h c) -> v_ang g i = v_ang h i.
Proof. intros E. destruct i; simpl; auto. Qed.
Lemma v_mag_ext g h i : (forall c, g c = h c) -> v_mag g i = v_mag h i.
Proof. intros E. unfold JacModel.v_mag. destruct (Nat.ltb i (1 + npv)); auto. Qed.
Lemma V_ext g h i : (forall c, g c = h c) -> V g i = V h i.
Proof. intros E. unfold JacModel.V. now rewrite (v_mag_ext g h), (v_ang_ext g h). Qed.
Lemma I_ext g h i : (forall c, g c = h c) -> I_bus g i = I_bus h i.
Proof. intros E. unfold JacModel.I_bus, mv. apply csum_ext. intros j _. now rewrite (V_ext g h). Qed.
Lemma Vn_ext g h i : (forall c, g c = h c) -> V_norm g i = V_norm h i.
Proof. intros E. unfold JacModel.V_norm. now rewrite (V_ext g h). Qed.
Lemma dfdx_ext ds w g h r c : (forall c, g c = h c) -> (r < nrows ds)%nat -> (c < nvars ds)%nat ->
  dfdx ds w g r c = dfdx ds w h r c.
Proof.
  intros E Hr Hc. unfold JacModel.dfdx, JacModel.nrows, JacModel.nvars in *. cbv zeta.
  assert (A : forall i j, (i < nb)%nat -> (j < nb)%nat -> dS_dVa g i j = dS_dVa h i j).
  { intros i j Hi Hj. rewrite !dS_dVa_at by assumption. now rewrite !(V_ext g h), (I_ext g h). }
  assert (M : forall i j, (i < nb)%nat -> (j < nb)%nat -> dS_dVm g i j = dS_dVm h i j).
  { intros i j Hi Hj. rewrite !dS_dVm_at by assumption. now rewrite !(V_ext g h), (I_ext g h), !(Vn_ext g h). }
  assert (B : nb = S npvpq) by reflexivity.
  assert (B2 : npvpq = (npv + npq)%nat) by reflexivity.
  destruct ds; repeat ltb_case; (rewrite A || rewrite M || idtac); try reflexivity; lia.
Qed.

Theorem jacobian_at ds w g :
  (forall j, (1 + npv <= j < nb)%nat -> 0 < v_mag g j) ->
  is_jacobian (nrows ds) (nvars ds) (f ds w) g (dfdx ds w g).
Proof.
  intros Pos gam t0 d E D r Hr.
  eapply is_derive_eq.
  - apply jacobian; [exact D| |exact Hr]. intros j Hj. rewrite (v_mag_ext _ g) by exact E. now apply Pos.
  - apply rsum_ext. intros c Hc. f_equal. apply dfdx_ext; auto.
Qed.

(* partial derivatives, and the Newton direction *)
Lemma rsum_one n c x : (c < n)%nat -> rsum n (fun k => if Nat.eqb k c then x k else 0) = x c.
Proof.
  induction n as [|n IH]; intros L; [lia|]. simpl. destruct (Nat.eq_dec c n) as [->|N].
  - rewrite Nat.eqb_refl. rewrite (rsum_ext _ _ (fun _ => 0)).
    + assert (Z : forall n, rsum n (fun _ => 0) = 0) by (induction n0 as [|m IHm]; simpl; [|rewrite IHm]; ring).
      rewrite Z. ring.
    + intros j Hj. destruct (Nat.eqb_spec j n); auto. lia.
  - rewrite IH by lia. destruct (Nat.eqb_spec n c); [lia|]. ring.
Qed.

Theorem partials ds w g r c :
  (forall j, (1 + npv <= j < nb)%nat -> 0 < v_mag g j) -> (r < nrows ds)%nat -> (c < nvars ds)%nat ->
  is_derive (fun y => f ds w (upd g c y) r) (g c) (dfdx ds w g r c).
Proof.
  intros Pos Hr Hc.
  eapply is_derive_eq.
  - apply (jacobian_at ds w g Pos (fun y => upd g c y) (g c) (fun k => if Nat.eqb k c then 1 else 0)); auto.
    + intros k. unfold upd. destruct (Nat.eqb_spec k c) as [->|]; auto.
    + intros k _. unfold upd. destruct (Nat.eqb k c); [|exact (d_const (g k) (g c))].
      exact (is_derive_id (K := R_AbsRing) (g c)).
  - transitivity (rsum (nvars ds) (fun k => if Nat.eqb k c then dfdx ds w g r k else 0)).
    + apply rsum_ext. intros k _. destruct (Nat.eqb k c); ring.
    + now rewrite rsum_one.
Qed.

Theorem newton_direction ds w g d r :
  (forall j, (1 + npv <= j < nb)%nat -> 0 < v_mag g j) -> (r < nrows ds)%nat ->
  rsum (nvars ds) (fun c => dfdx ds w g r c * d c) = f ds w g r ->
  is_derive (fun t => f ds w (fun c => g c - t * d c) r) 0 (- f ds w g r).
Proof.
  intros Pos Hr E.
  eapply is_derive_eq.
  - apply (jacobian_at ds w g Pos (fun t c => g c - t * d c) 0 (fun c => - d c)); auto.
    + intros c. ring.
    + intros c _. auto_derive; auto. ring.
  - rewrite <- E. clear. induction (nvars ds) as [|n IH]; simpl; [|rewrite IH]; ring.
Qed.

(* the polar form *)
Lemma s_polar g i :
  Cmult (V g i) (Cconj (mv nb Y (V g) i)) =
  (P_out nb Y (v_mag g) (v_ang g) i, Q_out nb Y (v_mag g) (v_ang g) i).
Proof.
  unfold mv. rewrite <- csum_conj, <- csum_mult_l. unfold P_out, Q_out.
  induction nb as [|n IH]; simpl.
  - apply injective_projections; simpl; ring.
  - rewrite IH. apply injective_projections; cbn [fst snd Cplus];
      rewrite Rmult_plus_distr_l; f_equal; unfold JacModel.V, Re, Im;
      rewrite ?cos_minus, ?sin_minus; simpl; ring.
Qed.

Theorem mismatch_polar ds w g i :
  mismatch ds w g i =
  (P_out nb Y (v_mag g) (v_ang g) i - Re (s i) + (if ds then w i * g (npvpq + npq)%nat else 0),
   Q_out nb Y (v_mag g) (v_ang g) i - Im (s i)).
Proof.
  unfold JacModel.mismatch. rewrite s_polar.
  destruct ds; apply injective_projections; simpl; unfold Re, Im; ring.
Qed.

Theorem residual_plain w g :
  (forall r, (r < nrows false)%nat -> f false w g r = 0) <->
  (forall i, (1 <= i < nb)%nat -> P_out nb Y (v_mag g) (v_ang g) i = Re (s i)) /\
  (forall i, (1 + npv <= i < nb)%nat -> Q_out nb Y (v_mag g) (v_ang g) i = Im (s i)).
Proof.
  unfold JacModel.nrows. assert (B : nb = S npvpq) by reflexivity.
  assert (B2 : npvpq = (npv + npq)%nat) by reflexivity.
  split.
  - intros H. split; intros i Hi.
    + specialize (H (i - 1)%nat ltac:(lia)). unfold JacModel.f in H. revert H. ltb_case. intros HH.
      replace (1 + (i - 1))%nat with i in HH by lia. rewrite mismatch_polar in HH. simpl in HH. lra.
    + specialize (H (npvpq + (i - (1 + npv)))%nat ltac:(lia)). unfold JacModel.f in H. revert H. ltb_case.
      intros HH. replace (1 + npv + (npvpq + (i - (1 + npv)) - npvpq))%nat with i in HH by lia.
      rewrite mismatch_polar in HH. simpl in HH. lra.
  - intros [HP HQ] r Hr. unfold JacModel.f. ltb_case; rewrite mismatch_polar; cbn [fst snd Re Im].
    + rewrite HP by lia. ring.
    + rewrite HQ by lia. ring.
Qed.

Theorem residual_distributed w g :
  (forall r, (r < nrows true)%nat -> f true w g r = 0) <->
  (forall i, (i < nb)%nat ->
     P_out nb Y (v_mag g) (v_ang g) i = Re (s i) - w i * g (npvpq + npq)%nat) /\
  (forall i, (1 + npv <= i < nb)%nat -> Q_out nb Y (v_mag g) (v_ang g) i = Im (s i)).
Proof.
  unfold JacModel.nrows. assert (B : nb = S npvpq) by reflexivity.
  assert (B2 : npvpq = (npv + npq)%nat) by reflexivity.
  split.
  - intros H. split; intros i Hi.
    + specialize (H i ltac:(lia)). unfold JacModel.f in H. revert H. ltb_case. intros HH.
      rewrite mismatch_polar in HH. simpl in HH. lra.
    + specialize (H (nb + (i - (1 + npv)))%nat ltac:(lia)). unfold JacModel.f in H. revert H. ltb_case.
      intros HH. replace (1 + npv + (nb + (i - (1 + npv)) - nb))%nat with i in HH by lia.
      rewrite mismatch_polar in HH. simpl in HH. lra.
  - intros [HP HQ] r Hr. unfold JacModel.f. ltb_case; rewrite mismatch_polar; cbn [fst snd Re Im].
    + rewrite HP by lia. ring.
    + rewrite HQ by lia. ring.
Qed.
End Pf.
