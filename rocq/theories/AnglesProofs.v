From mathcomp Require Import all_ssreflect all_fingroup all_algebra.
From Verif Require Import MCRing CyclesModel KvlModel KvlSpec KvlProofs LinflowModel LinflowSpec LinflowProofs AnglesModel.
Set Implicit Arguments. Unset Strict Implicit. Unset Printing Implicit Defensive.
Import Order.TTheory GRing.Theory Num.Theory.
Local Open Scope ring_scope.

Lemma pinv_unique (F : fieldType) k (A Y Z : 'M[F]_k) : is_pinv A Y -> is_pinv A Z -> Y = Z.
Proof.
move=> [y1 [y2 [y3 y4]]] [z1 [z2 [z3 z4]]].
have E1 : A *m Y = A *m Z.
  rewrite -y3 -{1}z1 -[A *m Z *m A *m Y]mulmxA trmx_mul y3 z3.
  by rewrite mulmxA y1.
have E2 : Y *m A = Z *m A.
  rewrite -y4 -{1}z1 !mulmxA -[Y *m A *m Z *m A]mulmxA trmx_mul y4 z4.
  by rewrite -mulmxA [A *m (Y *m A)]mulmxA y1.
by rewrite -y2 E2 -mulmxA E1 mulmxA z2.
Qed.

Section Proofs.
Variable F : realFieldType.
Variables n m : nat.
Variables b0 b1 : 'I_m -> 'I_(1 + n).
Variable z : 'I_m -> F.
Hypothesis zpos : forall l, 0 < z l.
Hypothesis C : connected b0 b1.
Local Notation K := (K F b0 b1).
Local Notation B := (B b0 b1 z).
Local Notation X := (B_inverse b0 b1 z).
Let N : F := (1 + n)%:R.
Let ones : 'cV[F]_(1 + n) := const_mx 1.
Let P : 'M[F]_(1 + n) := 1%:M - N^-1 *: (ones *m ones^T).
Let U : drsubmx B \in unitmx := connected_unit zpos C.

Lemma N0 : N != 0. Proof. by rewrite pnatr_eq0. Qed.

Lemma total1 (p : 'cV[F]_(1 + n)) : ones^T *m p = (\sum_i p i ord0)%:M.
Proof. by apply/matrixP => i j; rewrite !mxE !ord1 eqxx mulr1n; apply: eq_bigr => k _; rewrite !mxE mul1r. Qed.

Lemma B_sym : B^T = B.
Proof. by rewrite /LinflowModel.B /LinflowModel.H !trmx_mul trmxK tr_diag_mx mulmxA. Qed.
Lemma X_sym : X^T = X.
Proof.
rewrite /B_inverse tr_block_mx !trmx0 trmx_inv; congr (block_mx _ _ _ (invmx _)).
by rewrite -{2}B_sym; apply/matrixP => i j; rewrite !mxE.
Qed.
Lemma P_sym : P^T = P.
Proof. by rewrite /P raddfB /= trmx1 linearZ /= trmx_mul trmxK. Qed.

Lemma X_p (p : 'cV[F]_(1 + n)) : X *m p = v_diff b0 b1 z (fun=> 0) p.
Proof.
have S : p_branch_shift z (fun=> 0) = 0 by apply/matrixP => i j; rewrite !mxE mulr0.
rewrite /v_diff /p_bus_shift S mulmx0 subr0 /B_inverse -{1}(vsubmxK p) mul_block_col.
by rewrite !mul0mx !add0r.
Qed.

Lemma BX_p (p : 'cV[F]_(1 + n)) : B *m (X *m p) = bus_p p.
Proof.
have S : p_branch_shift z (fun=> 0) = 0 by apply/matrixP => i j; rewrite !mxE mulr0.
rewrite X_p -(flows_kcl (fun=> 0) U) /flows S addr0.
by rewrite mulmxA.
Qed.

Lemma bus_pE (p : 'cV[F]_(1 + n)) : bus_p p = p - (\sum_i p i ord0) *: delta_mx (lshift n ord0) ord0.
Proof.
have E : slack_adjustment p = - \sum_i p i ord0.
  rewrite /slack_adjustment -[in RHS](vsubmxK p) big_split_ord /= big_ord1 col_mxEu opprD addrC; congr (_ - _).
  by apply: eq_bigr => i _; rewrite col_mxEd.
apply/matrixP => i j; rewrite !ord1 [LHS]mxE E !mxE andbT.
by case: eqP => _; rewrite ?mulr1 ?mulr0 ?subr0 ?addr0.
Qed.

Lemma BX : B *m X = 1%:M - delta_mx (lshift n ord0) ord0 *m ones^T.
Proof.
apply/matrixP => i j.
have E (M : 'M[F]_(1 + n)) : M i j = (M *m delta_mx j ord0) i (ord0 : 'I_1).
  by rewrite -colE mxE.
rewrite E -mulmxA BX_p bus_pE [RHS]E mulmxBl mul1mx -mulmxA total1.
by congr (fun_of_matrix (_ - _) _ _); rewrite mul_mx_scalar.
Qed.

Lemma B_ones : B *m ones = 0.
Proof.
rewrite /LinflowModel.B -mulmxA (_ : LinflowModel.H b0 b1 z *m ones = 0) ?mulmx0 //.
by apply/matrixP => l j; rewrite !ord1 H_diff !mxE subrr mulr0.
Qed.
Lemma ones_P : ones^T *m P = 0.
Proof.
rewrite /P mulmxBr mulmx1 -scalemxAr mulmxA total1.
have -> : \sum_i ones i ord0 = N by rewrite (eq_bigr (fun=> 1)) => [|i _]; rewrite ?mxE // sumr_const card_ord.
by rewrite mul_scalar_mx scalerA mulVf ?N0 // scale1r subrr.
Qed.
Lemma B_P : B *m P = B.
Proof. by rewrite /P mulmxBr mulmx1 -scalemxAr mulmxA B_ones mul0mx scaler0 subr0. Qed.
Lemma P_B : P *m B = B.
Proof. by apply: trmx_inj; rewrite trmx_mul P_sym B_sym B_P. Qed.
Lemma P_keep (p : 'cV[F]_(1 + n)) : \sum_i p i ord0 = 0 -> P *m p = p.
Proof. by move=> S; rewrite /P mulmxBl mul1mx -scalemxAl -mulmxA total1 S raddf0 mulmx0 scaler0 subr0. Qed.
Lemma PP : P *m P = P.
Proof. by rewrite {1}/P mulmxBl mul1mx -scalemxAl -mulmxA ones_P mulmx0 scaler0 subr0. Qed.

Definition centred_inverse : 'M[F]_(1 + n) := P *m X *m P.
Lemma centred_sym : centred_inverse^T = centred_inverse.
Proof. by rewrite /centred_inverse !trmx_mul P_sym X_sym mulmxA. Qed.
Lemma B_centred : B *m centred_inverse = P.
Proof. by rewrite /centred_inverse !mulmxA B_P BX mulmxBl mul1mx -mulmxA ones_P mulmx0 subr0. Qed.
Lemma centred_B : centred_inverse *m B = P.
Proof. by apply: trmx_inj; rewrite trmx_mul centred_sym B_sym B_centred P_sym. Qed.

Lemma centred_pinv : is_pinv B centred_inverse.
Proof.
rewrite /is_pinv B_centred centred_B P_sym P_B; do !split=> //.
by rewrite /centred_inverse !mulmxA PP.
Qed.

Variable Z : 'M[F]_(1 + n).
Hypothesis pinv : is_pinv B Z.
Lemma Z_centred : Z = centred_inverse. Proof. exact: pinv_unique pinv centred_pinv. Qed.
Variable p : 'cV[F]_(1 + n).
Hypothesis many : n != 0%N.

Lemma v_angE : v_ang Z p = P *m v_diff b0 b1 z (fun=> 0) p.
Proof.
have D : dsubmx (bus_p p) = dsubmx p by exact: bus_p_keep.
have S : p_branch_shift z (fun=> 0) = 0 by apply/matrixP => i j; rewrite !mxE mulr0.
have -> : v_diff b0 b1 z (fun=> 0) p = X *m bus_p p.
  by rewrite X_p /v_diff /p_bus_shift S mulmx0 !subr0 D.
rewrite -(P_keep (bus_p_total p)) !mulmxA -/centred_inverse bus_pE mulmxBr /v_ang (negbTE many) trmx_mul trmxK.
rewrite -scalemxAr -colE -Z_centred.
have T : Z^T = Z by rewrite Z_centred centred_sym.
apply/matrixP => i j; rewrite !ord1 !mxE.
rewrite mulr_suml -sumrB; apply: eq_bigr => k _.
have E : Z k i = Z i k by rewrite -[in LHS]T mxE.
by rewrite !mxE E mulrBl; congr (_ - _); exact: mulrC.
Qed.

Let mean : F := N^-1 * \sum_i v_diff b0 b1 z (fun=> 0) p i ord0.
Lemma v_ang_entry i : v_ang Z p i ord0 = v_diff b0 b1 z (fun=> 0) p i ord0 - mean.
Proof.
rewrite v_angE /P mulmxBl mul1mx -scalemxAl -mulmxA total1 mul_mx_scalar scalerA mxE; congr (_ + _).
by rewrite !mxE mulr1.
Qed.

Lemma angles_total : \sum_i v_ang Z p i ord0 = 0.
Proof.
have := total1 (v_ang Z p); rewrite v_angE mulmxA ones_P mul0mx => /(congr1 (fun M : 'M[F]_1 => M ord0 ord0)).
by rewrite !mxE eqxx mulr1n -v_angE.
Qed.

Lemma angles_ohm : ohm b0 b1 z (fun=> 0) (fun i => v_ang Z p i ord0) (branch_p0 b0 b1 z (fun=> 0) p).
Proof.
move=> l; rewrite !v_ang_entry.
have := flows_ohm b0 b1 (fun=> 0) (fun k => lt0r_neq0 (zpos k)) p l; rewrite /branch_p0 => ->.
by congr (_ - _); rewrite opprB addrA subrK.
Qed.
End Proofs.

(* two buses, one line *)
Definition two0 (l : 'I_1) : 'I_(1 + 1) := lshift 1 ord0.
Definition two1 (l : 'I_1) : 'I_(1 + 1) := rshift 1 ord0.
Definition twop : 'cV[rat]_(1 + 1) := col_mx 1%:M (- 1%:M).
Lemma two_connected : connected two0 two1.
Proof.
have A : adj two0 two1 (lshift 1 ord0) (rshift 1 ord0) by apply/existsP; exists ord0; rewrite !eqxx.
have A' : adj two0 two1 (rshift 1 ord0) (lshift 1 ord0) by rewrite adj_sym.
by move=> i j; case: (split_ordP i) => i' ->; case: (split_ordP j) => j' ->; rewrite !ord1 //; exact: connect1.
Qed.
Lemma two_total : \sum_i twop i ord0 = 0.
Proof. by rewrite big_split_ord /= !big_ord1 col_mxEu col_mxEd !mxE eqxx /= subrr. Qed.

Lemma slack_angle_half (Z : 'M[rat]_(1 + 1)) : is_pinv (B two0 two1 (fun=> 1)) Z -> v_ang Z twop (lshift 1 ord0) ord0 = 2%:R^-1.
Proof.
move=> pv; have zp (l : 'I_1) : 0 < (1 : rat) by [].
have T := angles_total zp two_connected pv twop isT.
have O := angles_ohm zp two_connected pv twop isT ord0.
have U := connected_unit zp two_connected.
have [kf _] := lpf_dc_flow (fun=> 0) U (fun k => lt0r_neq0 (zp k)) twop.
have := kf (lshift 1 ord0); rewrite (bus_p_balanced two_total) /twop col_mxEu mxE eqxx /outflow => E.
rewrite (eq_bigl predT) // in E; rewrite [X in _ - X]big_pred0 // subr0 big_ord1 in E.
rewrite big_split_ord /= !big_ord1 in T.
move: O; rewrite /branch_p0 E /two0 /two1 mul1r subr0 => O.
have {}T : v_ang Z twop (rshift 1 ord0) ord0 = - v_ang Z twop (lshift 1 ord0) ord0 by apply/eqP; rewrite -addr_eq0 addrC T.
move: O; rewrite T opprK -mulr2n => O.
by apply: (mulfI (x := 2%:R)) => //; rewrite mulr_natl -O.
Qed.
Lemma slack_not_zero :
  exists (n m : nat) (b0 b1 : 'I_m -> 'I_(1 + n)) (z : 'I_m -> rat) (p : 'cV[rat]_(1 + n)),
    (forall l, 0 < z l) /\ connected b0 b1 /\ \sum_i p i ord0 = 0 /\ n != 0%N /\
    forall Z, is_pinv (B b0 b1 z) Z -> v_ang Z p (lshift n ord0) ord0 = 2%:R^-1 /\ v_diff b0 b1 z (fun=> 0) p (lshift n ord0) ord0 = 0.
Proof.
exists 1%N, 1%N, two0, two1, (fun=> 1), twop; split=> //; split; first exact: two_connected.
split; first exact: two_total.
split=> // Z pv; split; [exact: slack_angle_half|exact: v_slack].
Qed.

Lemma pinv_exists (F : realFieldType) (n m : nat) (b0 b1 : 'I_m -> 'I_(1 + n)) (z : 'I_m -> F) :
    (forall l, 0 < z l) -> connected b0 b1 -> exists Z, is_pinv (B b0 b1 z) Z /\ forall Y, is_pinv (B b0 b1 z) Y -> Y = Z.
Proof.
move=> zp C; exists (centred_inverse b0 b1 z); split; first exact: centred_pinv.
by move=> Y pv; exact: (Z_centred zp C pv).
Qed.

Lemma angles_centred (F : realFieldType) (n m : nat) (b0 b1 : 'I_m -> 'I_(1 + n)) (z : 'I_m -> F) (p : 'cV[F]_(1 + n)) (Z : 'M[F]_(1 + n)) :
    (forall l, 0 < z l) -> connected b0 b1 -> is_pinv (B b0 b1 z) Z -> n != 0%N ->
    \sum_i v_ang Z p i ord0 = 0 /\
    forall i j, v_ang Z p i ord0 - v_ang Z p j ord0 = v_diff b0 b1 z (fun=> 0) p i ord0 - v_diff b0 b1 z (fun=> 0) p j ord0.
Proof.
move=> zp C pv nn; split; first exact: (angles_total zp C pv p nn).
by move=> i j; rewrite !(v_ang_entry zp C pv p nn) opprB addrA subrK.
Qed.

Lemma opt_angles (F : realFieldType) (n m : nat) (b0 b1 : 'I_m -> 'I_(1 + n)) (z : 'I_m -> F) (s : F)
         cycles cols (p : 'cV[F]_(1 + n)) (f : 'I_m -> F) (Z : 'M[F]_(1 + n)) :
    (forall l, b0 l != b1 l) -> s != 0 -> (forall l, 0 < z l) -> connected b0 b1 ->
    find_cycles (branch_list b0 b1) cycles = Some cols -> cycle_basis F b0 b1 cycles ->
    kvl_constraints z xpredT s cols f -> balanced_at b0 b1 (fun i => p i ord0) f ->
    is_pinv (B b0 b1 z) Z -> n != 0%N ->
    ohm b0 b1 z (fun=> 0) (fun i => v_ang Z p i ord0) f.
Proof.
move=> ns sn zp C fc bas kv bal pv nn.
have S : \sum_i p i ord0 = 0 by rewrite -[RHS](outflow_sum b0 b1 f); apply: eq_bigr => i _; rewrite bal.
have [E _] := kvl_lpf f ns sn zp C fc bas S.
move=> l; rewrite (E (conj kv bal) l); exact: (angles_ohm zp C pv p nn).
Qed.

Lemma triangle_case :
  (forall l, tri0 l != tri1 l) /\ (forall l, 0 < triz l) /\ connected tri0 tri1 /\ \sum_i trip i ord0 = 0 /\
  exists cols, find_cycles (branch_list tri0 tri1) [:: [:: 0; 1; 2]]%N = Some cols /\ cycle_basis rat_fieldType tri0 tri1 [:: [:: 0; 1; 2]]%N /\
    kvl_constraints triz xpredT 1 cols (branch_p0 tri0 tri1 triz (fun=> 0) trip) /\
    balanced_at tri0 tri1 (fun i => trip i ord0) (branch_p0 tri0 tri1 triz (fun=> 0) trip) /\
    branch_p0 tri0 tri1 triz (fun=> 0) trip (tr 1) = 3%:R / 4%:R.
Proof.
have [ns [bas [cols [fc _]]]] := triangle_basis.
have [zp [C [_ [fl _]]]] := triangle.
have S : \sum_i trip i ord0 = 0 by rewrite !big_ord_recl big_ord0 !mxE.
do 4 split=> //; exists cols; do 2 split=> //.
have [_ /(_ (fun=> erefl)) [kv bal]] := kvl_lpf (branch_p0 tri0 tri1 triz (fun=> 0) trip) ns (oner_neq0 _) zp C fc bas S.
by split=> //; split=> //; case: fl.
Qed.
