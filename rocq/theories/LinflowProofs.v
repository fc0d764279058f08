From mathcomp Require Import all_ssreflect all_fingroup all_algebra.
From Coq Require Import Ring Field.
From Verif Require Import MCRing LinflowModel LinflowSpec.
Set Implicit Arguments. Unset Strict Implicit. Unset Printing Implicit Defensive.
Import Order.TTheory GRing.Theory Num.Theory.
Local Open Scope ring_scope.

Section General.
Variable F : fieldType.
Add Field FF : (field_th F).
Variables n m : nat.
Variables b0 b1 : 'I_m -> 'I_(1 + n).
Variable z : 'I_m -> F.
Variable shift : 'I_m -> F.
Local Notation K := (K F b0 b1).
Local Notation H := (H b0 b1 z).
Local Notation B := (B b0 b1 z).
Local Notation b := (b z).

Lemma sum_pick (P : pred 'I_m) (f : 'I_m -> F) : \sum_l (P l)%:R * f l = \sum_(l | P l) f l.
Proof.
rewrite [RHS]big_mkcond /=; apply: eq_bigr => l _.
by case: (P l); rewrite ?mul1r ?mul0r.
Qed.

Lemma K_outflow (f : 'cV[F]_m) i : (K *m f) i ord0 = outflow b0 b1 (fun l => f l ord0) i.
Proof.
rewrite mxE /outflow -2!sum_pick -sumrB; apply: eq_bigr => l _.
by rewrite mxE mulrBl.
Qed.

Lemma sum_at (i : 'I_(1 + n)) (v : 'I_(1 + n) -> F) : \sum_j (i == j)%:R * v j = v i.
Proof.
rewrite (bigD1 i) //= eqxx mul1r big1 ?addr0 // => j ji.
by rewrite eq_sym (negbTE ji) mul0r.
Qed.

Lemma KT_diff (v : 'cV[F]_(1 + n)) l : (K^T *m v) l ord0 = v (b0 l) ord0 - v (b1 l) ord0.
Proof.
rewrite mxE -(sum_at (b0 l) (fun j => v j ord0)) -(sum_at (b1 l) (fun j => v j ord0)) -sumrB.
by apply: eq_bigr => j _; rewrite !mxE mulrBl.
Qed.

Lemma H_diff (v : 'cV[F]_(1 + n)) l : (H *m v) l ord0 = b l * (v (b0 l) ord0 - v (b1 l) ord0).
Proof. by rewrite /LinflowModel.H -mulmxA mul_diag_mx mxE KT_diff mxE. Qed.

Lemma outflow_sum (f : 'I_m -> F) : \sum_i outflow b0 b1 f i = 0.
Proof.
rewrite /outflow sumrB.
have E (c : 'I_m -> 'I_(1 + n)) : \sum_i \sum_(l | c l == i) f l = \sum_l f l.
  by rewrite [RHS](partition_big c predT).
by rewrite !E subrr.
Qed.

Lemma K_sum (f : 'cV[F]_m) : \sum_i (K *m f) i ord0 = 0.
Proof. by rewrite -[RHS](outflow_sum (fun l => f l ord0)); apply: eq_bigr => i _; rewrite K_outflow. Qed.

(* two vectors agreeing off the slack bus and with the same total agree *)
Lemma eq_by_total (u w : 'cV[F]_(1 + n)) :
  dsubmx u = dsubmx w -> \sum_i u i ord0 = \sum_i w i ord0 -> u = w.
Proof.
move=> E S.
have E' i : u (rshift 1 i) ord0 = w (rshift 1 i) ord0.
  by move/matrixP: E => /(_ i ord0); rewrite !mxE.
have: u (lshift n ord0) ord0 = w (lshift n ord0) ord0.
  move: S; rewrite !big_split_ord /= !big_ord1.
  by rewrite (eq_bigr (fun i => w (rshift 1 i) ord0)) // => /addIr.
move=> E0; apply/matrixP => i j; rewrite (ord1 j).
case: (split_ordP i) => k ->; last exact: E'.
by rewrite (ord1 k).
Qed.

Lemma bus_p_total (p : 'cV[F]_(1 + n)) : \sum_i bus_p p i ord0 = 0.
Proof.
rewrite (eq_bigr (fun i => p i ord0 + (if i == lshift n ord0 then slack_adjustment p else 0))) => [|i _];
  last by rewrite mxE.
rewrite big_split /= -big_mkcond big_pred1_eq /slack_adjustment big_split_ord /= big_ord1.
rewrite (eq_bigr (fun i => dsubmx p i ord0)) => [|i _]; last by rewrite mxE.
by rewrite mxE -[lshift n 0]/(lshift n ord0); fring F.
Qed.

Lemma bus_p_keep (p : 'cV[F]_(1 + n)) : dsubmx (bus_p p) = dsubmx p.
Proof.
apply/matrixP => i j; rewrite !mxE (ord1 j).
by rewrite eq_rlshift addr0.
Qed.

Lemma bus_p_balanced (p : 'cV[F]_(1 + n)) : \sum_i p i ord0 = 0 -> bus_p p = p.
Proof. by move=> S; apply: eq_by_total; rewrite ?bus_p_keep // bus_p_total S. Qed.

Hypothesis Bu : drsubmx B \in unitmx.

Lemma B_v (q : 'cV[F]_n) : dsubmx (B *m col_mx 0 (invmx (drsubmx B) *m q)) = q.
Proof.
rewrite -[B in B *m _]submxK mul_block_col !mulmx0 !add0r col_mxKd.
by rewrite mulKVmx.
Qed.

Lemma flows_kcl (p : 'cV[F]_(1 + n)) : K *m flows b0 b1 z shift p = bus_p p.
Proof.
apply: eq_by_total; last by rewrite K_sum bus_p_total.
rewrite bus_p_keep /flows mulmxDr mulmxA -/(LinflowModel.B b0 b1 z) /v_diff raddfD /= B_v.
by rewrite raddfB /= subrK.
Qed.

Hypothesis znz : forall l, z l != 0.

Lemma flows_ohm (p : 'cV[F]_(1 + n)) :
  ohm b0 b1 z shift (fun i => v_diff b0 b1 z shift p i ord0) (fun l => flows b0 b1 z shift p l ord0).
Proof.
move=> l; rewrite /flows mxE H_diff [p_branch_shift _ _ _ _]mxE /LinflowModel.b.
by move: (v_diff _ _ _ _ _) => v; ffield F; apply/eqP.
Qed.

(* flows are unique *)
Lemma dc_flow_unique (p : 'I_(1 + n) -> F) (f g : 'I_m -> F) :
  dc_flow b0 b1 z shift p f -> dc_flow b0 b1 z shift p g -> forall l, f l = g l.
Proof.
move=> [kf [tf of_]] [kg [tg og]] l.
pose d : 'cV[F]_(1 + n) := \col_i ((tf i - tf (lshift n ord0)) - (tg i - tg (lshift n ord0))).
pose e : 'cV[F]_m := \col_l (f l - g l).
have He : H *m d = e.
  apply/matrixP => k j; rewrite (ord1 j) H_diff !mxE.
  apply: (mulfI (znz k)); rewrite mulrA /LinflowModel.b mulfV // mul1r mulrBr of_ og.
  by fring F.
have Ke : K *m e = 0.
  apply/matrixP => i j; rewrite (ord1 j) K_outflow [RHS]mxE /outflow.
  rewrite (eq_bigr (fun l => f l - g l)) => [|k _]; last by rewrite mxE.
  rewrite [X in _ - X](eq_bigr (fun l => f l - g l)) => [|k _]; last by rewrite mxE.
  rewrite !sumrB; move: (kf i) (kg i); rewrite /outflow => <- /eqP.
  move: (\sum_(l | b0 l == i) f l) (\sum_(l | b1 l == i) f l) (\sum_(l | b0 l == i) g l)
        (\sum_(l | b1 l == i) g l) => A1 A2 A3 A4; rewrite eq_sym -subr_eq0 => /eqP <-.
  by fring F.
have d0 : usubmx d = 0.
  by apply/matrixP => i j; rewrite !mxE (ord1 i) !subrr.
have : d = 0.
  rewrite -[d]vsubmxK d0.
  suff -> : dsubmx d = 0 by rewrite col_mx0.
  have : dsubmx (B *m d) = 0 by rewrite /LinflowModel.B -mulmxA He Ke raddf0.
  rewrite -[d in B *m d]vsubmxK d0 -[B in B *m _]submxK mul_block_col !mulmx0 !add0r col_mxKd.
  by move=> E; rewrite -(mulKmx Bu (dsubmx d)) E mulmx0.
move=> dz; have /matrixP/(_ l ord0) : e = 0 by rewrite -He dz mulmx0.
by rewrite !mxE => /eqP; rewrite subr_eq0 => /eqP.
Qed.

(* the linear power flow solves the DC equations *)
Lemma lpf_dc_flow (p : 'cV[F]_(1 + n)) :
  dc_flow b0 b1 z shift (fun i => bus_p p i ord0) (fun l => flows b0 b1 z shift p l ord0).
Proof.
split; last by exists (fun i => v_diff b0 b1 z shift p i ord0); exact: flows_ohm.
by move=> i; rewrite -flows_kcl K_outflow.
Qed.

Lemma v_slack (p : 'cV[F]_(1 + n)) : v_diff b0 b1 z shift p (lshift n ord0) ord0 = 0.
Proof. by rewrite /v_diff col_mxEu mxE. Qed.

(* angles are unique once the slack angle is fixed *)
Lemma angles_unique (p : 'cV[F]_(1 + n)) (th : 'I_(1 + n) -> F) (f : 'I_m -> F) :
  balanced_at b0 b1 (fun i => bus_p p i ord0) f -> ohm b0 b1 z shift th f -> th (lshift n ord0) = 0 ->
  forall i, th i = v_diff b0 b1 z shift p i ord0.
Proof.
move=> kf of_ t0 i.
have D : dc_flow b0 b1 z shift (fun i => bus_p p i ord0) f by split=> //; exists th.
have E := dc_flow_unique D (lpf_dc_flow p).
pose d : 'cV[F]_(1 + n) := \col_i (th i - v_diff b0 b1 z shift p i ord0).
have Hd : H *m d = 0.
  apply/matrixP => k j; rewrite (ord1 j) H_diff [d _ _]mxE [d (b1 k) _]mxE [RHS]mxE.
  have := of_ k; rewrite E flows_ohm => Ek.
  suff -> : th (b0 k) - v_diff b0 b1 z shift p (b0 k) ord0 - (th (b1 k) - v_diff b0 b1 z shift p (b1 k) ord0) = 0
    by rewrite mulr0.
  move: Ek => /eqP; rewrite eq_sym -subr_eq0 => /eqP <-; by fring F.
have d0 : usubmx d = 0.
  by apply/matrixP => k j; rewrite (ord1 k) (ord1 j) [LHS]mxE [d _ _]mxE [RHS]mxE v_slack t0 subrr.
have : dsubmx d = 0.
  have : dsubmx (B *m d) = 0 by rewrite /LinflowModel.B -mulmxA Hd mulmx0 raddf0.
  rewrite -[d in B *m d]vsubmxK d0 -[B in B *m _]submxK mul_block_col !mulmx0 !add0r col_mxKd.
  by move=> E'; rewrite -(mulKmx Bu (dsubmx d)) E' mulmx0.
move=> dd; have /matrixP/(_ i ord0) : d = 0 by rewrite -[d]vsubmxK d0 dd col_mx0.
by rewrite [d _ _]mxE [X in _ = X]mxE => /eqP; rewrite subr_eq0 => /eqP.
Qed.
End General.

Section PTDF.
Variable F : fieldType.
Add Field FF2 : (field_th F).
Variables n m : nat.
Variables b0 b1 : 'I_m -> 'I_(1 + n).
Variable z : 'I_m -> F.
Local Notation K := (K F b0 b1).
Local Notation H := (H b0 b1 z).
Local Notation B := (B b0 b1 z).
Local Notation PTDF := (PTDF b0 b1 z).

Lemma PTDF_flows (shift : 'I_m -> F) (p : 'cV[F]_(1 + n)) :
  flows b0 b1 z shift p = PTDF *m (p - p_bus_shift b0 b1 z shift) + p_branch_shift z shift.
Proof.
rewrite /flows /LinflowModel.PTDF /B_inverse /v_diff -!mulmxA; congr (_ *m _ + _).
by rewrite -[in RHS](vsubmxK (p - _)) mul_block_col !mul0mx !add0r.
Qed.

Lemma PTDF_slack_col (k : 'I_m) : PTDF k (lshift n ord0) = 0.
Proof.
rewrite /LinflowModel.PTDF /B_inverse -[H]hsubmxK mul_row_block !mulmx0 !add0r.
by rewrite row_mxEl mxE.
Qed.

Hypothesis Bu : drsubmx B \in unitmx.
Hypothesis znz : forall l, z l != 0.

Lemma no_shift_flows (p : 'cV[F]_(1 + n)) : flows b0 b1 z (fun=> 0) p = PTDF *m p.
Proof.
have S : p_branch_shift z (fun=> 0) = 0 by apply/matrixP => i j; rewrite !mxE mulr0.
by rewrite PTDF_flows S /p_bus_shift S mulmx0 subr0 addr0.
Qed.

Lemma PTDF_dc_flow (p : 'cV[F]_(1 + n)) :
  dc_flow b0 b1 z (fun=> 0) (fun i => bus_p p i ord0) (fun l => (PTDF *m p) l ord0).
Proof. by rewrite -no_shift_flows; exact: lpf_dc_flow. Qed.
End PTDF.

Lemma outflowE (F : fieldType) n m (b0 b1 : 'I_m -> 'I_n) (f : 'I_m -> F) i :
  outflow b0 b1 f i = \sum_l ((b0 l == i)%:R - (b1 l == i)%:R) * f l.
Proof.
rewrite /outflow -(sum_pick (fun l => b0 l == i)) -(sum_pick (fun l => b1 l == i)) -sumrB.
by apply: eq_bigr => l _; rewrite mulrBl.
Qed.

Lemma outflow_lin (F : fieldType) n m (b0 b1 : 'I_m -> 'I_n) (f g h : 'I_m -> F) c i :
  (forall l, f l = g l + c * h l) -> outflow b0 b1 f i = outflow b0 b1 g i + c * outflow b0 b1 h i.
Proof.
move=> E; rewrite !outflowE mulr_sumr -big_split; apply: eq_bigr => l _ /=.
by rewrite E mulrDr mulrCA.
Qed.

Section Graph.
Variables n m : nat.
Variables b0 b1 : 'I_m -> 'I_n.

Lemma adj_sym : symmetric (adj b0 b1).
Proof. by move=> i j; apply/existsP/existsP => -[l]; rewrite orbC => h; exists l. Qed.

Lemma adj_ends l : adj b0 b1 (b0 l) (b1 l).
Proof. by apply/existsP; exists l; rewrite !eqxx. Qed.

Lemma const_connect (T : Type) (v : 'I_n -> T) :
  (forall l, v (b0 l) = v (b1 l)) -> forall i j, connect (adj b0 b1) i j -> v i = v j.
Proof.
move=> E i j /connectP[p pp ->] {j}.
elim: p i pp => //= k p IH i /andP[/existsP[l /orP[]/andP[/eqP<- /eqP e]] pp].
- by rewrite E e; exact: IH.
- by rewrite -e -E; apply: IH.
Qed.
End Graph.

Section Invertible.
Variable F : fieldType.
Variables n m : nat.
Variables b0 b1 : 'I_m -> 'I_(1 + n).
Variable z : 'I_m -> F.

Lemma unit_connected : drsubmx (B b0 b1 z) \in unitmx -> connected b0 b1.
Proof.
move=> Bu.
have S i : connect (adj b0 b1) (lshift n ord0) i.
  apply: contraT => ni.
  pose w : 'cV[F]_(1 + n) := \col_i (~~ connect (adj b0 b1) (lshift n ord0) i)%:R.
  have Bw : B b0 b1 z *m w = 0.
    rewrite /B -mulmxA; suff -> : H b0 b1 z *m w = 0 by rewrite mulmx0.
    apply/matrixP => l j; rewrite (ord1 j) H_diff [RHS]mxE [w _ _]mxE [w (b1 l) _]mxE.
    have -> : connect (adj b0 b1) (lshift n ord0) (b0 l) = connect (adj b0 b1) (lshift n ord0) (b1 l).
      apply: same_connect_r; first exact/sym_connect_sym/adj_sym.
      exact/connect1/adj_ends.
    by rewrite subrr mulr0.
  have w0 : usubmx w = 0 by apply/matrixP => k j; rewrite !mxE (ord1 k) connect0.
  have : dsubmx w = 0.
    have : dsubmx (B b0 b1 z *m w) = 0 by rewrite Bw raddf0.
    rewrite -[w in _ *m w]vsubmxK w0 -[X in X *m _]submxK mul_block_col !mulmx0 !add0r col_mxKd.
    by move=> E; rewrite -(mulKmx Bu (dsubmx w)) E mulmx0.
  move=> wd; have /matrixP/(_ i ord0) : w = 0 by rewrite -[w]vsubmxK w0 wd col_mx0.
  by rewrite !mxE ni => /eqP; rewrite oner_eq0.
move=> i j; apply: connect_trans (S j).
by rewrite (sym_connect_sym (@adj_sym _ _ b0 b1)).
Qed.
End Invertible.

Section Positive.
Variable F : realFieldType.
Variables n m : nat.
Variables b0 b1 : 'I_m -> 'I_(1 + n).
Variable z : 'I_m -> F.
Hypothesis zpos : forall l, 0 < z l.

Lemma connected_unit : connected b0 b1 -> drsubmx (B b0 b1 z) \in unitmx.
Proof.
move=> C; rewrite unitmxE unitfE; apply/negP => /det0P[v vn v0].
pose w : 'cV[F]_(1 + n) := col_mx 0 v^T.
have E0 : (w^T *m (B b0 b1 z) *m w) ord0 ord0 = 0.
  rewrite /w tr_col_mx trmx0 trmxK -[B _ _ _]submxK mul_row_block !mul0mx !add0r v0.
  by rewrite mul_row_col mulmx0 mul0mx addr0 mxE.
have E1 : (w^T *m (B b0 b1 z) *m w) ord0 ord0 = \sum_l b z l * (w (b0 l) ord0 - w (b1 l) ord0) ^+ 2.
  rewrite /B -mulmxA -mulmxA mulmxA mxE; apply: eq_bigr => l _.
  rewrite H_diff -(KT_diff b0 b1) mulrCA.
  have -> : (w^T *m K F b0 b1) ord0 l = ((K F b0 b1)^T *m w) l ord0.
    by rewrite !mxE; apply: eq_bigr => i _; rewrite !mxE mulrC.
  by rewrite expr2.
have nn l : 0 <= b z l * (w (b0 l) ord0 - w (b1 l) ord0) ^+ 2.
  by rewrite mulr_ge0 ?sqr_ge0 // /b invr_ge0 ltW.
have /eqP := E0; rewrite E1 psumr_eq0 // => /allP Z.
have W l : w (b0 l) ord0 = w (b1 l) ord0.
  have := Z l (mem_index_enum l); rewrite /= mulf_eq0 /b invr_eq0 gt_eqF //= sqrf_eq0 subr_eq0.
  by move/eqP.
have cw := @const_connect _ _ b0 b1 _ (fun i => w i ord0) W.
case/negP: vn; apply/eqP/matrixP => i j; rewrite (ord1 i) [RHS]mxE.
have := cw _ _ (C (rshift 1 j) (lshift n ord0)).
by rewrite /w col_mxEd col_mxEu mxE [X in _ = X]mxE.
Qed.
End Positive.

(* renumbering the buses, e.g. to make another bus the slack *)
Section Renumber.
Variable F : fieldType.
Variables n m : nat.
Variables b0 b1 : 'I_m -> 'I_n.
Variable s : {perm 'I_n}.

Lemma outflow_perm (f : 'I_m -> F) i :
  outflow (fun l => s (b0 l)) (fun l => s (b1 l)) f (s i) = outflow b0 b1 f i.
Proof.
by rewrite /outflow; congr (_ - _); apply: eq_bigl => l; rewrite (inj_eq perm_inj).
Qed.

Lemma dc_flow_perm (z shift : 'I_m -> F) (p : 'I_n -> F) f :
  dc_flow b0 b1 z shift p f ->
  dc_flow (fun l => s (b0 l)) (fun l => s (b1 l)) z shift (fun i => p ((s^-1)%g i)) f.
Proof.
move=> [kf [th o]]; split.
- by move=> i; rewrite -{1}[i](permKV s) outflow_perm kf.
- by exists (fun i => th ((s^-1)%g i)) => l; rewrite !permK.
Qed.

Lemma connected_perm : connected b0 b1 -> connected (fun l => s (b0 l)) (fun l => s (b1 l)).
Proof.
move=> C i j; rewrite -[i](permKV s) -[j](permKV s).
move: ((s^-1)%g i) ((s^-1)%g j) => {}i {}j.
have /connectP[p pp ->] := C i j => {j}.
elim: p i pp => //= k p IH i /andP[/existsP[l e] pp].
apply: connect_trans (IH _ pp); apply: connect1; apply/existsP; exists l.
by rewrite !(inj_eq perm_inj).
Qed.
End Renumber.

Lemma slack_choice (F : realFieldType) n m (b0 b1 : 'I_m -> 'I_(1 + n)) (z shift : 'I_m -> F)
      (s : {perm 'I_(1 + n)}) (p : 'cV[F]_(1 + n)) :
  (forall l, 0 < z l) -> connected b0 b1 -> \sum_i p i ord0 = 0 ->
  flows (fun l => s (b0 l)) (fun l => s (b1 l)) z shift (\col_i p ((s^-1)%g i) ord0)
    = flows b0 b1 z shift p.
Proof.
move=> zp C S.
have zn l : z l != 0 by rewrite gt_eqF.
have C' := connected_perm s C.
have U := connected_unit zp C; have U' := connected_unit zp C'.
have D := dc_flow_perm s (lpf_dc_flow shift U zn p).
have D' := lpf_dc_flow shift U' zn (\col_i p ((s^-1)%g i) ord0).
rewrite bus_p_balanced // in D.
have S' : \sum_i (\col_i p ((s^-1)%g i) ord0) i ord0 = 0 :> F.
  rewrite (eq_bigr (fun i => p ((s^-1)%g i) ord0)) => [|i _]; last by rewrite mxE.
  by rewrite (reindex_inj (@perm_inj _ s)) /= -[RHS]S; apply: eq_bigr => i _; rewrite permK.
rewrite (bus_p_balanced S') in D'.
apply/matrixP => l j; rewrite (ord1 j); move: l {j}; apply: (dc_flow_unique U' zn D').
by case: D => kf o; split=> // i; rewrite mxE; exact: kf.
Qed.

Section Outage.
Variable F : fieldType.
Add Field FF3 : (field_th F).
Variables n m : nat.
Variables b0 b1 : 'I_m.+1 -> 'I_(1 + n).
Variable z : 'I_m.+1 -> F.
Variable l : 'I_m.+1.
Local Notation r0 := (fun k : 'I_m => b0 (lift l k)).
Local Notation r1 := (fun k : 'I_m => b1 (lift l k)).
Local Notation phi := (fun k => branch_PTDF b0 b1 z k l).
Local Notation unit_inj := (fun i => (b0 l == i)%:R - (b1 l == i)%:R : F).

Lemma outflow_lift (f : 'I_m.+1 -> F) i :
  outflow b0 b1 f i = f l * unit_inj i + outflow r0 r1 (fun k => f (lift l k)) i.
Proof.
rewrite !outflowE (bigD1_ord l) //= mulrC; congr (_ + _).
Qed.

Hypothesis Bu : drsubmx (B b0 b1 z) \in unitmx.
Hypothesis znz : forall l, z l != 0.

(* sending one unit in at bus0 of branch l and out at bus1 *)
Lemma phi_dc : dc_flow b0 b1 z (fun=> 0) unit_inj phi.
Proof.
have E : col l (K F b0 b1) = K F b0 b1 *m delta_mx l ord0 by rewrite colE.
have S : \sum_i (col l (K F b0 b1)) i ord0 = 0 by rewrite E K_sum.
have := PTDF_dc_flow Bu znz (col l (K F b0 b1)); rewrite bus_p_balanced // => -[kf [th o]].
have P k : (PTDF b0 b1 z *m col l (K F b0 b1)) k ord0 = phi k.
  by rewrite /branch_PTDF E mulmxA -colE mxE.
split.
- move=> i; have := kf i; rewrite !mxE => <-; rewrite /outflow.
  by congr (_ - _); apply: eq_bigr => k _; rewrite P.
- by exists th => k; rewrite -P; exact: o.
Qed.

Lemma outage_dc (shift : 'I_m.+1 -> F) (p : 'I_(1 + n) -> F) (f : 'cV[F]_m.+1) :
  1 - branch_PTDF b0 b1 z l l != 0 ->
  dc_flow b0 b1 z shift p (fun k => f k ord0) ->
  dc_flow r0 r1 (fun k => z (lift l k)) (fun k => shift (lift l k)) p
    (fun k => outage_flow b0 b1 z f l (lift l k) ord0).
Proof.
move=> d1 [kf [th o]]; have [kp [ps op]] := phi_dc.
have d1' : 1 - branch_PTDF b0 b1 z l l <> 0 by apply/eqP.
pose c := f l ord0 / (1 - branch_PTDF b0 b1 z l l).
have V (k : 'I_m) : outage_flow b0 b1 z f l (lift l k) ord0 = f (lift l k) ord0 + c * phi (lift l k).
  rewrite mxE [BODF _ _ _ _ _]mxE eq_sym (negbTE (neq_lift l k)) /c.
  by fring F.
split.
- move=> i.
  have -> : outflow r0 r1 (fun k => outage_flow b0 b1 z f l (lift l k) ord0) i
          = outflow r0 r1 (fun k => f (lift l k) ord0) i + c * outflow r0 r1 (fun k => phi (lift l k)) i.
    exact: outflow_lin.
  move: (kf i) (kp i); rewrite !outflow_lift => kfi kpi.
  have -> : outflow r0 r1 (fun k => phi (lift l k)) i = unit_inj i * (1 - branch_PTDF b0 b1 z l l).
    by rewrite mulrBr mulr1 -{1}kpi; fring F.
  rewrite -kfi /c mulrCA divfK //; by fring F.
- exists (fun i => th i + c * ps i) => k; rewrite V mulrDr o mulrCA op.
  by fring F.
Qed.

Lemma outage_self (f : 'cV[F]_m.+1) : outage_flow b0 b1 z f l l ord0 = 0.
Proof. by rewrite !mxE eqxx mulN1r subrr. Qed.
End Outage.

Section Tellegen.
Variable F : fieldType.
Add Field FF3t : (field_th F).
(* Tellegen: power of a flow against potential differences *)
Lemma tellegen n m (b0' b1' : 'I_m -> 'I_(1 + n)) (f : 'I_m -> F) (v : 'I_(1 + n) -> F) :
  \sum_k f k * (v (b0' k) - v (b1' k)) = \sum_i v i * outflow b0' b1' f i.
Proof.
transitivity (\sum_i v i * (K F b0' b1' *m \col_k f k) i ord0); last first.
  by apply: eq_bigr => i _; rewrite K_outflow; congr (_ * _); rewrite /outflow;
     congr (_ - _); apply: eq_bigr => k _; rewrite mxE.
under [RHS]eq_bigr => i _ do rewrite mxE mulr_sumr.
rewrite exchange_big /=; apply: eq_bigr => k _.
rewrite -(sum_at (b0' k) v) -(sum_at (b1' k) v) -sumrB mulr_sumr; apply: eq_bigr => i _.
by rewrite !mxE; move: (_%:R) (_%:R) (v i) (f k) => x1 x2 x3 x4; fring F.
Qed.
End Tellegen.


Section OutageReal.
Variable F : realFieldType.
Add Field FF4 : (field_th F).
Variables n m : nat.
Variables b0 b1 : 'I_m.+1 -> 'I_(1 + n).
Variable z : 'I_m.+1 -> F.
Variable l : 'I_m.+1.
Local Notation r0 := (fun k : 'I_m => b0 (lift l k)).
Local Notation r1 := (fun k : 'I_m => b1 (lift l k)).
Hypothesis zpos : forall l, 0 < z l.
Hypothesis C : connected b0 b1.

Lemma connected_mono : connected r0 r1 -> connected b0 b1.
Proof.
move=> R i j; apply: connect_sub (R i j) => x y /existsP[k h].
by apply: connect1; apply/existsP; exists (lift l k).
Qed.

Lemma not_bridge : connected r0 r1 -> 1 - branch_PTDF b0 b1 z l l != 0.
Proof.
move=> R; rewrite subr_eq0 eq_sym; apply/eqP => E1.
have zn k : z k != 0 by rewrite gt_eqF.
have U := connected_unit zpos C.
have [kp [ps op]] := phi_dc l U zn.
set phi := (fun k => branch_PTDF b0 b1 z k l) in kp op.
have Z i : outflow r0 r1 (fun k => phi (lift l k)) i = 0.
  move: (kp i); rewrite (outflow_lift b0 b1 l) /phi E1 mul1r => /eqP.
  by rewrite -subr_eq0 addrC addKr => /eqP.
have T : \sum_k phi (lift l k) * (ps (r0 k) - ps (r1 k)) = 0.
  by rewrite tellegen big1 // => i _; rewrite Z mulr0.
have S : \sum_k z (lift l k) * phi (lift l k) ^+ 2 = 0.
  rewrite -[RHS]T; apply: eq_bigr => k _.
  by have := op (lift l k); rewrite subr0 => <-; rewrite expr2 mulrCA.
have nn k : 0 <= z (lift l k) * phi (lift l k) ^+ 2 by rewrite mulr_ge0 ?sqr_ge0 // ltW.
move/eqP: S; rewrite psumr_eq0 // => /allP S.
have W k : ps (r0 k) = ps (r1 k).
  have := S k (mem_index_enum k); rewrite /= mulf_eq0 gt_eqF //= sqrf_eq0 => /eqP p0.
  by have := op (lift l k); rewrite p0 mulr0 subr0 => /esym/eqP; rewrite subr_eq0 => /eqP.
have := op l; rewrite (const_connect W (R (b0 l) (b1 l))) subrr subr0 /phi E1 mulr1 => /eqP.
by rewrite (negbTE (zn l)).
Qed.

Lemma bridge : ~ connected r0 r1 -> 1 - branch_PTDF b0 b1 z l l = 0.
Proof.
move=> R; have zn k : z k != 0 by rewrite gt_eqF.
have U := connected_unit zpos C.
have [kp _] := phi_dc l U zn.
pose S i := connect (adj r0 r1) (b0 l) i.
have cs := sym_connect_sym (@adj_sym _ _ r0 r1).
have n1 : ~~ S (b1 l).
  apply/negP => S1; apply: R => i j.
  have A x y : connect (adj b0 b1) x y -> connect (adj r0 r1) x y.
    apply: connect_sub => {}x {}y /existsP[k h].
    case: (unliftP l k) h => [k' -> h|-> h].
      by apply: connect1; apply/existsP; exists k'.
    by case/orP: h => /andP[/eqP<- /eqP<-] //; rewrite cs.
  exact/A/C.
have E : \sum_(i | S i) outflow b0 b1 (fun k => branch_PTDF b0 b1 z k l) i = branch_PTDF b0 b1 z l l.
  transitivity (\sum_(i | S i) (branch_PTDF b0 b1 z l l * ((b0 l == i)%:R - (b1 l == i)%:R)
     + outflow r0 r1 (fun k => branch_PTDF b0 b1 z (lift l k) l) i)).
    by apply: eq_bigr => i _; rewrite (outflow_lift b0 b1 l).
  rewrite big_split /= -mulr_sumr.
  have -> : \sum_(i | S i) ((b0 l == i)%:R - (b1 l == i)%:R) = 1 :> F.
    rewrite (bigD1 (b0 l)) /=; last exact: connect0.
    rewrite eqxx; have -> : (b1 l == b0 l) = false.
      by apply: contraNF n1 => /eqP->; exact: connect0.
    rewrite subr0 big1 ?addr0 // => i /andP[Si ni].
    rewrite eq_sym (negbTE ni); case: eqP => [e|]; last by rewrite subrr.
    by rewrite e Si in n1.
  rewrite mulr1 -[RHS]addr0; congr (_ + _).
  pose g k := branch_PTDF b0 b1 z (lift l k) l.
  transitivity (\sum_i (S i)%:R * outflow r0 r1 g i).
    by rewrite big_mkcond; apply: eq_bigr => i _; case: (S i); rewrite ?mul1r ?mul0r.
  rewrite -tellegen big1 // => k _.
  have -> : S (r0 k) = S (r1 k).
    by apply: (same_connect_r cs); apply: connect1; apply/existsP; exists k; rewrite !eqxx.
  by rewrite subrr mulr0.
move: E; rewrite (eq_bigr _ (fun i _ => kp i)) => <-.
rewrite (bigD1 (b0 l)) /=; last exact: connect0.
rewrite eqxx; have -> : (b1 l == b0 l) = false.
  by apply: contraNF n1 => /eqP->; exact: connect0.
rewrite subr0 big1 ?addr0 ?subrr // => i /andP[Si ni].
rewrite eq_sym (negbTE ni); case: eqP => [e|]; last by rewrite subrr.
by rewrite e Si in n1.
Qed.

(* flows predicted by the outage factors are the flows of the network without the branch *)
Lemma outage_flows (shift : 'I_m.+1 -> F) (p : 'cV[F]_(1 + n)) : connected r0 r1 ->
  forall k, outage_flow b0 b1 z (flows b0 b1 z shift p) l (lift l k) ord0
    = flows r0 r1 (fun k => z (lift l k)) (fun k => shift (lift l k)) p k ord0.
Proof.
move=> R k; have zn j : z j != 0 by rewrite gt_eqF.
have U := connected_unit zpos C.
have zp' j : 0 < z (lift l j) by [].
have U' := connected_unit zp' R.
move: k; apply: (dc_flow_unique U' (fun j => zn (lift l j))); last exact: lpf_dc_flow.
by apply: outage_dc => //; [exact: not_bridge|exact: lpf_dc_flow].
Qed.
End OutageReal.

Section KVL.
Variable F : fieldType.
Add Field FF5 : (field_th F).
Variables n m c : nat.
Variables b0 b1 : 'I_m -> 'I_(1 + n).
Variable z : 'I_m -> F.
Variable C : 'M[F]_(m, c).

Lemma kvl_ohm (s : F) (f : 'cV[F]_m) :
  s != 0 ->
  (forall g : 'I_m -> F, circulation b0 b1 g -> exists w : 'I_c -> F, forall l, g l = \sum_j C l j * w j) ->
  kvl z C s f -> exists th, ohm b0 b1 z (fun=> 0) th (fun l => f l ord0).
Proof.
move=> sn span kf.
pose x : 'rV[F]_m := \row_l (z l * f l ord0).
have xC : x *m C = 0.
  apply/matrixP => i j; rewrite [RHS]mxE mxE.
  apply: (mulfI sn); rewrite mulr0 mulr_sumr -[RHS](kf j); apply: eq_bigr => l _.
  by rewrite [x _ _]mxE; move: (f _ _) (C _ _) (z _) => u v w; fring F.
have : (x <= K F b0 b1)%MS.
  rewrite submxE; apply/eqP/matrixP => i j; rewrite [RHS]mxE mxE.
  have /span[w ws] : circulation b0 b1 (fun l => cokermx (K F b0 b1) l j).
    move=> k; have /matrixP/(_ k ord0) : K F b0 b1 *m col j (cokermx (K F b0 b1)) = 0.
      by rewrite colE mulmxA mulmx_coker mul0mx.
    rewrite K_outflow [X in _ = X]mxE !outflowE => E; rewrite -[RHS]E.
    by apply: eq_bigr => l _; rewrite [col _ _ _ _]mxE.
  under eq_bigr => l _ do rewrite ws mulr_sumr.
  rewrite exchange_big big1 //= => k _.
  under eq_bigr => l _ do rewrite mulrA.
  by rewrite -mulr_suml; move/matrixP: xC => /(_ i k); rewrite !mxE => ->; rewrite mul0r.
move/submxP => [D xD].
exists (fun i => D ord0 i) => l; rewrite subr0.
move/matrixP: xD => /(_ ord0 l); rewrite mxE => ->; rewrite mxE.
rewrite -(sum_at (b0 l) (fun i => D ord0 i)) -(sum_at (b1 l) (fun i => D ord0 i)) -sumrB.
by apply: eq_bigr => i _; rewrite !mxE; fring F.
Qed.

Lemma ohm_kvl (s : F) (f : 'cV[F]_m) th :
  (forall j, circulation b0 b1 (fun l => C l j)) ->
  ohm b0 b1 z (fun=> 0) th (fun l => f l ord0) -> kvl z C s f.
Proof.
move=> circ o j.
transitivity (s * \sum_l C l j * (th (b0 l) - th (b1 l))).
  rewrite mulr_sumr; apply: eq_bigr => l _.
  by have := o l; rewrite subr0 => <-; fring F.
suff -> : \sum_l C l j * (th (b0 l) - th (b1 l)) = 0 by rewrite mulr0.
transitivity (\sum_i th i * outflow b0 b1 (fun l => C l j) i).
  transitivity (\sum_i th i * (K F b0 b1 *m col j C) i ord0); last first.
    by apply: eq_bigr => i _; rewrite K_outflow; congr (_ * _); rewrite /outflow;
       congr (_ - _); apply: eq_bigr => k _; rewrite mxE.
  under [RHS]eq_bigr => i _ do rewrite mxE mulr_sumr.
  rewrite exchange_big /=; apply: eq_bigr => k _.
  rewrite -(sum_at (b0 k) th) -(sum_at (b1 k) th) -sumrB mulr_sumr; apply: eq_bigr => i _.
  by rewrite !mxE; fring F.
by rewrite big1 // => i _; rewrite circ mulr0.
Qed.
End KVL.

Lemma negative_singular :
  exists (F : realFieldType) (n m : nat) (b0 b1 : 'I_m -> 'I_(1 + n)) (z : 'I_m -> F),
    (forall l, z l != 0) /\ connected b0 b1 /\ drsubmx (B b0 b1 z) \notin unitmx.
Proof.
pose b0 (l : 'I_2) : 'I_(1 + 1) := lshift 1 ord0.
pose b1 (l : 'I_2) : 'I_(1 + 1) := rshift 1 ord0.
pose z (l : 'I_2) : rat := if l == ord0 then 1 else -1.
exists rat_realFieldType, 1%N, 2%N, b0, b1, z; split; [|split].
- by move=> l; rewrite /z; case: ifP.
- have A : adj b0 b1 (lshift 1 ord0) (rshift 1 ord0) by apply/existsP; exists (ord0 : 'I_2); rewrite !eqxx.
  have cs := sym_connect_sym (@adj_sym _ _ b0 b1).
  move=> i j; case: (split_ordP i) => k ->; case: (split_ordP j) => k' ->;
    rewrite (ord1 k) (ord1 k') ?connect0 //.
  + exact: connect1.
  + by rewrite cs; exact: connect1.
- rewrite unitmxE; suff -> : drsubmx (B b0 b1 z) = 0 by rewrite det0 // unitr0.
  apply/matrixP => i j; rewrite (ord1 i) (ord1 j) !mxE !big_ord_recl big_ord0.
  by rewrite /H mul_diag_mx !mxE /b /z /= /b0 /b1.
Qed.

(* a concrete network *)
Definition tr (k : nat) : 'I_3 := nth ord0 [:: ord0; @Ordinal 3 1 isT; @Ordinal 3 2 isT] k.
Definition tri0 (l : 'I_3) : 'I_(1 + 2) := tr l.
Definition tri1 (l : 'I_3) : 'I_(1 + 2) := tr ((l + 1) %% 3).
Definition triz (l : 'I_3) : rat := if val l == 2%N then 2%:R else 1.
Definition trip : 'cV[rat]_(1 + 2) :=
  \col_i (if val i == 1%N then 1 else if val i == 2%N then -1 else 0).

Lemma triangle :
  (forall l, 0 < triz l) /\ connected tri0 tri1 /\
  connected (fun k => tri0 (lift ord_max k)) (fun k => tri1 (lift ord_max k)) /\
  [seq branch_p0 tri0 tri1 triz (fun=> 0) trip (tr k) | k <- [:: 0; 1; 2]%N]
    = [:: - 4%:R^-1; 3%:R / 4%:R; - 4%:R^-1] /\
  [seq outage_flow tri0 tri1 triz (flows tri0 tri1 triz (fun=> 0) trip) ord_max (tr k) ord0 | k <- [:: 0; 1; 2]%N]
    = [:: 0; 1; 0].
Proof.
have zp l : 0 < triz l by rewrite /triz; case: ifP.
pose r0 (k : 'I_2) := tri0 (lift ord_max k); pose r1 (k : 'I_2) := tri1 (lift ord_max k).
have R : connected r0 r1.
  have A : adj r0 r1 (tr 0) (tr 1) by apply/existsP; exists ord0.
  have A' : adj r0 r1 (tr 1) (tr 2) by apply/existsP; exists (@Ordinal 2 1 isT).
  have cs := sym_connect_sym (@adj_sym _ _ r0 r1).
  have S i : connect (adj r0 r1) (tr 0) i.
    case: i => [[|[|[|i]]] // h].
    - by rewrite (_ : Ordinal h = tr 0) ?connect0 //; apply: val_inj.
    - by rewrite (_ : Ordinal h = tr 1); [exact: connect1|apply: val_inj].
    - rewrite (_ : Ordinal h = tr 2); last by apply: val_inj.
      by apply: connect_trans (connect1 A) (connect1 A').
  by move=> i j; apply: connect_trans (S j); rewrite cs.
have C : connected tri0 tri1 by exact: connected_mono R.
have zn l : triz l != 0 by rewrite gt_eqF.
have U := connected_unit zp C.
have T : \sum_i trip i ord0 = 0 by rewrite !big_ord_recl big_ord0 !mxE /=.
pose f (l : 'I_3) : rat := if val l == 1%N then 3%:R / 4%:R else - 4%:R^-1.
have fl k : branch_p0 tri0 tri1 triz (fun=> 0) trip k = f k.
  have D := lpf_dc_flow (fun=> 0) U zn trip; rewrite (bus_p_balanced T) in D.
  apply: (dc_flow_unique U zn D); split.
  + move=> i; rewrite outflowE !big_ord_recl big_ord0 mxE.
    by case: i => [[|[|[|i]]] // h]; apply/eqP.
  + exists (fun i => if val i == 0%N then 0 else if val i == 1%N then 4%:R^-1 else - 2%:R^-1).
    by case=> [[|[|[|l]]] // h]; apply/eqP.
split=> //; split=> //; split=> //; split; first by rewrite /= !fl.
pose g (l : 'I_2) : rat := if val l == 0%N then 0 else 1.
have zp' (k : 'I_2) : 0 < triz (lift ord_max k) by [].
have zn' (k : 'I_2) : triz (lift ord_max k) != 0 by rewrite gt_eqF.
have U' := connected_unit zp' R.
have fl' k : outage_flow tri0 tri1 triz (flows tri0 tri1 triz (fun=> 0) trip) ord_max (lift ord_max k) ord0 = g k.
  rewrite outage_flows //.
  have D := lpf_dc_flow (fun=> 0) U' zn' trip; rewrite (bus_p_balanced T) in D.
  apply: (dc_flow_unique U' zn' D); split.
  + move=> i; rewrite outflowE !big_ord_recl big_ord0 mxE.
    by case: i => [[|[|[|i]]] // h]; apply/eqP.
  + exists (fun i => if val i == 2%N then -1 else 0).
    by case=> [[|[|l]] // h]; apply/eqP.
rewrite /= (_ : tr 0 = lift ord_max (ord0 : 'I_2)); last by apply: val_inj.
rewrite (_ : tr 1 = lift ord_max (@Ordinal 2 1 isT)); last by apply: val_inj.
by rewrite !fl' (_ : tr 2 = ord_max) ?outage_self //; apply: val_inj.
Qed.
