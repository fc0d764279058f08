From mathcomp Require Import all_ssreflect all_algebra all_field.
From Coq Require Import String Ring Field.
From Verif Require Import MCRing AdmitModel AdmitSpec AdmitProofs.
Set Implicit Arguments. Unset Strict Implicit. Unset Printing Implicit Defensive.
Import GRing.Theory Num.Theory.
Local Open Scope ring_scope.

Theorem C25_wye_to_delta (C : numFieldType) (z1 z2 z3 : C) :
  z1 != 0 -> z2 != 0 -> z3 != 0 -> z1 * z2 + z2 * z3 + z3 * z1 != 0 ->
  let '(za, zb, zc) := wye_to_delta z1 z2 z3 in
  forall v1 v2 v3 i1 i2 i3 : C,
    wye z1 z2 z3 v1 v2 v3 i1 i2 i3 <-> delta zc za zb v1 v2 v3 i1 i2 i3.
Proof. exact: wye_delta. Qed.
Print Assumptions C25_wye_to_delta.

Theorem C25_t_model (C : numFieldType) (t : trafo C) (v0 v1 i0 i1 : C) :
  t_model t = "t"%string -> t_z t != 0 -> t_z t * t_y t + 4%:R != 0 ->
  T_circuit (t_z t) (t_y t) v0 v1 i0 i1 <-> pi_circuit (t_z (t_to_pi t)) (t_y (t_to_pi t)) v0 v1 i0 i1.
Proof. exact: t_pi. Qed.
Print Assumptions C25_t_model.

Theorem C25_other_models_untouched (C : numFieldType) (t : trafo C) : t_model t <> "t"%string -> t_to_pi t = t.
Proof. exact: t_pi_other. Qed.
Print Assumptions C25_other_models_untouched.

(* legs 1, 2, 3 with one unit of voltage at the first terminal; and a transformer with 4 + 4i in series *)
Example C25_ex_wye :
  [/\ (1 : rat) * 2%:R + 2%:R * 3%:R + 3%:R * 1 != 0,
      wye_to_delta (1 : rat) 2%:R 3%:R = (11%:R / 2%:R, 11%:R, 11%:R / 3%:R) &
      wye (1 : rat) 2%:R 3%:R 11%:R 0 0 5%:R (- 3%:R) (- 2%:R)].
Proof. split=> //; by exists 6%:R. Qed.
Example C25_ex_trafo :
  let t := {| t_model := "t"; t_z := 4%:R + 4%:R * 'i : algC; t_y := 1 |} in
  t_z t != 0 /\ t_z t * t_y t + 4%:R != 0.
Proof.
have im0 : forall a : algC, a + 4%:R * 'i = 0 -> a \is Num.real -> False.
  move=> a E ra; have : 'Im (a + 4%:R * 'i : algC) = 4%:R.
    by rewrite mulrC Im_rect // realn.
  by rewrite E raddf0 => /eqP; rewrite eq_sym pnatr_eq0.
split=> /=; apply/eqP=> E; [apply: (im0 4%:R) => // | apply: (im0 8%:R)]; rewrite ?realn //.
by rewrite mulr1 in E; rewrite -E (natrD _ 4 4) addrAC.
Qed.

Theorem C26_branch_currents (C : numFieldType) (conj : {rmorphism C -> C}) n m (br : 'I_m -> branch C n)
    (V : 'cV[C]_n) (l : 'I_m) (i0 i1 : C) :
  let b := br l in
  regular conj b ->
  two_port conj (tau_hv b * ps b) (tau_lv b) (z b) (ysh b) (V (b0 b) ord0) (V (b1 b) ord0) i0 i1 <->
  i0 = (Y0 conj br *m V) l ord0 /\ i1 = (Y1 br *m V) l ord0.
Proof. by move=> b R; rewrite (branch_two_port _ _ _ _ R) Y0V Y1V. Qed.
Print Assumptions C26_branch_currents.

Theorem C26_bus_currents (C : numFieldType) (conj : {rmorphism C -> C}) n m (br : 'I_m -> branch C n)
    (Ysh : 'I_n -> C) (V : 'cV[C]_n) (i : 'I_n) :
  (Y conj br Ysh *m V) i ord0 =
  \sum_(l | b0 (br l) == i) (Y0 conj br *m V) l ord0 + \sum_(l | b1 (br l) == i) (Y1 br *m V) l ord0
  + Ysh i * V i ord0.
Proof. exact: YV. Qed.
Print Assumptions C26_bus_currents.

Theorem C26_bus_powers (C : numFieldType) (conj : {rmorphism C -> C}) n m (br : 'I_m -> branch C n)
    (Ysh : 'I_n -> C) (V : 'cV[C]_n) (i : 'I_n) :
  s_calc conj br Ysh V i =
  \sum_(l | b0 (br l) == i) s0 conj br V l + \sum_(l | b1 (br l) == i) s1 conj br V l
  + V i ord0 * conj (V i ord0) * conj (Ysh i).
Proof. exact: bus_power. Qed.
Print Assumptions C26_bus_powers.

Theorem C26_total_power (C : numFieldType) (conj : {rmorphism C -> C}) n m (br : 'I_m -> branch C n)
    (Ysh : 'I_n -> C) (V : 'cV[C]_n) :
  \sum_i s_calc conj br Ysh V i =
  \sum_l (s0 conj br V l + s1 conj br V l) + \sum_i V i ord0 * conj (V i ord0) * conj (Ysh i).
Proof. exact: total_power. Qed.
Print Assumptions C26_total_power.

Theorem C26_symmetric (C : numFieldType) (conj : {rmorphism C -> C}) n m (br : 'I_m -> branch C n) (Ysh : 'I_n -> C) :
  (forall l, conj (ps (br l)) = ps (br l)) -> (Y conj br Ysh)^T = Y conj br Ysh.
Proof. exact: Y_sym. Qed.
Print Assumptions C26_symmetric.

Theorem C26_lossless_branch (C : numFieldType) (conj : {rmorphism C -> C}) n m (br : 'I_m -> branch C n)
    (V : 'cV[C]_n) (l : 'I_m) :
  (forall x, conj (conj x) = x) ->
  regular conj (br l) -> conj (z (br l)) = - z (br l) -> conj (ysh (br l)) = - ysh (br l) ->
  let s := s0 conj br V l + s1 conj br V l in s + conj s = 0.
Proof. by move=> K; exact: lossless. Qed.
Print Assumptions C26_lossless_branch.

(* a transformer of reactance 2 with tap ratio 3 on side 1 and a 90 degree phase shift *)
Definition ex : branch Algebraics.Implementation.numFieldType 2 :=
  @Build_branch Algebraics.Implementation.numFieldType 2 ord0 (@Ordinal 2 1 isT) (2%:R * 'i) 0 (Some 3%:R) (Some 1%N) 'i.
Example C26_ex :
  [/\ regular (@conjC Algebraics.Implementation.numClosedFieldType) ex, tau_lv ex = 3%:R & Y10 ex <> Y01 (@conjC Algebraics.Implementation.numClosedFieldType) ex].
Proof.
have i0 : ('i : algC) != 0 by rewrite neq0Ci.
have e2 : (2%:R * 'i : algC) != 0 by rewrite mulf_neq0 // pnatr_eq0.
have T : tau_lv ex = 3%:R by rewrite /tau_lv /= /tau /= pnatr_eq0.
split=> //.
- split=> //=; first by rewrite conjCi mulrN -expr2 sqrCi opprK.
  by move=> t [<-]; rewrite rmorph_nat.
- rewrite /Y10 /Y01 /y_se T /tau_hv /= conjCi invrN mulrN => /eqP; rewrite -addr_eq0 -mulr2n mulrn_eq0 /=.
  by rewrite !mulf_eq0 !invr_eq0 oppr_eq0 !mulf_eq0 !invr_eq0 (negPf i0) !pnatr_eq0 /= oner_eq0 mulf_eq0 pnatr_eq0 (negPf i0).
Qed.
