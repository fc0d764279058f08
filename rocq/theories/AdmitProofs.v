From mathcomp Require Import all_ssreflect all_algebra.
From Coq Require Import Ring Field String.
From Verif Require Import MCRing AdmitModel AdmitSpec.
Set Implicit Arguments. Unset Strict Implicit. Unset Printing Implicit Defensive.
Import GRing.Theory Num.Theory.
Local Open Scope ring_scope.

Section Wye.
Variable C : numFieldType.
Add Field AF : (field_th C).

Lemma two_ne0 : (2%:R : C) != 0. Proof. by rewrite pnatr_eq0. Qed.
Lemma two_ne0' : (1 + 1 : C) <> 0. Proof. by apply/eqP; rewrite -(natrD _ 1 1) two_ne0. Qed.

Lemma one_ne0' : (1 : C) <> 0. Proof. by apply/eqP; rewrite oner_eq0. Qed.
Lemma four_ne0' : ((1 + 1) * (1 + 1) : C) <> 0.
Proof. by apply/eqP; rewrite mulf_neq0 //; apply/eqP; exact: two_ne0'. Qed.

Lemma div_eq (a z d : C) : z != 0 -> (a * z = d) <-> (a = d / z).
Proof. by move=> nz; split=> [<-|->]; rewrite ?mulfK // divfK. Qed.

Lemma wye_delta (z1 z2 z3 : C) : z1 != 0 -> z2 != 0 -> z3 != 0 -> z1 * z2 + z2 * z3 + z3 * z1 != 0 ->
  let '(za, zb, zc) := wye_to_delta z1 z2 z3 in
  forall v1 v2 v3 i1 i2 i3 : C,
    wye z1 z2 z3 v1 v2 v3 i1 i2 i3 <-> delta zc za zb v1 v2 v3 i1 i2 i3.
Proof.
move=> n1 n2 n3 ns /= v1 v2 v3 i1 i2 i3; rewrite /wye /delta; set s := _ + _ + _ in ns *.
have ca : s / z2 != 0 by rewrite mulf_neq0 // invr_eq0.
have cb : s / z1 != 0 by rewrite mulf_neq0 // invr_eq0.
have cc : s / z3 != 0 by rewrite mulf_neq0 // invr_eq0.
have N1 := elimN eqP n1; have N2 := elimN eqP n2; have N3 := elimN eqP n3; have NS := elimN eqP ns.
split.
- case=> u [/(div_eq _ _ n1) -> /(div_eq _ _ n2) -> /(div_eq _ _ n3) -> E].
  have {}E : u = (v1 * (z2 * z3) + v2 * (z1 * z3) + v3 * (z1 * z2)) / s.
    apply/eqP; rewrite -(inj_eq (mulIf ns)) divfK // -subr_eq0 -(inj_eq (mulfI (mulf_neq0 (mulf_neq0 n1 n2) n3))) mulr0 /s.
    have : (z1 * z2 * z3) * (z1 * z2 * z3) * ((v1 - u) / z1 + (v2 - u) / z2 + (v3 - u) / z3) = 0 by rewrite E mulr0.
    move=> Z; rewrite -[X in _ == X]Z; apply/eqP; transitivity (- (z1 * z2 * z3) * (z1 * z2 * z3) * ((v1 - u) / z1 + (v2 - u) / z2 + (v3 - u) / z3)).
      by ffield C.
    by rewrite E !mulr0.
  exists ((v1 - v2) / (s / z3)), ((v1 - v3) / (s / z2)), ((v2 - v3) / (s / z1)).
  split; first by rewrite !divfK.
  + by rewrite E /s; ffield C.
  + by rewrite E /s; ffield C.
  + by rewrite E /s; ffield C.
- case=> j12 [j13 [j23 [[/(div_eq _ _ cc) -> /(div_eq _ _ ca) -> /(div_eq _ _ cb) ->] -> -> ->]]].
  exists ((v1 * (z2 * z3) + v2 * (z1 * z3) + v3 * (z1 * z2)) / s); rewrite /s; split; by ffield C.
Qed.

Lemma mul_neq0P (a b : C) : a <> 0 -> b <> 0 -> a * b <> 0.
Proof. by move=> /eqP na /eqP nb; apply/eqP; rewrite mulf_neq0. Qed.

Lemma t_pi (t : trafo C) (v0 v1 i0 i1 : C) : t_model t = "t"%string -> t_z t != 0 -> t_z t * t_y t + 4%:R != 0 ->
  T_circuit (t_z t) (t_y t) v0 v1 i0 i1 <-> pi_circuit (t_z (t_to_pi t)) (t_y (t_to_pi t)) v0 v1 i0 i1.
Proof.
case: t => md z y /= -> nz ns; rewrite /t_to_pi /=.
have N2 := two_ne0'; have Nz := elimN eqP nz; have N1 := one_ne0'; have N4 := four_ne0'.
have z2 : z / 2%:R != 0 by rewrite mulf_neq0 // invr_eq0 two_ne0.
case: ifPn => [ny|/negbNE /eqP ->] /=.
- have Ny := elimN eqP ny.
  have e4 : (4%:R : C) = (1 + 1) * (1 + 1) by rewrite -(natrD _ 1 1) -natrM.
  have Ns : z * y + (1 + 1) * (1 + 1) <> 0 by apply/eqP; rewrite -e4.
  set zc := (_ / (1 / y)); set za := (_ / (z / 2%:R)).
  have Ezc : zc = z * (z * y + (1 + 1) * (1 + 1)) / ((1 + 1) * (1 + 1)) by rewrite /zc; ffield C; do ?split.
  have Eza : za = (z * y + (1 + 1) * (1 + 1)) / ((1 + 1) * y) by rewrite /za; ffield C; do ?split.
  have nzc : zc != 0.
    rewrite Ezc -e4 mulf_neq0 ?mulf_neq0 ?invr_eq0 //; by rewrite pnatr_eq0.
  rewrite /T_circuit /pi_circuit; split.
  + case=> u [/(div_eq _ _ z2) -> /(div_eq _ _ z2) -> E].
    have {}E : u = (v0 + v1) * (1 + 1) / (z * y + (1 + 1) * (1 + 1)).
      have N0 : (z * y + (1 + 1) * (1 + 1)) != 0 by apply/eqP.
      apply/eqP; rewrite -(inj_eq (mulIf N0)) divfK // -subr_eq0.
      have <- : z * (y * u - ((v0 - u) / (z / 2%:R) + (v1 - u) / (z / 2%:R))) = 0 by rewrite E subrr mulr0.
      by apply/eqP; ffield C; do ?split.
    exists ((v0 - v1) / zc); rewrite E Ezc Eza; split; by ffield C; do ?split.
  + case=> j [/(div_eq _ _ nzc) -> -> ->].
    exists ((v0 + v1) * (1 + 1) / (z * y + (1 + 1) * (1 + 1))); rewrite Ezc Eza; split; by ffield C; do ?split.
- rewrite /T_circuit /pi_circuit; split.
  + case=> u [/(div_eq _ _ z2) -> /(div_eq _ _ z2) ->]; rewrite mul0r => E.
    have {}E : u = (v0 + v1) / (1 + 1).
      have N0 : (1 + 1 : C) != 0 by apply/eqP.
      apply/eqP; rewrite -(inj_eq (mulIf N0)) divfK // -subr_eq0.
      have <- : - (z / (1 + 1)) * ((v0 - u) / (z / 2%:R) + (v1 - u) / (z / 2%:R)) = 0 by rewrite E mulr0.
      by apply/eqP; ffield C; do ?split.
    exists ((v0 - v1) / z); rewrite E !mul0r !addr0; split; by ffield C; do ?split.
  + case=> j [/(div_eq _ _ nz) -> -> ->]; exists ((v0 + v1) / (1 + 1)); rewrite !mul0r !addr0; split; by ffield C; do ?split.
Qed.

Lemma t_pi_other (t : trafo C) : t_model t <> "t"%string -> t_to_pi t = t.
Proof. by rewrite /t_to_pi => /String.eqb_neq ->. Qed.
End Wye.

Section Y.
Variable C : numFieldType.
Variable conj : {rmorphism C -> C}.
Variables n m : nat.
Add Field AF2 : (field_th C).
Implicit Type b : branch C n.

Definition regular b := [/\ z b != 0, ps b * conj (ps b) = 1 & forall t, tap b = Some t -> conj t = t].

Lemma tau_ne0 b : tau b != 0.
Proof. by rewrite /tau; case: (tap b) => [t|]; rewrite ?oner_eq0 //; case: ifP => [_|/negbT]; rewrite ?oner_eq0. Qed.
Lemma hv_ne0 b : tau_hv b != 0. Proof. by rewrite /tau_hv; case: ifP; rewrite ?tau_ne0 ?oner_eq0. Qed.
Lemma lv_ne0 b : tau_lv b != 0. Proof. by rewrite /tau_lv; case: ifP; rewrite ?tau_ne0 ?oner_eq0. Qed.
Lemma tau_conj b : regular b -> conj (tau b) = tau b.
Proof. case=> _ _ T; rewrite /tau; case E: (tap b) => [t|]; rewrite ?rmorph1 //; case: ifP => _; rewrite ?rmorph1 //; exact: T. Qed.
Lemma hv_conj b : regular b -> conj (tau_hv b) = tau_hv b.
Proof. by move=> R; rewrite /tau_hv; case: ifP => _; rewrite ?rmorph1 // tau_conj. Qed.
Lemma lv_conj b : regular b -> conj (tau_lv b) = tau_lv b.
Proof. by move=> R; rewrite /tau_lv; case: ifP => _; rewrite ?rmorph1 // tau_conj. Qed.

Lemma branch_two_port b (v0 v1 i0 i1 : C) : regular b ->
  two_port conj (tau_hv b * ps b) (tau_lv b) (z b) (ysh b) v0 v1 i0 i1 <->
  i0 = Y00 b * v0 + Y01 conj b * v1 /\ i1 = Y10 b * v0 + Y11 b * v1.
Proof.
move=> R; have [nz P _] := R.
have np : ps b != 0 by apply: contra_eq_neq P => ->; rewrite mul0r eq_sym oner_neq0.
have nc : conj (ps b) != 0 by apply: contra_eq_neq P => ->; rewrite mulr0 eq_sym oner_neq0.
have Ec : conj (ps b) = (ps b)^-1 by apply: (mulfI np); rewrite P divff.
rewrite /two_port /ideal rmorphM (hv_conj R) (lv_conj R) /pi_circuit /Y00 /Y01 /Y10 /Y11 /y_se Ec.
move: (hv_ne0 b) (lv_ne0 b) => /eqP Nh /eqP Nl; move: np nz => /eqP Np /eqP Nz; have N2 := @two_ne0' C; have N1 := @one_ne0' C; have N4 := @four_ne0' C.
have nz : z b != 0 by apply/eqP.
have nh : tau_hv b != 0 by apply/eqP. have nl : tau_lv b != 0 by apply/eqP. have np : ps b != 0 by apply/eqP.
move: (tau_hv b) (tau_lv b) (ps b) (z b) (ysh b) Nh Nl Np Nz nh nl np nz => th tl p zz y Nh Nl Np Nz nh nl np nz.
split.
- case=> w0 [w1 [k0 [k1 [[-> E0] [-> E1] [j [/(div_eq _ _ nz) -> F0 F1]]]]]].
  have -> : i0 = k0 * p / th by rewrite E0; ffield C.
  have -> : i1 = k1 / tl by rewrite E1; ffield C.
  rewrite F0 F1; split; by ffield C; do ?split.
- case=> -> ->.
  exists (v0 / (th * p)), (v1 / tl), ((v0 / (th * p) - v1 / tl) / zz + y / 2%:R * (v0 / (th * p))),
         (- ((v0 / (th * p) - v1 / tl) / zz) + y / 2%:R * (v1 / tl)).
  split; first by split; ffield C; do ?split.
    by split; ffield C; do ?split.
  exists ((v0 / (th * p) - v1 / tl) / zz); split=> //; by rewrite divfK.
Qed.

Variable br : 'I_m -> branch C n.
Variable Ysh : 'I_n -> C.

Lemma sum_pick' (i : 'I_n) (V : 'cV[C]_n) (a : C) : \sum_j a * (i == j)%:R * V j ord0 = a * V i ord0.
Proof.
rewrite (bigD1 i) //= eqxx mulr1 big1 ?addr0 // => j /negPf; by rewrite eq_sym => ->; rewrite mulr0 mul0r.
Qed.

Lemma Y0V (V : 'cV[C]_n) l : (Y0 conj br *m V) l ord0 = Y00 (br l) * V (b0 (br l)) ord0 + Y01 conj (br l) * V (b1 (br l)) ord0.
Proof. rewrite !mxE; under eq_bigr do rewrite !mxE mulrDl; by rewrite big_split /= !sum_pick'. Qed.
Lemma Y1V (V : 'cV[C]_n) l : (Y1 br *m V) l ord0 = Y10 (br l) * V (b0 (br l)) ord0 + Y11 (br l) * V (b1 (br l)) ord0.
Proof. rewrite !mxE; under eq_bigr do rewrite !mxE mulrDl; by rewrite big_split /= !sum_pick'. Qed.

Lemma YV (V : 'cV[C]_n) i :
  (Y conj br Ysh *m V) i ord0 =
  \sum_(l | b0 (br l) == i) (Y0 conj br *m V) l ord0 + \sum_(l | b1 (br l) == i) (Y1 br *m V) l ord0 + Ysh i * V i ord0.
Proof.
rewrite /Y !mulmxDl [LHS]mxE [X in X + _]mxE -!mulmxA; congr (_ + _ + _).
- rewrite [LHS]mxE [RHS]big_mkcond /=; apply: eq_bigr => l _; rewrite [X in X * _]mxE [X in X * _]mxE.
  by case: ifP => _; rewrite ?mul1r ?mul0r.
- rewrite [LHS]mxE [RHS]big_mkcond /=; apply: eq_bigr => l _; rewrite [X in X * _]mxE [X in X * _]mxE.
  by case: ifP => _; rewrite ?mul1r ?mul0r.
- rewrite mul_diag_mx !mxE; by [].
Qed.

Lemma Y_sym : (forall l, conj (ps (br l)) = ps (br l)) -> (Y conj br Ysh)^T = Y conj br Ysh.
Proof.
move=> S; apply/matrixP=> i j; rewrite !mxE; congr (_ + _); last first.
  by rewrite eq_sym; case: eqP => // ->.
rewrite -!big_split /=; apply: eq_bigr => l _; rewrite !mxE.
have -> : Y01 conj (br l) = Y10 (br l) by rewrite /Y01 /Y10 S.
by fring C.
Qed.

Lemma bus_power (V : 'cV[C]_n) i :
  s_calc conj br Ysh V i =
  \sum_(l | b0 (br l) == i) s0 conj br V l + \sum_(l | b1 (br l) == i) s1 conj br V l + V i ord0 * conj (V i ord0) * conj (Ysh i).
Proof.
rewrite /s_calc YV !rmorphD !rmorph_sum rmorphM !mulrDr !mulr_sumr; congr (_ + _ + _).
- by apply: eq_bigr => l /eqP E; rewrite /s0 E.
- by apply: eq_bigr => l /eqP E; rewrite /s1 E.
- by rewrite -mulrA [conj (Ysh i) * _]mulrC.
Qed.

Lemma total_power (V : 'cV[C]_n) :
  \sum_i s_calc conj br Ysh V i = \sum_l (s0 conj br V l + s1 conj br V l) + \sum_i V i ord0 * conj (V i ord0) * conj (Ysh i).
Proof.
under eq_bigr do rewrite bus_power. rewrite !big_split /=; congr (_ + _ + _).
- rewrite (exchange_big_dep xpredT) //=; apply: eq_bigr => l _; rewrite (bigD1 (b0 (br l))) //= ?eqxx //.
  by rewrite big1 ?addr0 // => i /andP[/eqP -> /eqP].
- rewrite (exchange_big_dep xpredT) //=; apply: eq_bigr => l _; rewrite (bigD1 (b1 (br l))) //= ?eqxx //.
  by rewrite big1 ?addr0 // => i /andP[/eqP -> /eqP].
Qed.

Hypothesis conjK : forall x, conj (conj x) = x.
(* without resistance and shunt conductance the active power entering one end leaves at the other *)
Lemma lossless (V : 'cV[C]_n) l : regular (br l) -> conj (z (br l)) = - z (br l) -> conj (ysh (br l)) = - ysh (br l) ->
  let s := s0 conj br V l + s1 conj br V l in s + conj s = 0.
Proof.
move=> R Ez Ey /=; rewrite /s0 /s1 Y0V Y1V !(rmorphD, rmorphM) /=; have [nz P _] := R.
have np : ps (br l) != 0 by apply: contra_eq_neq P => ->; rewrite mul0r eq_sym oner_neq0.
have Ec : conj (ps (br l)) = (ps (br l))^-1 by apply: (mulfI np); rewrite P divff.
rewrite /Y00 /Y01 /Y10 /Y11 /y_se Ec !(rmorphM, rmorphD, rmorphN, fmorphV, rmorphX, rmorph1, rmorph_nat) /= !conjK (hv_conj R) (lv_conj R) Ez Ey Ec.
move: (hv_ne0 (br l)) (lv_ne0 (br l)) => /eqP Nh /eqP Nl; move: np nz => /eqP Np /eqP Nz; have N2 := @two_ne0' C; have N1 := @one_ne0' C; have N4 := @four_ne0' C.
move: (V _ _) (V (b1 _) _) (conj (V _ _)) (conj (V (b1 _) _)) => u0 u1 u0' u1'.
move: (tau_hv _) (tau_lv _) (ps _) (z _) (ysh _) Nh Nl Np Nz => th tl p zz y Nh Nl Np Nz.
have Nm : - zz <> 0 by apply/eqP; rewrite oppr_eq0; apply/eqP.
by ffield C; do ?split.
Qed.
End Y.
