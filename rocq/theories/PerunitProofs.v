From mathcomp Require Import all_ssreflect all_algebra.
From Coq Require Import Ring Field String.
From Verif Require Import MCRing AdmitModel AdmitSpec AdmitProofs PerunitModel PerunitSpec.
Set Implicit Arguments. Unset Strict Implicit. Unset Printing Implicit Defensive.
Import GRing.Theory Num.Theory Order.TTheory.
Local Open Scope ring_scope.

Section P.
Variable C : numClosedFieldType.
Variable pi : C.
Add Field PF : (field_th C).
Implicit Types (k s v i u : C).

(* scaling of circuits *)
Lemma pi_scale k (z y v0 v1 i0 i1 : C) : k != 0 -> pi_circuit (z / k) (y * k) v0 v1 (k * i0) (k * i1) <-> pi_circuit z y v0 v1 i0 i1.
Proof.
move=> nk; have Nk := elimN eqP nk; have N2 := @two_ne0' C; have N1 := @one_ne0' C; rewrite /pi_circuit; split.
- case=> j [E F0 F1]; exists (j / k); split.
  + by rewrite -E; ffield C.
  + by apply: (mulfI nk); rewrite F0; ffield C; do ?split.
  + by apply: (mulfI nk); rewrite F1; ffield C; do ?split.
- case=> j [E -> ->]; exists (j * k); split; [rewrite -E| |]; by ffield C; do ?split.
Qed.
Lemma T_scale k (z y v0 v1 i0 i1 : C) : k != 0 -> T_circuit (z / k) (y * k) v0 v1 (k * i0) (k * i1) <-> T_circuit z y v0 v1 i0 i1.
Proof.
move=> nk; have Nk := elimN eqP nk; have N2 := @two_ne0' C; have N1 := @one_ne0' C; rewrite /T_circuit; split.
- case=> u [E F G]; exists u; split.
  + by rewrite -E; ffield C; do ?split.
  + by rewrite -F; ffield C; do ?split.
  + by apply: (mulfI nk); rewrite mulrDr G; ffield C.
- case=> u [E F G]; exists u; split; [rewrite -E|rewrite -F|]; try by ffield C; do ?split.
  by rewrite -mulrDr G; ffield C.
Qed.
Lemma circuit_scale k md (z y v0 v1 i0 i1 : C) : k != 0 -> circuit md (z / k) (y * k) v0 v1 (k * i0) (k * i1) <-> circuit md z y v0 v1 i0 i1.
Proof. by move=> nk; rewrite /circuit; case: String.eqb; [exact: T_scale|exact: pi_scale]. Qed.

(* finding rows *)
Lemma named_in {A : Type} (name : A -> string) x (s : seq A) a : named name x s = Some a -> List.In a s /\ name a = x.
Proof.
rewrite /named; elim: s => //= b s IH; case: (String.eqb_spec (name b) x) => [E [<-]|_ /IH [I E]]; [by split; [left|]|by split; [right|]].
Qed.
Lemma named_own {A : Type} (name : A -> string) (s : seq A) a : own_names name s -> List.In a s -> named name (name a) s = Some a.
Proof.
rewrite /named /own_names; elim: s => //= b s IH D; inversion D as [|? ? N D']; subst => -[->|I]; first by rewrite String.eqb_refl.
case: (String.eqb_spec (name b) (name a)) => [E|_]; last exact: IH.
by case: N; rewrite E; apply: List.in_map.
Qed.
Lemma named_none {A : Type} (name : A -> string) x (s : seq A) : named name x s = None <-> forall a, List.In a s -> name a <> x.
Proof.
rewrite /named; elim: s => [|b s IH] /=; first by split.
case: (String.eqb_spec (name b) x) => [E|NE]; first by split=> // /(_ b (or_introl erefl)).
rewrite IH; split=> [H a [<-|I]|H a I] //; [exact: H|apply: H; by right].
Qed.

(* the branches of the power flow *)
Lemma calc_lines n n' : calculate_dependent_values pi n = Some n' ->
  exists2 ls, apply_line_types pi (line_types n) (lines n) = Some ls & lines n' = [seq line_values (buses n) l | l <- ls].
Proof.
by rewrite /calculate_dependent_values; case: apply_line_types => [ls|] //; case: apply_transformer_types => [ts|] // [<-]; exists ls.
Qed.
Lemma calc_trafos n n' : calculate_dependent_values pi n = Some n' ->
  exists2 ts, apply_transformer_types (transformer_types n) (transformers n) = Some ts & transformers n' = [seq transformer_values a | a <- ts].
Proof.
by rewrite /calculate_dependent_values; case: apply_line_types => [ls|] //; case: apply_transformer_types => [ts|] // [<-]; exists ts.
Qed.
Lemma in_mapP {A B : Type} (f : A -> B) (s : seq A) b : List.In b [seq f a | a <- s] -> exists2 a, List.In a s & b = f a.
Proof. by elim: s => //= a s IH [<-|/IH [c I ->]]; [exists a; [left|]|exists c; [right|]]. Qed.

Lemma line_known n l v : own_names (@bus_name C) (buses n) -> level n (l_bus0 l) v -> 
  l_zpu (line_values (buses n) l) = Some ((l_r l + 'i * l_x l) / (v ^+ 2)) /\
  l_ypu (line_values (buses n) l) = Some ((l_g l + 'i * l_b l) * (v ^+ 2)).
Proof.
move=> D [c I]; have /= -> := named_own D I; rewrite /=; split; congr Some; by rewrite ?mulrDl ?mulrA.
Qed.

Lemma pi_solve (z y v0 v1 i0 i1 : C) : z != 0 -> pi_circuit z y v0 v1 i0 i1 <-> i0 = (v0 - v1) / z + y / 2%:R * v0 /\ i1 = - ((v0 - v1) / z) + y / 2%:R * v1.
Proof.
move=> nz; split; first by case=> j [/(div_eq _ _ nz) -> -> ->].
by case=> -> ->; exists ((v0 - v1) / z); split=> //; rewrite divfK.
Qed.
Lemma conj_scale v u i j : v^* = v -> i = v * j -> u * i^* = v * u * j^*.
Proof. by move=> cv ->; rewrite rmorphM cv mulrA [u * v]mulrC. Qed.
Lemma line_physical n n' l v : calculate_dependent_values pi n = Some n' -> List.In l (lines n') -> own_names (@bus_name C) (buses n) ->
  level n (l_bus0 l) v -> level n (l_bus1 l) v -> v != 0 -> v^* = v -> l_r l + 'i * l_x l != 0 ->
  forall nb m (i0 i1 : 'I_nb) (br : 'I_m -> branch C nb) (k : 'I_m) (V : 'cV[C]_nb), line_branch i0 i1 l = Some (br k) ->
  forall j0 j1, pi_circuit (l_r l + 'i * l_x l) (l_g l + 'i * l_b l) (v * V i0 ord0) (v * V i1 ord0) j0 j1 ->
    s0 (@conjC C) br V k = (v * V i0 ord0) * j0^* /\ s1 (@conjC C) br V k = (v * V i1 ord0) * j1^*.
Proof.
move=> E I D L _ nv cv nz nb m i0 i1 br k V BR j0 j1.
have [ls _ El] := calc_lines E; rewrite {}El in I; have [a _ Ea] := in_mapP I; subst l => {I}.
have [Z Y] := line_known D L; move: BR; rewrite /line_branch Z Y => -[BR].
rewrite pi_solve // => -[-> ->].
have -> : s0 (@conjC C) br V k = V i0 ord0 * ((Y0 (@conjC C) br *m V) k ord0)^* by rewrite /s0 -BR.
have -> : s1 (@conjC C) br V k = V i1 ord0 * ((Y1 br *m V) k ord0)^* by rewrite /s1 -BR.
rewrite Y0V Y1V /Y00 /Y01 /Y10 /Y11 /y_se /tau_hv /tau_lv -BR /= rmorph1 !divr1 !expr1n !divr1 {BR}.
move: nz; rewrite /line_values /=; move: (l_r a + 'i * l_x a) (l_g a + 'i * l_b a) (V i0 ord0) (V i1 ord0) => zz yy u0 u1 nz.
have Nz := elimN eqP nz; have Nv := elimN eqP nv; have N2 := @two_ne0' C; have N1 := @one_ne0' C.
by split; apply: conj_scale => //; ffield C; do ?split.
Qed.
Lemma pi_exists (z y v0 v1 : C) : z != 0 -> exists i0 i1, pi_circuit z y v0 v1 i0 i1.
Proof. by move=> nz; eexists; eexists; apply/pi_solve. Qed.

Lemma pi_ne0 (t : trafo C) : t_z t != 0 -> (t_model t = "t"%string -> t_z t * t_y t + 4%:R != 0) -> t_z (t_to_pi t) != 0.
Proof.
case: t => md zz y /= nz ns; rewrite /t_to_pi /=; case: (String.eqb_spec md "t") => [/ns {}ns|_] //=; case: ifPn => //= ny.
have N2 := @two_ne0' C; have Nz := elimN eqP nz; have Ny := elimN eqP ny; have N1 := @one_ne0' C; have N4 := @four_ne0' C.
have e4 : (4%:R : C) = (1 + 1) * (1 + 1) by rewrite -(natrD _ 1 1) -natrM.
set zc := (_ / (1 / y)); have -> : zc = zz * (zz * y + (1 + 1) * (1 + 1)) / ((1 + 1) * (1 + 1)) by rewrite /zc; ffield C; do ?split.
by rewrite -e4 !mulf_neq0 ?invr_eq0 // pnatr_eq0.
Qed.
Lemma circuit_pi (t : trafo C) (v0 v1 i0 i1 : C) : t_z t != 0 -> (t_model t = "t"%string -> t_z t * t_y t + 4%:R != 0) ->
  circuit (t_model t) (t_z t) (t_y t) v0 v1 i0 i1 <-> pi_circuit (t_z (t_to_pi t)) (t_y (t_to_pi t)) v0 v1 i0 i1.
Proof.
move=> nz ns; rewrite /circuit; case: (String.eqb_spec (t_model t) "t") => [E|E]; first by apply: t_pi => //; exact: ns.
by rewrite t_pi_other.
Qed.
Lemma transformer_currents n n' a x p : calculate_dependent_values pi n = Some n' -> List.In a (transformers n') -> tr_x a = Some x ->
  let z := tr_r a + 'i * x in let y := tr_g a + 'i * tr_b a in
  z != 0 -> (tr_model a = "t"%string -> z * y + 4%:R != 0) -> tr_s a != 0 -> tr_tap a != 0 -> (tr_tap a)^* = tr_tap a -> p * p^* = 1 ->
  let t0 := (if tr_side a == 0%N then tr_tap a else 1) * p in let t1 := if tr_side a == 1%N then tr_tap a else 1 in
  forall nb m (i0 i1 : 'I_nb) (br : 'I_m -> branch C nb) (k : 'I_m) (V : 'cV[C]_nb), transformer_branch i0 i1 p a = Some (br k) ->
  forall j0 j1, with_taps t0 t1 (tr_model a) z y (V i0 ord0) (V i1 ord0) j0 j1 <->
    tr_s a * j0 = (Y0 (@conjC C) br *m V) k ord0 /\ tr_s a * j1 = (Y1 br *m V) k ord0.
Proof.
move=> E I; have [ts _ El] := calc_trafos E; rewrite {}El in I; have [b _ Eb] := in_mapP I; subst a => {I}.
rewrite /transformer_branch /transformer_values /= => X; rewrite X /=.
set zz := _ + 'i * x; set y := _ + 'i * tr_b b => nz ns sn tn tc pc nb m i0 i1 br k V [BR] j0 j1.
set t0 := _ * p; set t1 := if tr_side b == 1%N then _ else _; set tr := Build_trafo _ _ _ in BR.
have Ns := elimN eqP sn.
have Ez : t_z tr = zz / tr_s b by rewrite /tr /zz /= mulrDl mulrA.
have Ey : t_y tr = y * tr_s b by rewrite /tr /y /= mulrDl mulrA.
have nzt : t_z tr != 0 by rewrite Ez mulf_neq0 ?invr_eq0.
have nst : t_model tr = "t"%string -> t_z tr * t_y tr + 4%:R != 0.
  rewrite Ez Ey => /ns; congr (_ + _ != _); by ffield C.
have R : regular (@conjC C) (br k).
  by rewrite -BR; split=> //=; [exact: pi_ne0|move=> t [<-]].
have T0 : t0 = tau_hv (br k) * ps (br k) by rewrite /t0 /tau_hv /tau -BR /= (negbTE tn); congr (_ * _); case: (tr_side b) => [|[]].
have T1 : t1 = tau_lv (br k) by rewrite /t1 /tau_lv /tau -BR /= (negbTE tn); case: (tr_side b) => [|[]].
rewrite Y0V Y1V; rewrite -(branch_two_port _ _ _ _ R) -T0 -T1 -BR /=.
have step (w0 w1 k0 k1 : C) : circuit (tr_model b) zz y w0 w1 k0 k1 <-> pi_circuit (t_z (t_to_pi tr)) (t_y (t_to_pi tr)) w0 w1 (tr_s b * k0) (tr_s b * k1).
  rewrite -(circuit_scale _ _ _ _ _ _ _ sn) -Ez -Ey; exact: circuit_pi.
rewrite /with_taps /two_port /ideal; split.
- case=> w0 [w1 [k0 [k1 [[V0 K0] [V1 K1] /step Cc]]]]; exists w0, w1, (tr_s b * k0), (tr_s b * k1); split=> //; split=> //.
  + by rewrite K0 mulrCA.
  + by rewrite K1 mulrCA.
- case=> w0 [w1 [k0 [k1 [[V0 K0] [V1 K1] Cc]]]]; exists w0, w1, (k0 / tr_s b), (k1 / tr_s b); split.
  + by split=> //; rewrite K0 mulrCA mulrAC divff ?mul1r.
  + by split=> //; rewrite K1 mulrCA mulrAC divff ?mul1r.
  + by apply/step; rewrite ![_ * (_ / _)]mulrC !divfK.
Qed.
Lemma transformer_physical n n' a x p : calculate_dependent_values pi n = Some n' -> List.In a (transformers n') -> tr_x a = Some x ->
  let z := tr_r a + 'i * x in let y := tr_g a + 'i * tr_b a in
  z != 0 -> (tr_model a = "t"%string -> z * y + 4%:R != 0) -> tr_s a != 0 -> (tr_s a)^* = tr_s a -> tr_tap a != 0 -> (tr_tap a)^* = tr_tap a -> p * p^* = 1 ->
  let t0 := (if tr_side a == 0%N then tr_tap a else 1) * p in let t1 := if tr_side a == 1%N then tr_tap a else 1 in
  forall nb m (i0 i1 : 'I_nb) (br : 'I_m -> branch C nb) (k : 'I_m) (V : 'cV[C]_nb), transformer_branch i0 i1 p a = Some (br k) ->
  (exists j0 j1, with_taps t0 t1 (tr_model a) z y (V i0 ord0) (V i1 ord0) j0 j1) /\
  forall j0 j1, with_taps t0 t1 (tr_model a) z y (V i0 ord0) (V i1 ord0) j0 j1 ->
    s0 (@conjC C) br V k = tr_s a * (V i0 ord0 * j0^*) /\ s1 (@conjC C) br V k = tr_s a * (V i1 ord0 * j1^*).
Proof.
move=> E I X zz y nz ns sn sc tn tc pc t0 t1 nb m i0 i1 br k V BR.
have Eq := transformer_currents E I X nz ns sn tn tc pc V BR; split.
  exists ((Y0 (@conjC C) br *m V) k ord0 / tr_s a), ((Y1 br *m V) k ord0 / tr_s a); apply/Eq.
  by rewrite ![tr_s a * _]mulrC !divfK.
have [B0 B1] : b0 (br k) = i0 /\ b1 (br k) = i1.
  by move: BR; rewrite /transformer_branch; case: tr_zpu => // ?; case: tr_ypu => // ? [<-].
by move=> j0 j1 /Eq [E0 E1]; rewrite /s0 /s1 B0 B1 -E0 -E1 !rmorphM sc ![tr_s a * (V _ _ * _)]mulrCA.
Qed.

Lemma shunt_physical n n' (s : shunt C) v : calculate_dependent_values pi n = Some n' -> List.In s (shunts n') -> own_names (@bus_name C) (buses n) -> level n (sh_bus s) v -> v^* = v ->
  exists2 y, sh_ypu s = Some y & forall V, V * V^* * y^* = (v * V) * ((sh_g s + 'i * sh_b s) * (v * V))^*.
Proof.
rewrite /calculate_dependent_values; case: apply_line_types => [ls|] //; case: apply_transformer_types => [ts|] // [<-] /= I D L cv.
have [a _ Ea] := in_mapP I; subst s => {I}; rewrite /= in L *; case: L => c J; have /= -> := named_own D J.
eexists; first reflexivity; move=> V; rewrite [X in _ * X^* = _](_ : _ = (sh_g a + 'i * sh_b a) * (v * v)); last by rewrite /= mulrDl mulrA expr2.
rewrite !rmorphM /= cv.
by move: ((_ + _)^*) (V^*) => q w; fring C.
Qed.

(* types *)
Lemma line_types_app ts ls ls' : apply_line_types pi ts ls = Some ls' ->
  List.Forall2 (fun l l' => (l_type l = ""%string /\ l' = l) \/ (l_type l <> ""%string /\ exists2 t, named (@lt_name C) (l_type l) ts = Some t & l' = typed_line pi t l)) ls ls'.
Proof.
elim: ls ls' => [|l ls IH] ls' /=; first by case=> <-; constructor.
case: (String.eqb_spec (l_type l) "") => [El|Nl].
- by case A: apply_line_types => [b|] // [<-]; constructor; [left|exact: IH].
- by case N: named => [t|] //=; case A: apply_line_types => [b|] // [<-]; constructor; [right; split=> //; exists t|exact: IH].
Qed.
Lemma trafo_types_app ts ls ls' : apply_transformer_types ts ls = Some ls' ->
  List.Forall2 (fun l l' => (tr_type l = ""%string /\ l' = l) \/ (tr_type l <> ""%string /\ exists2 t, named (@tt_name C) (tr_type l) ts = Some t & l' = typed_transformer t l)) ls ls'.
Proof.
elim: ls ls' => [|l ls IH] ls' /=; first by case=> <-; constructor.
case: (String.eqb_spec (tr_type l) "") => [El|Nl].
- by case A: apply_transformer_types => [b|] // [<-]; constructor; [left|exact: IH].
- by case N: named => [t|] //=; case A: apply_transformer_types => [b|] // [<-]; constructor; [right; split=> //; exists t|exact: IH].
Qed.
Lemma Forall2_map {A B D : Type} (f : B -> D) (P : A -> B -> Prop) (R : A -> D -> Prop) (s : seq A) (r : seq B) :
  (forall a b, P a b -> R a (f b)) -> List.Forall2 P s r -> List.Forall2 R s [seq f b | b <- r].
Proof. by move=> H; elim=> [|a b s' r' Pab _ IH] /=; constructor=> //; exact: H. Qed.

Lemma typed_lines n n' : calculate_dependent_values pi n = Some n' ->
  List.Forall2 (fun l l' : line C =>
    [/\ l_bus0 l' = l_bus0 l, l_bus1 l' = l_bus1 l & l_g l' = l_g l] /\
    (l_type l = ""%string -> [/\ l_r l' = l_r l, l_x l' = l_x l & l_b l' = l_b l]) /\
    (l_type l <> ""%string -> exists t, [/\ List.In t (line_types n), lt_name t = l_type l &
       l_par l != 0 -> l_g l = 0 -> forall v0 v1 i0 i1,
         pi_circuit (l_r l' + 'i * l_x l') (l_g l' + 'i * l_b l') v0 v1 (l_par l * i0) (l_par l * i1) <->
         pi_circuit ((lt_r t + 'i * lt_x t) * l_length l) ('i * (2%:R * pi * lt_f t * (lt_c t / 10%:R ^+ 9 * l_length l))) v0 v1 i0 i1]))
    (lines n) (lines n').
Proof.
move=> E; have [ls A ->] := calc_lines E; apply: Forall2_map (line_types_app A) => l l' [[El ->]|[Nl [t Nt ->]]]; split=> //; split=> // _.
have [It Et] := named_in Nt; exists t; split=> //= np g0 v0 v1 i0 i1; rewrite g0 add0r.
rewrite -[X in _ <-> X](pi_scale _ _ _ _ _ _ np).
have -> : lt_r t * l_length l / l_par l + 'i * (lt_x t * l_length l / l_par l) = (lt_r t + 'i * lt_x t) * l_length l / l_par l by rewrite !mulrDl !mulrA.
have -> // : 'i * (2%:R * pi * 10%:R ^- 9 * lt_f t * lt_c t * l_length l * l_par l) = 'i * (2%:R * pi * lt_f t * (lt_c t / 10%:R ^+ 9 * l_length l)) * l_par l.
by move: (10%:R ^- 9) => q; fring C.
Qed.

(* name plates *)
Definition one_z (t : ttype C) : C := tt_vscr t / 100%:R + 'i * sqrtC ((tt_vsc t / 100%:R) ^+ 2 - (tt_vscr t / 100%:R) ^+ 2).
Definition one_y (t : ttype C) : C :=
  tt_pfe t / (1000%:R * tt_s t) + 'i * (- sqrtC ((tt_i0 t / 100%:R) ^+ 2 - (tt_pfe t / (1000%:R * tt_s t)) ^+ 2)).
Lemma real_div (x y : C) : x \is Num.real -> y \is Num.real -> x / y \is Num.real.
Proof. by move=> X Y; rewrite rpredM // rpredV. Qed.
Lemma norm_rect (a b c : C) : a \is Num.real -> b \is Num.real -> 0 <= c -> a ^+ 2 + b ^+ 2 = c ^+ 2 -> `|a + 'i * b| = c.
Proof.
move=> A B c0 E; apply/eqP; rewrite -(eqr_expn2 (n := 2)) ?normr_ge0 //; apply/eqP.
by rewrite normC2_rect.
Qed.
Lemma sq_le (a c : C) : a \is Num.real -> 0 <= c -> `|a| <= c -> 0 <= c ^+ 2 - a ^+ 2.
Proof.
move=> A c0 H; rewrite subr_ge0 -(real_normK A); apply: ler_expn2r; rewrite ?nnegrE //.
Qed.
Lemma plate t : tt_vscr t \is Num.real -> 0 <= tt_vsc t -> `|tt_vscr t| <= tt_vsc t ->
  tt_pfe t \is Num.real -> 0 < tt_s t -> 0 <= tt_i0 t -> `|tt_pfe t| / (1000%:R * tt_s t) <= tt_i0 t / 100%:R ->
  name_plate t (one_z t) (one_y t).
Proof.
move=> R1 P1 H1 R2 P2 P3 H2.
have h0 : 0 <= (100%:R : C) by rewrite ler0n.
have hr : (100%:R : C) \is Num.real by rewrite ger0_real.
have R3 := real_div R1 hr.
have s0 : 0 < 1000%:R * tt_s t by rewrite mulr_gt0 // ltr0n.
have R4 : tt_pfe t / (1000%:R * tt_s t) \is Num.real by apply: real_div => //; rewrite gtr0_real.
have P4 : 0 <= tt_vsc t / 100%:R by rewrite divr_ge0.
have P5 : 0 <= tt_i0 t / 100%:R by rewrite divr_ge0.
have D1 : 0 <= (tt_vsc t / 100%:R) ^+ 2 - (tt_vscr t / 100%:R) ^+ 2.
  by apply: sq_le => //; rewrite normrM normfV (ger0_norm h0) ler_wpmul2r ?invr_ge0.
have D2 : 0 <= (tt_i0 t / 100%:R) ^+ 2 - (tt_pfe t / (1000%:R * tt_s t)) ^+ 2.
  by apply: sq_le => //; rewrite normrM normfV (gtr0_norm s0).
have Q1 : sqrtC ((tt_vsc t / 100%:R) ^+ 2 - (tt_vscr t / 100%:R) ^+ 2) \is Num.real by rewrite ger0_real ?sqrtC_ge0.
have Q2 : - sqrtC ((tt_i0 t / 100%:R) ^+ 2 - (tt_pfe t / (1000%:R * tt_s t)) ^+ 2) \is Num.real by rewrite realN ger0_real ?sqrtC_ge0.
split; rewrite /one_z /one_y; split; rewrite ?Re_rect ?Im_rect //.
- by apply: norm_rect => //; rewrite sqrtCK addrC subrK.
- by rewrite sqrtC_ge0.
- by rewrite -mulrA [tt_s t * _]mulrC divfK // gt_eqF.
- by apply: norm_rect => //; rewrite sqrrN sqrtCK addrC subrK.
- by rewrite oppr_le0 sqrtC_ge0.
Qed.
Lemma typed_transformers n n' : calculate_dependent_values pi n = Some n' ->
  List.Forall2 (fun a a' : transformer C =>
    [/\ tr_bus0 a' = tr_bus0 a, tr_bus1 a' = tr_bus1 a & tr_model a' = tr_model a] /\
    (tr_type a = ""%string -> [/\ tr_r a' = tr_r a, tr_x a' = tr_x a, tr_g a' = tr_g a & tr_b a' = tr_b a] /\ [/\ tr_s a' = tr_s a, tr_tap a' = tr_tap a, tr_side a' = tr_side a & tr_shift a' = tr_shift a]) /\
    (tr_type a <> ""%string -> exists t, [/\ List.In t (transformer_types n), tt_name t = tr_type a,
       [/\ tr_s a' = tt_s t, tr_side a' = tt_side t, tr_shift a' = tt_shift t & tr_tap a' = 1 + (tr_pos a - tt_neutral t) * (tt_step t / 100%:R)] &
       tt_vscr t \is Num.real -> 0 <= tt_vsc t -> `|tt_vscr t| <= tt_vsc t ->
       tt_pfe t \is Num.real -> 0 < tt_s t -> 0 <= tt_i0 t -> `|tt_pfe t| / (1000%:R * tt_s t) <= tt_i0 t / 100%:R -> tr_par a != 0 ->
       exists x z y, [/\ tr_x a' = Some x, name_plate t z y & forall v0 v1 i0 i1,
         circuit (tr_model a') (tr_r a' + 'i * x) (tr_g a' + 'i * tr_b a') v0 v1 (tr_par a * i0) (tr_par a * i1) <->
         circuit (tr_model a') z y v0 v1 i0 i1]]))
    (transformers n) (transformers n').
Proof.
move=> E; have [ls A ->] := calc_trafos E; apply: Forall2_map (trafo_types_app A) => a a' [[El ->]|[Nl [t Nt ->]]]; split=> //; split=> // _.
have [It Et] := named_in Nt; exists t; split=> //= R1 P1 H1 R2 P2 P3 H2 np.
have hr : (100%:R : C) \is Num.real by rewrite ger0_real ?ler0n.
have s0 : 0 < 1000%:R * tt_s t by rewrite mulr_gt0 // ltr0n.
have D1 : 0 <= (tt_vsc t / 100%:R) ^+ 2 - (tt_vscr t / 100%:R) ^+ 2.
  apply: sq_le; rewrite ?real_div ?divr_ge0 ?ler0n //.
  by rewrite normrM normfV (ger0_norm (ler0n _ _)) ler_wpmul2r ?invr_ge0 ?ler0n.
have D2 : 0 <= (tt_i0 t / 100%:R) ^+ 2 - (tt_pfe t / (1000%:R * tt_s t)) ^+ 2.
  apply: sq_le; rewrite ?real_div ?divr_ge0 ?ler0n ?(gtr0_real s0) //.
  by rewrite normrM normfV (gtr0_norm s0).
rewrite /sqrt D1 D2 /=; eexists; exists (one_z t), (one_y t); split; [reflexivity|exact: plate|] => v0 v1 i0 i1.
rewrite -[X in _ <-> X](circuit_scale _ _ _ _ _ _ _ np) /one_z /one_y.
by rewrite [(_ + 'i * sqrtC _) / _]mulrDl [(_ + 'i * - _) * _]mulrDl !mulrA.
Qed.
(* beyond the name plate *)
Lemma no_reactance (t : ttype C) (a : transformer C) : tt_vscr t \is Num.real -> tt_vsc t \is Num.real -> `|tt_vsc t| < `|tt_vscr t| -> tr_zpu (transformer_values (typed_transformer t a)) = None.
Proof.
move=> R1 R2 H; rewrite /= /sqrt; have -> // : (0 <= (tt_vsc t / 100%:R) ^+ 2 - (tt_vscr t / 100%:R) ^+ 2) = false.
apply/negbTE; rewrite subr_ge0 !expr_div_n ler_pmul2r ?invr_gt0 ?exprn_gt0 ?ltr0n //.
rewrite -(real_normK R1) -(real_normK R2).
have: `|tt_vsc t| ^+ 2 < `|tt_vscr t| ^+ 2 by rewrite ltr_expn2r //.
by move/lt_geF => ->.
Qed.

(* errors *)
Lemma raises n : calculate_dependent_values pi n = None <->
  (exists l, [/\ List.In l (lines n), l_type l <> ""%string & forall t, List.In t (line_types n) -> lt_name t <> l_type l]) \/
  (exists a, [/\ List.In a (transformers n), tr_type a <> ""%string & forall t, List.In t (transformer_types n) -> tt_name t <> tr_type a]).
Proof.
have L ts (ls : seq (line C)) : apply_line_types pi ts ls = None <-> exists l, [/\ List.In l ls, l_type l <> ""%string & forall t, List.In t ts -> lt_name t <> l_type l].
  elim: ls => [|l ls IH] /=; first by split=> // -[l []].
  case: (String.eqb_spec (l_type l) "") => [El|Nl].
  - case A: apply_line_types => [b|].
    + split=> // -[l' [[E|I] N H]]; first by rewrite E in El.
      by have: apply_line_types pi ts ls = None by [apply/IH; exists l'] ; rewrite A.
    + split=> // _; move/IH: A => [l' [I N H]]; exists l'; split=> //; by right.
  - case Nm: named => [t|] /=; last first.
      split=> // _; exists l; split=> //; [by left|exact/named_none].
    have [It Et] := named_in Nm; case A: apply_line_types => [b|].
    + split=> // -[l' [[E|I] N H]]; first by subst l'; case: (H t It).
      by have: apply_line_types pi ts ls = None by [apply/IH; exists l'] ; rewrite A.
    + split=> // _; move/IH: A => [l' [I N H]]; exists l'; split=> //; by right.
have T ts (ls : seq (transformer C)) : apply_transformer_types ts ls = None <-> exists l, [/\ List.In l ls, tr_type l <> ""%string & forall t, List.In t ts -> tt_name t <> tr_type l].
  elim: ls => [|l ls IH] /=; first by split=> // -[l []].
  case: (String.eqb_spec (tr_type l) "") => [El|Nl].
  - case A: apply_transformer_types => [b|].
    + split=> // -[l' [[E|I] N H]]; first by rewrite E in El.
      by have: apply_transformer_types ts ls = None by [apply/IH; exists l'] ; rewrite A.
    + split=> // _; move/IH: A => [l' [I N H]]; exists l'; split=> //; by right.
  - case Nm: named => [t|] /=; last first.
      split=> // _; exists l; split=> //; [by left|exact/named_none].
    have [It Et] := named_in Nm; case A: apply_transformer_types => [b|].
    + split=> // -[l' [[E|I] N H]]; first by subst l'; case: (H t It).
      by have: apply_transformer_types ts ls = None by [apply/IH; exists l'] ; rewrite A.
    + split=> // _; move/IH: A => [l' [I N H]]; exists l'; split=> //; by right.
rewrite -L -T /calculate_dependent_values; case: apply_line_types => [ls|]; case: apply_transformer_types => [ts|]; split=> //; try by case.
- by right. - by left. - by left.
Qed.

(* twice is once *)
Lemma filled_twice (bs : seq (bus C)) b c : odflt ""%string (filled bs b (odflt ""%string (filled bs b c))) = odflt ""%string (filled bs b c).
Proof.
rewrite /filled; case: (String.eqb_spec c "") => [E|N]; last by rewrite /= (proj2 (String.eqb_neq _ _) N).
case: named => [u|] //=; by case: (String.eqb_spec (bus_carrier u) "") => [->|].
Qed.
Lemma twice n n' : calculate_dependent_values pi n = Some n' -> calculate_dependent_values pi n' = Some n'.
Proof.
rewrite {1}/calculate_dependent_values; case A: apply_line_types => [ls|] //; case B: apply_transformer_types => [ts|] // [<-].
rewrite /calculate_dependent_values /=.
set f := line_values (buses n); set g := @transformer_values C.
have LL : exists2 ls', apply_line_types pi (line_types n) [seq f l | l <- ls] = Some ls' & [seq f l | l <- ls'] = [seq f l | l <- ls].
  elim: (line_types_app A) => [|l l' r r' H _ [k K1 K2]] /=; first by exists [::].
  have Tf : l_type (f l') = l_type l by case: H => [[_ ->]|[_ [t _ ->]]].
  rewrite Tf K1; case: H => [[El ->]|[Nl [t Nt ->]]].
  - by rewrite El /=; eexists; first reflexivity; rewrite /= K2; congr (_ :: _); rewrite /f /line_values /= filled_twice.
  - rewrite (proj2 (String.eqb_neq _ _) Nl) Nt /=; eexists; first reflexivity.
    by rewrite /= K2; congr (_ :: _); rewrite /f /line_values /typed_line /= filled_twice.
have TT : exists2 ts', apply_transformer_types (transformer_types n) [seq g a | a <- ts] = Some ts' & [seq g a | a <- ts'] = [seq g a | a <- ts].
  elim: (trafo_types_app B) => [|l l' r r' H _ [k K1 K2]] /=; first by exists [::].
  have Tf : tr_type (g l') = tr_type l by case: H => [[_ ->]|[_ [t _ ->]]].
  rewrite Tf K1; case: H => [[El ->]|[Nl [t Nt ->]]].
  - by rewrite El /=; eexists; first reflexivity; rewrite /= K2.
  - by rewrite (proj2 (String.eqb_neq _ _) Nl) Nt /=; eexists; first reflexivity; rewrite /= K2.
have [ls' -> ->] := LL; have [ts' -> ->] := TT; congr (Some (Network _ _ _ _ _ _ _ _)); rewrite -map_comp; apply: eq_map => o //=.
- by rewrite /other_values /= filled_twice.
- by rewrite /other_values /= filled_twice.
Qed.
Lemma carriers n n' : calculate_dependent_values pi n = Some n' -> own_names (@bus_name C) (buses n) ->
  List.Forall2 (fun l l' : line C => (l_carrier l <> ""%string -> l_carrier l' = l_carrier l) /\
     (l_carrier l = ""%string -> forall b, List.In b (buses n) -> bus_name b = l_bus0 l -> l_carrier l' = bus_carrier b)) (lines n) (lines n') /\
  List.Forall2 (fun o o' => o_bus o' = o_bus o /\ (o_carrier o <> ""%string -> o_carrier o' = o_carrier o) /\
     (o_carrier o = ""%string -> forall b, List.In b (buses n) -> bus_name b = o_bus o -> o_carrier o' = bus_carrier b)) (links n ++ stores n) (links n' ++ stores n').
Proof.
move=> E D; have [ls A El] := calc_lines E; split.
  rewrite El; apply: Forall2_map (line_types_app A) => l l' H.
  have [E1 E2] : l_carrier l' = l_carrier l /\ l_bus0 l' = l_bus0 l by case: H => [[_ ->]|[_ [t _ ->]]].
  rewrite /= E1 E2 /filled; split=> [N|->]; first by rewrite (proj2 (String.eqb_neq _ _) N).
  by move=> b I <-; rewrite /= (named_own D I).
move: E; rewrite /calculate_dependent_values; case: apply_line_types => [ls'|] //; case: apply_transformer_types => [ts|] // [<-] /=.
rewrite -map_cat; elim: (links n ++ stores n) => [|o s IH] /=; constructor=> //; split=> //; split=> [N|E]; rewrite /= /filled.
  by rewrite (proj2 (String.eqb_neq _ _) N).
by move=> b I <-; rewrite E /= (named_own D I).
Qed.

(* the impedance of the linear power flow is the one between both ends *)
Lemma line_effective n n' l : calculate_dependent_values pi n = Some n' -> List.In l (lines n') ->
  forall nb (i0 i1 : 'I_nb) b e, line_branch i0 i1 l = Some b -> l_zeff l = Some e -> e != 0 -> Y10 b * e = - 1 /\ Y01 (@conjC C) b * e = - 1.
Proof.
move=> E I; have [ls _ El] := calc_lines E; rewrite {}El in I; have [a _ ->] := in_mapP I.
move=> nb i0 i1 b e; rewrite /line_branch /=; case: (named _ _ _) => //= v [<-] [<-] ne.
by rewrite /Y10 /Y01 /tau_hv /tau_lv /y_se /= rmorph1 !divr1 mul1r mulNr mulVf.
Qed.
Lemma transformer_effective n n' a : calculate_dependent_values pi n = Some n' -> List.In a (transformers n') ->
  tr_model a <> "t"%string \/ tr_g a = 0 /\ tr_b a = 0 -> tr_side a = 0%N \/ tr_side a = 1%N -> tr_tap a != 0 ->
  forall nb (i0 i1 : 'I_nb) b e, transformer_branch i0 i1 1 a = Some b -> tr_zeff a = Some e -> e != 0 -> Y10 b * e = - 1 /\ Y01 (@conjC C) b * e = - 1.
Proof.
move=> E I; have [ls _ El] := calc_trafos E; rewrite {}El in I; have [c _ ->] := in_mapP I.
rewrite /= => M S tn nb i0 i1 b e; rewrite /transformer_branch /=; case: (tr_x c) => //= x [<-] [<-].
have -> : t_z (t_to_pi {| t_model := tr_model c; t_z := tr_r c / tr_s c + 'i * (x / tr_s c); t_y := tr_g c * tr_s c + 'i * (tr_b c * tr_s c) |}) = tr_r c / tr_s c + 'i * (x / tr_s c).
  by case: M => [M|[-> ->]]; [rewrite t_pi_other|rewrite /t_to_pi /= !mul0r mulr0 addr0 eqxx andbF].
rewrite [_ + 'i * (_ * tr_tap c)](_ : _ = (tr_r c / tr_s c + 'i * (x / tr_s c)) * tr_tap c); last by rewrite mulrDl !mulrA.
rewrite /Y10 /Y01 /tau_hv /tau_lv /tau /y_se /= rmorph1 !divr1 (negbTE tn); move: (_ + 'i * _) => q.
rewrite mulf_eq0 negb_or => /andP[nq _]; have Nq := elimN eqP nq; have Nt := elimN eqP tn; have N1 := @one_ne0' C.
by case: S => -> /=; split; ffield C; do ?split.
Qed.
End P.

(* concrete networks *)
Section Ex.
Variable C : numClosedFieldType.
Definition ex_line (b0 b1 : string) : line C := Line b0 b1 "al" "" 10%:R 2%:R 0 0 0 0 None None None None.
Definition ex_trafo (vsc : C) : transformer C := Transformer "hv" "lv" "tt" "t" 2%:R 1 0 None 0 0 7%:R 0 0 1 None None None.
Definition ex_net (b0 b1 : string) (w : C) (vsc : C) : network C :=
  {| buses := [:: Bus "hv" 10%:R "AC"; Bus "lv" w "AC"]; line_types := [:: Ltype "al" 50%:R 1 3%:R 0];
     transformer_types := [:: Ttype "tt" 10%:R^-1 vsc 3%:R 3%:R 5%:R 150%:R 1 0 5%:R];
     lines := [:: ex_line b0 b1]; transformers := [:: ex_trafo vsc]; shunts := [:: Shunt "lv" 1 1 None];
     links := [:: Other "hv" ""]; stores := [::] |}.
Lemma ex_defined b0 b1 w vsc : exists n', calculate_dependent_values 0 (ex_net b0 b1 w vsc) = Some n'.
Proof. by eexists. Qed.
Lemma ex_plate : let t := Ttype "tt" 10%:R^-1 5%:R 3%:R 3%:R 5%:R 150%:R 1 0 (5%:R : C) in
  [/\ tt_vscr t \is Num.real, 0 <= tt_vsc t, `|tt_vscr t| <= tt_vsc t & tt_pfe t \is Num.real] /\
  [/\ 0 < tt_s t, 0 <= tt_i0 t & `|tt_pfe t| / (1000%:R * tt_s t) <= tt_i0 t / 100%:R].
Proof.
rewrite /=; split; split; rewrite ?realn ?ler0n // ?normr_nat ?ler_nat ?invr_gt0 ?ltr0n //.
have -> : (1000%:R / 10%:R : C) = 100%:R.
  by rewrite (_ : 1000%:R = 100%:R * 10%:R) ?mulfK ?pnatr_eq0 // -natrM.
by rewrite ler_pmul2r ?invr_gt0 ?ltr0n // ler_nat.
Qed.
Lemma ex_ne0 (a b : nat) : (0 < a)%N -> (a%:R + 'i * b%:R : C) != 0.
Proof.
move=> a0; apply/eqP => /(congr1 (fun z => 'Re z)); rewrite Re_rect ?realn // raddf0 => /eqP; rewrite pnatr_eq0; by case: a a0.
Qed.
Lemma rating : exists (n n' : network C) t a, [/\ calculate_dependent_values 0 n = Some n', List.In t (transformer_types n), List.In a (transformers n') &
  [/\ tr_type a = tt_name t, tr_par a = 2%:R, 0 < tt_s t & tr_s a = tt_s t]].
Proof.
have [n' E] := ex_defined "hv" "lv" 10%:R 5%:R; exists (ex_net "hv" "lv" 10%:R 5%:R), n'; move: E => [<-] /=.
do 2!eexists; split=> //; [by left|by left|]; split=> //=; by rewrite invr_gt0 ltr0n.
Qed.
Lemma levels : exists (n n' m m' : network C) l k z z', [/\ calculate_dependent_values 0 n = Some n', calculate_dependent_values 0 m = Some m', lines n' = [:: l] & lines m' = [:: k]] /\
  [/\ buses n = buses m, l_type l = l_type k, l_bus0 l = l_bus1 k & l_bus1 l = l_bus0 k] /\ [/\ l_r l = l_r k, l_x l = l_x k, l_zpu l = Some z & l_zpu k = Some z'] /\ z != z'.
Proof.
have [n' E] := ex_defined "hv" "lv" 1 5%:R; have [m' E'] := ex_defined "lv" "hv" 1 5%:R.
exists (ex_net "hv" "lv" 1 5%:R), n', (ex_net "lv" "hv" 1 5%:R), m'; move: E E' => [<-] [<-] /=; do 4!eexists; split; [by split|split; [by split|split; [by split|]]].
rewrite /= expr1n !divr1 mul1r.
have q2 : (10%:R / 2%:R : C) = 5%:R by rewrite (_ : 10%:R = 5%:R * 2%:R) ?mulfK ?pnatr_eq0 // -natrM.
have q3 : (3%:R * 10%:R / 2%:R : C) = 15%:R by rewrite (_ : 3%:R * 10%:R = 15%:R * 2%:R) ?mulfK ?pnatr_eq0 // -!natrM.
rewrite q2 q3; apply/eqP => /(congr1 (fun z => 'Re z * 10%:R ^+ 2)).
have rr (a : nat) : (a%:R / 10%:R ^+ 2 : C) \is Num.real by rewrite real_div ?realn // rpredX ?realn.
rewrite !Re_rect ?realn // divfK ?expf_neq0 ?pnatr_eq0 // -natrX -natrM => /eqP; by rewrite eqr_nat.
Qed.
Lemma no_warning : exists (n n' : network C) a, [/\ calculate_dependent_values 0 n = Some n', List.In a (transformers n') & tr_zpu a = None].
Proof.
have [n' E] := ex_defined "hv" "lv" 10%:R 2%:R; exists (ex_net "hv" "lv" 10%:R 2%:R), n'; move: E => [<-] /=.
eexists; split=> //; first by left.
by apply: no_reactance; rewrite ?realn // !normr_nat ltr_nat.
Qed.
End Ex.
