From mathcomp Require Import all_ssreflect all_algebra.
From Coq Require Import Ring Field String.
From Verif Require Import MCRing AdmitModel AdmitSpec AdmitProofs PerunitModel PerunitSpec PerunitProofs PypowerModel PypowerSpec.
Set Implicit Arguments. Unset Strict Implicit. Unset Printing Implicit Defensive.
Import GRing.Theory Num.Theory Order.TTheory.
Local Open Scope ring_scope.

Section T.
Variable C : numFieldType.
Add Field PyT : (field_th C).
Lemma t_values (t : trafo C) : t_model t = "t"%string -> t_z t != 0 -> t_z t * t_y t + 4%:R != 0 ->
  t_z (t_to_pi t) = t_z t * (1 + t_z t * t_y t / 4%:R) /\ t_y (t_to_pi t) = t_y t / (1 + t_z t * t_y t / 4%:R).
Proof.
case: t => md z y /= -> nz ns; rewrite /t_to_pi /=.
have H1 : 1 + z * y / 4%:R = (z * y + 4%:R) / 4%:R by rewrite mulrDl mulfV ?pnatr_eq0 // addrC.
have N2 := @two_ne0' C; have Nz := elimN eqP nz; have N1 := @one_ne0' C; have N4 := @four_ne0' C; have Ns := elimN eqP ns.
case: ifPn => /= [ny|]; last by rewrite negbK => /eqP ->; rewrite mulr0 mul0r addr0 mulr1 divr1.
have Ny := elimN eqP ny; rewrite H1.
have e4 : (4%:R : C) = (1 + 1) * (1 + 1) by rewrite -(natrD _ 1 1) -natrM.
rewrite e4 in Ns *; set zc := (_ / (1 / y)); set za := (_ / (z / 2%:R)).
have Ezc : zc = z * (z * y + (1 + 1) * (1 + 1)) / ((1 + 1) * (1 + 1)) by rewrite /zc; ffield C; do ?split.
have Eza : za = (z * y + (1 + 1) * (1 + 1)) / ((1 + 1) * y) by rewrite /za; ffield C; do ?split.
rewrite Ezc Eza !invf_div mulrA; split=> //; by move: (_^-1) => u; fring C.
Qed.
End T.

Section P.
Variable C : numClosedFieldType.
Variables (pi : C) (ex : C -> C).
Add Field PyF : (field_th C).
Implicit Types (k : case C) (p : imported C) (r : mbranch C) (o : option C).

Lemma v_nom_ne0 (b : mbus C) : v_nom b != 0.
Proof. by rewrite /v_nom; case: ifPn => // _; exact: oner_neq0. Qed.

(* the import is defined *)
Lemma controlled_some (bs : seq (mbus C)) : (exists s, controlled bs = Some s) <-> forall b, List.In b bs -> (mb_type b <= 3)%N.
Proof.
elim: bs => [|b bs IH] /=; first by split=> // _; exists [::].
split.
- case=> s; case E: (control b) => [c|] //; case F: (controlled bs) => [t|] // _ a [<-|I]; last by apply: (proj1 IH) => //; exists t.
  by move: E; rewrite /control; case: (mb_type b) => [|[|[|[|m]]]] //=; rewrite nth_nil.
- move=> H; have [|t ->] := proj2 IH; first by move=> a I; apply: H; right.
  have := H b (or_introl erefl); rewrite /control; case: (mb_type b) => [|[|[|[|m]]]] //= _; by eexists.
Qed.
Lemma defined k o : (exists p, import_from_pypower_ppc k o = Some p) <-> forall b, List.In b (mbuses k) -> (mb_type b <= 3)%N.
Proof.
rewrite -controlled_some /import_from_pypower_ppc; split; case=> s; first by case: controlled => [t|] // _; exists t.
by move=> ->; eexists.
Qed.

Lemma controlled_app (bs : seq (mbus C)) s : controlled bs = Some s ->
  List.Forall2 (fun b q => [/\ pb_name q = mb_name b, pb_v q = v_nom b, pb_vset q = mb_vm b & control b = Some (pb_control q)]) bs s.
Proof.
elim: bs s => [|b bs IH] s /=; first by case=> <-; constructor.
by case E: (control b) => [c|] //; case F: (controlled bs) => [t|] // [<-]; constructor=> //; exact: IH.
Qed.

(* levels of the imported network *)
Lemma named_map {A B : Type} (f : A -> B) na nb x (s : seq A) : (forall a, nb (f a) = na a) -> named nb x [seq f a | a <- s] = omap f (named na x s).
Proof. by move=> H; rewrite /named; elim: s => //= a s IH; rewrite H; case: String.eqb. Qed.
Lemma controlled_named (bs : seq (mbus C)) s x : controlled bs = Some s -> omap (@pb_v C) (named (@pb_name C) x s) = omap (@v_nom C) (named (@mb_name C) x bs).
Proof.
move/controlled_app; rewrite /named; elim=> //= b q bs' s' [-> V _ _] _ IH; case: String.eqb => //=; by rewrite V.
Qed.
Lemma net_level k o p x : import_from_pypower_ppc k o = Some p ->
  omap (@bus_v C) (named (@bus_name C) x (buses (as_network p))) = level_of k x.
Proof.
rewrite /import_from_pypower_ppc; case E: controlled => [bs|] // [<-] /=.
rewrite (named_map _ (na := @pb_name C)) // (named_map _ (na := @pb_name C)) // /level_of -(controlled_named _ E).
by case: named.
Qed.

(* the values of the imported network *)
Lemma untyped_lines k o (s : seq (mbranch C)) ts : apply_line_types pi ts [seq line_of k r | r <- s] = Some [seq line_of k r | r <- s].
Proof. by elim: s => //= r s ->. Qed.
Lemma untyped_trafos k o (s : seq (mbranch C)) ts : apply_transformer_types ts [seq trafo_of k o r | r <- s] = Some [seq trafo_of k o r | r <- s].
Proof. by elim: s => //= r s ->. Qed.
Lemma values k o p : import_from_pypower_ppc k o = Some p -> exists2 w, calculate_dependent_values pi (as_network p) = Some w &
  [/\ lines w = [seq line_values (buses (as_network p)) (line_of k r) | r <- mbranches k & ~~ is_transformer k r],
      transformers w = [seq transformer_values (trafo_of k o r) | r <- mbranches k & is_transformer k r] &
      shunts w = [seq shunt_values (buses (as_network p)) s | s <- shunts_of (mbuses k)]].
Proof.
rewrite /import_from_pypower_ppc; case E: controlled => [bs|] // [<-].
rewrite /calculate_dependent_values /= (untyped_lines k o) untyped_trafos; eexists; first by reflexivity.
by split=> //=; rewrite -map_comp.
Qed.

Lemma ratio_ne0 r : ratio r != 0.
Proof. by rewrite /ratio; case: ifPn => // _; exact: oner_neq0. Qed.

(* entries of the admittance matrix *)
Definition ent n (b : branch C n) (i j : 'I_n) : C :=
  (b0 b == i)%:R * ((b0 b == j)%:R * Y00 b + (b1 b == j)%:R * Y01 (@conjC C) b) +
  (b1 b == i)%:R * ((b0 b == j)%:R * Y10 b + (b1 b == j)%:R * Y11 b).
Lemma Y_ent n m (br : 'I_m -> branch C n) Ysh i j : Y (@conjC C) br Ysh i j = \sum_l ent (br l) i j + (i == j)%:R * Ysh i.
Proof.
rewrite /Y !mxE -big_split; congr (_ + _); last by rewrite mulr_natl; case: eqP.
apply: eq_bigr => l _; rewrite /ent !mxE /=; fring C.
Qed.
Definition oent n (b : option (branch C n)) i j : C := if b is Some b then ent b i j else 0.
Lemma Y_list n m (br : 'I_m -> branch C n) (s : seq (option (branch C n))) Ysh i j : [seq Some (br l) | l <- enum 'I_m] = s ->
  Y (@conjC C) br Ysh i j = \sum_(b <- s) oent b i j + (i == j)%:R * Ysh i.
Proof. by move=> <-; rewrite Y_ent big_map big_enum. Qed.

Hypothesis ex0 : ex 0 = 1.

Definition ment n (idx : string -> 'I_n) r (i j : 'I_n) : C :=
  (idx (mr_from r) == i)%:R * ((idx (mr_from r) == j)%:R * Yff r + (idx (mr_to r) == j)%:R * Yft ex r) +
  (idx (mr_to r) == i)%:R * ((idx (mr_from r) == j)%:R * Ytf ex r + (idx (mr_to r) == j)%:R * Ytt r).

(* what a branch becomes *)
Definition zp k r : C := (mr_r r + 'i * mr_x r) / base k.
Definition yp k r : C := 'i * mr_b r * base k.
Lemma line_zy k o p r : import_from_pypower_ppc k o = Some p -> ~~ is_transformer k r ->
  l_zpu (line_values (buses (as_network p)) (line_of k r)) = Some (zp k r) /\ l_ypu (line_values (buses (as_network p)) (line_of k r)) = Some (yp k r) /\
  l_zeff (line_values (buses (as_network p)) (line_of k r)) = Some (zp k r).
Proof.
move=> I /norP [/norP [L _] _]; rewrite /line_values; cbn [l_zpu l_ypu l_zeff l_bus0 line_of l_r l_x l_g l_b]; rewrite (net_level _ I).
move: L; case E: (level_of k (mr_from r)) => [v|] // _ /=.
have Nv : v != 0 by move: E; rewrite /level_of; case: named => //= b [<-]; exact: v_nom_ne0.
have Hv : v ^+ 2 != 0 by rewrite expf_neq0.
have S1 (a : C) : v ^+ 2 * a / base k / v ^+ 2 = a / base k by rewrite mulrAC [v ^+ 2 * a]mulrC mulfK.
have S2 (a : C) : a * base k / v ^+ 2 * v ^+ 2 = a * base k by rewrite divfK.
rewrite !S1 S2 mul0r add0r /zp /yp; split; [|split]; congr Some; rewrite ?mulrA //; fring C.
Qed.
Lemma trafo_zy k o r : rating o r != 0 -> tr_x (transformer_values (trafo_of k o r)) = Some (mr_x r * rating o r / base k) /\
  tr_zeff (transformer_values (trafo_of k o r)) = Some (zp k r * ratio r) /\
  (mr_b r = 0 -> tr_zpu (transformer_values (trafo_of k o r)) = Some (zp k r) /\ tr_ypu (transformer_values (trafo_of k o r)) = Some 0).
Proof.
move=> s0; have S1 (a : C) : a * rating o r / base k / rating o r = a / base k by rewrite mulrAC mulfK.
split=> //; rewrite /transformer_values /trafo_of; cbn [tr_zeff tr_zpu tr_ypu tr_x tr_r tr_s tr_g tr_b tr_tap tr_model omap obind oapp]; rewrite !S1.
split; first by congr Some; rewrite /zp /ratio; fring C.
by move=> ->; rewrite !mul0r mulr0 addr0 /t_to_pi eqxx /= /zp; split; congr Some; fring C.
Qed.

Lemma base_ent (n : nat) (idx : string -> 'I_n) k r (z y : C) tp sd q i j : base k != 0 -> (ratio r)^* = ratio r -> z = zp k r -> y = yp k r ->
  let b := {| b0 := idx (mr_from r); b1 := idx (mr_to r); z := z; ysh := y; tap := tp; side := sd; ps := q |} in
  tau_hv b = ratio r -> tau_lv b = 1 -> q = ex (mr_angle r) -> ent b i j = base k * ment idx r i j.
Proof.
move=> nb cr -> -> b T0 T1 Eq.
have Hs : y_se b = base k * Ys r by rewrite /y_se /= /zp /Ys invf_div !mul1r.
have E11 : Y11 b = base k * Ytt r.
  by rewrite /Y11 T1 expr1n divr1 Hs /Ytt /= /yp; move: (2%:R^-1) => h; fring C.
have E00 : Y00 b = base k * Yff r.
  by rewrite /Y00 T0 Hs /Yff /Ytt /= /yp; move: (2%:R^-1) (_ ^- 2) => h g; fring C.
have E10 : Y10 b = base k * Ytf ex r.
  by rewrite /Y10 T0 T1 Hs /Ytf /N /= Eq divr1 invfM; fring C.
have E01 : Y01 (@conjC C) b = base k * Yft ex r.
  by rewrite /Y01 T0 T1 Hs /Yft /N rmorphM /= cr Eq divr1 invfM; fring C.
by rewrite /ent E11 E00 E10 E01 /ment /= !(mulrCA _ (base k)) -!mulrDr !(mulrCA _ (base k)) -mulrDr.
Qed.

(* lines are the plain branches *)
Lemma v_nom_eq (a b : mbus C) : v_nom a = v_nom b <-> mb_kv a = mb_kv b \/ mb_kv a = 0 /\ mb_kv b = 1 \/ mb_kv a = 1 /\ mb_kv b = 0.
Proof.
rewrite /v_nom; case: eqP => A; case: eqP => B; split.
- by left; rewrite A B. - by [].
- by move=> <-; right; left. - by case=> [E|[[_ E]|[_ E]]]; [case: B; rewrite -E|rewrite E|case: B].
- by move=> ->; right; right. - by case=> [E|[[E _]|[E _]]]; [case: A; rewrite E|case: A|rewrite E].
- by left. - by case=> [E|[[E _]|[_ E]]]; [rewrite E|case: A|case: B].
Qed.
Lemma plainP k r : own_names (@mb_name C) (mbuses k) -> reflect (plain k r) (~~ is_transformer k r).
Proof.
move=> D; apply: (iffP idP).
- rewrite !negb_or negb_and !negbK => /andP [/andP [L T] A]; split; [|by case/orP: T => /eqP; [left|right]|exact/eqP].
  move: L; rewrite /level_of; case E0: named => [x|] //=; case E1: named => [y|] //=; rewrite negbK => /eqP /v_nom_eq E.
  by have [? ?] := named_in E0; have [? ?] := named_in E1; exists x, y.
- case=> [[x [y [[I0 I1 N0 N1] /v_nom_eq E]]] T A]; rewrite !negb_or negb_and !negbK A eqxx andbT.
  by rewrite /level_of -N0 -N1 !named_own //= E eqxx /=; case: T => ->; rewrite eqxx ?orbT.
Qed.
Lemma filterP k (d : pred (mbranch C)) (s : seq (mbranch C)) : own_names (@mb_name C) (mbuses k) -> (forall r, List.In r s -> reflect (plain k r) (d r)) ->
  [seq r <- s | d r] = [seq r <- s | ~~ is_transformer k r] /\ [seq r <- s | ~~ d r] = [seq r <- s | is_transformer k r].
Proof.
move=> D; elim: s => //= r s IH H; have [|-> ->] := IH; first by move=> r' I; apply: H; right.
have -> : d r = ~~ is_transformer k r by apply/(H r (or_introl erefl))/(plainP _ D).
by case: is_transformer.
Qed.

Lemma map_Forall2 {A B : Type} (f : A -> B) (R : A -> B -> Prop) (s : seq A) : (forall a, List.In a s -> R a (f a)) -> List.Forall2 R s [seq f a | a <- s].
Proof. by elim: s => [|a s IH] H /=; constructor; [apply: H; left|apply: IH => b I; apply: H; right]. Qed.
Lemma in_filter {A : Type} (d : pred A) (s : seq A) a : List.In a [seq x <- s | d x] -> List.In a s /\ d a.
Proof. by elim: s => //= b s IH; case: ifPn => [D /= [<-|/IH [? ?]]|_ /IH [? ?]]; split=> //; [left|right|right]. Qed.

Lemma rating_rated o r s : rated o r s <-> s = rating o r.
Proof.
rewrite /rated /rating; case: eqP => [->|N]; split.
- by case=> [[]|[_ ->]]. - by move=> ->; right.
- by case=> [[_ ->]|[]]. - by move=> ->; left.
Qed.

Lemma lines_of k o p w d : import_from_pypower_ppc k o = Some p -> calculate_dependent_values pi (as_network p) = Some w -> own_names (@mb_name C) (mbuses k) ->
  (forall r, List.In r (mbranches k) -> reflect (plain k r) (d r)) ->
  List.Forall2 (fun r l => [/\ l_bus0 l = mr_from r, l_bus1 l = mr_to r, l_zpu l = Some ((mr_r r + 'i * mr_x r) / base k),
      l_ypu l = Some ('i * mr_b r * base k) & l_zeff l = Some ((mr_r r + 'i * mr_x r) / base k)]) [seq r <- mbranches k | d r] (lines w) /\
  List.Forall2 (rated o) [seq r <- mbranches k | d r] (p_rates p).
Proof.
move=> I W D P; have [-> _] := filterP D P; have [w' W'] := values I; move: W; rewrite W' => -[<-] [-> _ _]; split.
- apply: map_Forall2 => r IN; have [_ L] := in_filter IN; by have [? [? ?]] := line_zy I L.
- by move: I; rewrite /import_from_pypower_ppc; case: controlled => // bs [<-] /=; apply: map_Forall2 => r _; apply/rating_rated.
Qed.
Lemma trafos_of k o p w d : import_from_pypower_ppc k o = Some p -> calculate_dependent_values pi (as_network p) = Some w -> own_names (@mb_name C) (mbuses k) ->
  (forall r, List.In r (mbranches k) -> reflect (plain k r) (d r)) -> base k != 0 ->
  List.Forall2 (fun r a =>
    [/\ tr_bus0 a = mr_from r, tr_bus1 a = mr_to r, tr_side a = 0%N & tr_model a = "t"%string] /\ [/\ tr_tap a = ratio r, tr_shift a = mr_angle r & rated o r (tr_s a)] /\
    (tr_s a != 0 -> exists x, [/\ tr_x a = Some x, (tr_r a + 'i * x) / tr_s a = (mr_r r + 'i * mr_x r) / base k,
       (tr_g a + 'i * tr_b a) * tr_s a = 'i * mr_b r * base k & tr_zeff a = Some ((mr_r r + 'i * mr_x r) / base k * ratio r)])) [seq r <- mbranches k | ~~ d r] (transformers w).
Proof.
move=> I W D P nb; have [_ ->] := filterP D P; have [w' W'] := values I; move: W; rewrite W' => -[<-] [_ -> _].
apply: map_Forall2 => r IN; have [_ L] := in_filter IN; split=> //; split; first by split=> //; apply/rating_rated.
move=> s0; have [X [Z _]] := @trafo_zy k o r s0; eexists; split; [exact: X| | |exact: Z]; cbn [transformer_values tr_r tr_s tr_g tr_b trafo_of].
- by rewrite !(mulrAC _ (rating o r)) mulrA -mulrDl mulfK // mulrDl mulrA.
- rewrite add0r; cbn in s0; by rewrite -!mulrA mulVf // mulr1.
Qed.

(* the matrix *)
Lemma somes {A : Type} (s : seq (option A)) : (forall x, List.In x s -> x <> None) -> exists t, s = [seq Some a | a <- t].
Proof.
elim: s => [|[a|] s IH] H; first by exists [::].
- have [|t ->] := IH; first by move=> x I; apply: H; right. by exists (a :: t).
- by case: (H None (or_introl erefl)).
Qed.
Lemma in_cat' {A : Type} (s t : seq A) x : List.In x (s ++ t) -> List.In x s \/ List.In x t.
Proof. by elim: s => [|a s IH] /=; [right|case=> [->|/IH [?|?]]; [left; left|left; right|right]]. Qed.
Lemma all_seen k o p w n (idx : string -> 'I_n) : import_from_pypower_ppc k o = Some p -> calculate_dependent_values pi (as_network p) = Some w ->
  exists br : 'I_(size (mbranches k)) -> branch C n, [seq Some (br l) | l <- enum 'I_(size (mbranches k))] = seen ex idx w.
Proof.
move=> I W; have [w' W'] := values I; move: W; rewrite W' => -[<-] [L T _].
have [|t E] := @somes _ (seen ex idx w').
  move=> x; rewrite /seen L T => H; have [{}H|{}H] := in_cat' H; have [a IN ->] := in_mapP H; have [r IN' ->] := in_mapP IN; last by [].
  have [_ R] := in_filter IN'; by have [E [F _]] := line_zy I R; rewrite /line_branch E F.
have Sz : size t = size (mbranches k).
  have := congr1 size E; rewrite size_map => <-; rewrite /seen L T size_cat !size_map !size_filter addnC.
  by rewrite -(count_predC (is_transformer k)); congr addn.
case: t Sz E => [|b t] Sz E.
  rewrite -Sz; exists (fun l : 'I_0 => match notF (ltn_ord l) with end); by rewrite E (size0nil (size_enum_ord 0)).
rewrite -Sz E; exists (fun l => nth b (b :: t) l); rewrite map_comp; congr map.
by rewrite -[RHS](mkseq_nth b) /mkseq -val_enum_ord -[RHS]map_comp.
Qed.

Lemma eq_sum_in {A : Type} (s : seq A) (d : pred A) (F G : A -> C) : (forall a, List.In a s -> d a -> F a = G a) -> \sum_(a <- s | d a) F a = \sum_(a <- s | d a) G a.
Proof.
elim: s => [|a s IH] H; first by rewrite !big_nil.
rewrite !big_cons IH; last by move=> b I; apply: H; right.
by case: ifPn => // D; rewrite H //; left.
Qed.
Lemma drop_zero {A : Type} (s : seq A) (d e : pred A) (F : A -> C) : (forall a, ~~ d a -> F a = 0) -> \sum_(a <- s | d a && e a) F a = \sum_(a <- s | e a) F a.
Proof.
move=> H; rewrite [RHS](bigID d) /= [X in _ = _ + X]big1 ?addr0; last by move=> a /andP [_ /H].
by apply: eq_bigl => a; rewrite andbC.
Qed.
Lemma admittance k o p w n (idx : string -> 'I_n) m (br : 'I_m -> branch C n) :
  import_from_pypower_ppc k o = Some p -> calculate_dependent_values pi (as_network p) = Some w -> own_names (@mb_name C) (mbuses k) -> base k != 0 ->
  (forall r, List.In r (mbranches k) -> (mr_ratio r)^* = mr_ratio r /\ (plain k r \/ mr_b r = 0 /\ exists2 s, rated o r s & s != 0)) ->
  [seq Some (br l) | l <- enum 'I_m] = seen ex idx w -> Y (@conjC C) br (shunted idx w) = base k *: Ybus ex idx k.
Proof.
move=> I W D nb R E; have [w' W'] := values I; move: W; rewrite W' => -[Ew] [L T S]; subst w'.
have cr r : List.In r (mbranches k) -> (ratio r)^* = ratio r.
  by move=> /R [H _]; rewrite /ratio; case: ifPn => // _; rewrite rmorph1.
apply/matrixP => i j; rewrite (Y_list _ _ _ E) !mxE mulrDr; congr (_ + _).
- rewrite /seen L T big_cat !big_map !big_filter mulr_sumr.
  rewrite [RHS](bigID (fun r => ~~ is_transformer k r)); congr (_ + _).
  + apply: eq_sum_in => r IN TR; have [Z [Yp _]] := line_zy I TR; rewrite /line_branch Z Yp /oent.
    apply: base_ent => //; first exact: cr.
      by move: TR; rewrite /tau_hv /= /ratio !negb_or negb_and !negbK => /andP [/andP [_ /orP [/eqP ->|/eqP ->]] _]; rewrite ?eqxx // oner_eq0.
    by move: TR; rewrite !negb_or => /andP [_]; rewrite negbK => /eqP ->.
  + under [RHS]eq_bigl do rewrite negbK.
    apply: eq_sum_in => r IN TR; have [_ [PL|[b0 [s /rating_rated Es s0]]]] := R r IN; first by move/(plainP _ D): PL; rewrite TR.
    rewrite Es in s0; have [_ [_ /(_ b0) [Z Yp]]] := @trafo_zy k o r s0; rewrite /transformer_branch Z Yp /oent.
    apply: base_ent => //; first exact: cr; first by rewrite /yp b0 mulr0 mul0r.
    by rewrite /tau_hv /tau /= -/(ratio r) (negbTE (ratio_ne0 r)).
- rewrite mulrCA; congr (_ * _); rewrite /shunted S /shunts_of !big_map big_filter_cond mulr_sumr /=.
  rewrite drop_zero; last first.
    by move=> b; rewrite negb_or !negbK => /andP [/eqP G /eqP B]; rewrite /shunt_values /= G B !mul0r; case: named => [v|] //=; rewrite !mul0r mulr0 addr0.
  apply: eq_sum_in => b IN _; rewrite (net_level _ I) /level_of named_own //= !divfK ?expf_neq0 ?v_nom_ne0 //.
  by rewrite mulrC divfK.
Qed.

(* a charged transformer becomes the pi circuit of a T *)
Lemma charged k o p w d : import_from_pypower_ppc k o = Some p -> calculate_dependent_values pi (as_network p) = Some w -> own_names (@mb_name C) (mbuses k) ->
  (forall r, List.In r (mbranches k) -> reflect (plain k r) (d r)) -> base k != 0 ->
  List.Forall2 (fun r a => let z := (mr_r r + 'i * mr_x r) / base k in let y := 'i * mr_b r * base k in tr_s a != 0 -> z != 0 -> z * y + 4%:R != 0 ->
    tr_zpu a = Some (z * (1 + z * y / 4%:R)) /\ tr_ypu a = Some (y / (1 + z * y / 4%:R))) [seq r <- mbranches k | ~~ d r] (transformers w).
Proof.
move=> I W D P nb; have [_ ->] := filterP D P; have [w' W'] := values I; move: W; rewrite W' => -[<-] [_ -> _].
apply: map_Forall2 => r _ z y s0 nz ns; rewrite /transformer_values /trafo_of; cbn [tr_zpu tr_ypu tr_x tr_r tr_s tr_g tr_b tr_tap tr_model omap obind oapp].
cbn in s0; have -> : mr_r r * rating o r / base k / rating o r + 'i * (mr_x r * rating o r / base k / rating o r) = z.
  have S1 (c : C) : c * rating o r / base k / rating o r = c / base k by rewrite mulrAC mulfK.
  by rewrite !S1 mulrA -mulrDl.
have -> : 0 * rating o r + 'i * (mr_b r * base k / rating o r * rating o r) = y by rewrite mul0r add0r divfK // mulrA.
by have [-> ->] := @t_values _ {| t_model := "t"; t_z := z; t_y := y |} erefl nz ns.
Qed.

(* powers, controls, set points *)
Lemma loads_sum (bs : seq (mbus C)) (f : mbus C -> C) (g : pload C -> C) b : own_names (@mb_name C) bs -> List.In b bs ->
  (forall a, g (load_of a) = f a) -> (forall a, mb_pd a = 0 -> mb_qd a = 0 -> f a = 0) ->
  \sum_(l <- loads_of bs | String.eqb (pl_bus l) (mb_name b)) g l = f b.
Proof.
move=> D IN G F; rewrite /loads_of big_map big_filter_cond.
rewrite drop_zero; last by move=> a; rewrite negb_or !negbK => /andP [/eqP X /eqP Z]; rewrite G F.
elim: bs D IN => //= a bs IH D; inversion D as [|? ? NI D']; subst => -[E|I].
- rewrite big_cons E /= String.eqb_refl G (eq_sum_in (G := fun=> 0)) ?big1 ?addr0 //.
  move=> c Ic /String.eqb_spec Ec; case: NI; rewrite E -Ec; exact: List.in_map.
- rewrite big_cons /=; case: (String.eqb_spec (mb_name a) (mb_name b)) => [E|_]; last exact: IH.
  case: NI; rewrite E; exact: List.in_map.
Qed.
Lemma last_filter {A B : Type} (f : A -> B) (d : pred A) x (s : seq A) :
  (forall a, List.In a s -> ~~ d a) /\ last x [seq f a | a <- s & d a] = x \/
  exists s0 a s1, [/\ s = s0 ++ a :: s1, d a, forall c, List.In c s1 -> ~~ d c & last x [seq f a | a <- s & d a] = f a].
Proof.
elim: s x => [|a s IH] x /=; first by left.
case: ifPn => D /=.
- have [[H L]|[s0 [c [s1 [-> Dc H L]]]]] := IH (f a); [right; exists [::], a, s|right; exists (a :: s0), c, s1]; by split.
- have [[H L]|[s0 [c [s1 [-> Dc H L]]]]] := IH x; [left; split=> // c [<-|/H]|right; exists (a :: s0), c, s1]; by [].
Qed.
Lemma buses_of k o p : import_from_pypower_ppc k o = Some p ->
  List.Forall2 (fun b q => [/\ pb_name q = mb_name b, pb_v q = (if mb_kv b == 0 then 1 else mb_kv b) &
    List.nth_error [:: ""; "PQ"; "PV"; "Slack"]%string (mb_type b) = Some (pb_control q)] /\ set_point (mgens k) b (pb_vset q)) (mbuses k) (p_buses p).
Proof.
rewrite /import_from_pypower_ppc; case E: controlled => [bs|] // [<-] /=; move: (controlled_app E); apply: Forall2_map => b q [N V S O]; split.
- split=> //=; move: O; rewrite /control; by case: (mb_type b) => [|[|[|[|t]]]] //=; rewrite nth_nil.
- rewrite /set_point /= -N S; have [[H ->]|[s0 [g [s1 [-> /String.eqb_spec D H ->]]]]] := last_filter (@mg_v C) (fun g => String.eqb (mg_bus g) (pb_name q)) (mb_vm b) (mgens k).
  + by left; split=> // g /H /negP NE EQ; apply: NE; apply/String.eqb_spec.
  + by right; exists s0, g, s1; split=> // c /H /negP NE EQ; apply: NE; apply/String.eqb_spec.
Qed.
Lemma gens_of k o p : import_from_pypower_ppc k o = Some p -> own_names (@mb_name C) (mbuses k) ->
  List.Forall2 (fun g q => [/\ pg_bus q = mg_bus g, pg_p q = mg_p g, pg_q q = mg_q g & pg_nom q = mg_pmax g] /\
    forall b, List.In b (p_buses p) -> pb_name b = mg_bus g -> pg_control q = Some (pb_control b)) (mgens k) (p_gens p).
Proof.
rewrite /import_from_pypower_ppc; case E: controlled => [bs|] // [<-] /= D; apply: map_Forall2 => g _; split=> // b IN N /=.
have [a IN' Eb] := in_mapP IN; subst b; have D' : own_names (@pb_name C) bs.
  move: D; rewrite /own_names; have -> // : List.map (@mb_name C) (mbuses k) = List.map (@pb_name C) bs.
  by elim: (controlled_app E) => //= ? ? ? ? [-> _ _ _] _ ->.
by rewrite -N /= named_own.
Qed.
Lemma loads_are k o p b : import_from_pypower_ppc k o = Some p -> own_names (@mb_name C) (mbuses k) -> List.In b (mbuses k) ->
  \sum_(l <- p_loads p | String.eqb (pl_bus l) (mb_name b)) pl_p l = mb_pd b /\ \sum_(l <- p_loads p | String.eqb (pl_bus l) (mb_name b)) pl_q l = mb_qd b.
Proof.
rewrite /import_from_pypower_ppc; case E: controlled => [bs|] // [<-] /= D IN; split; exact: loads_sum.
Qed.
End P.

(* cases *)
Section E.
Variable C : numClosedFieldType.
Variable ex : C -> C.
Hypothesis ex0 : ex 0 = 1.
Definition two_buses : seq (mbus C) := [:: Mbus "1" 3 0 0 0 0 1 1; Mbus "2" 1 5%:R 1 0 0 1 2%:R].
Definition charged_case : case C := {| base := 1; mbuses := two_buses; mgens := [::]; mbranches := [:: Mbranch "1" "2" 0 1 1 1 0 0] |}.
Definition unrated_case (x : C) : case C := {| base := 1; mbuses := two_buses; mgens := [::]; mbranches := [:: Mbranch "1" "2" 0 x 0 0 0 0] |}.
Definition place (x : string) : 'I_2 := if String.eqb x "2" then Ordinal (erefl : 1 < 2)%N else Ordinal (erefl : 0 < 2)%N.
Lemma two_own : own_names (@mb_name C) two_buses.
Proof. by do !constructor; rewrite /= => -[]. Qed.
Lemma level_ne : (1 == 2%:R :> C) = false.
Proof. by rewrite eq_sym -[X in _ == X]/(1%:R) eqr_nat. Qed.
Lemma two_kv b : List.In b two_buses -> v_nom b = if String.eqb (mb_name b) "1" then 1 else 2%:R.
Proof. by case=> [<-|[<-|//]]; rewrite /v_nom /= ?oner_eq0 // pnatr_eq0. Qed.
Lemma trafo_case k r : mbuses k = two_buses -> mr_from r = "1"%string -> mr_to r = "2"%string -> is_transformer k r.
Proof. by move=> B F T; rewrite /is_transformer /level_of B F T /= /v_nom /= oner_eq0 pnatr_eq0 /= level_ne. Qed.

Lemma N12 : (place "1" == place "2") = false. Proof. by []. Qed.
Lemma N21 : (place "2" == place "1") = false. Proof. by []. Qed.
Lemma one_entry k r : mbranches k = [:: r] -> mr_from r = "1"%string -> mr_to r = "2"%string -> Ybus ex place k (place "1") (place "2") = Yft ex r.
Proof. by move=> B F T; rewrite mxE B big_seq1 F T !eqxx N12 N21 !mul0r !mul1r !addr0 add0r. Qed.
Lemma nI : 'i != 0 :> C. Proof. exact: neq0Ci. Qed.

Lemma unrated : import_from_pypower_ppc (unrated_case 1) None = import_from_pypower_ppc (unrated_case 2%:R) None /\
  (exists p, import_from_pypower_ppc (unrated_case 1) None = Some p) /\ Ybus ex place (unrated_case 1) <> Ybus ex place (unrated_case 2%:R).
Proof.
split; [|split].
- by rewrite /import_from_pypower_ppc /=; rewrite !trafo_case //= /trafo_of /rating /= eqxx /= !mulr0.
- by eexists; rewrite /import_from_pypower_ppc /=.
- move/matrixP => /(_ (place "1") (place "2")); rewrite (@one_entry (unrated_case 1) _ erefl erefl erefl) (@one_entry (unrated_case 2%:R) _ erefl erefl erefl) /Yft /N /ratio /= !eqxx ex0 !mul1r rmorph1 !divr1 /Ys /= !add0r !mul1r mulr1 => /oppr_inj /invr_inj /eqP.
  rewrite -{1}['i]mulr1 (inj_eq (mulfI nI)) => /eqP E; by have := level_ne; rewrite -E eqxx.
Qed.

Lemma charged_Y : exists p w (br : 'I_1 -> branch C 2),
  [/\ import_from_pypower_ppc charged_case None = Some p, calculate_dependent_values 0 (as_network p) = Some w, [seq Some (br l) | l <- enum 'I_1] = seen ex place w &
      Y (@conjC C) br (shunted place w) <> base charged_case *: Ybus ex place charged_case].
Proof.
have [p I] : exists p, import_from_pypower_ppc charged_case None = Some p by apply/defined => b [<-|[<-|[]]].
have [w W [L T S]] := values 0 I; have [br E] := @all_seen C 0 ex _ _ _ _ 2 place I W.
exists p, w, br; split=> // /matrixP /(_ (place "1") (place "2")); rewrite [RHS]mxE (@one_entry charged_case _ erefl erefl erefl) (Y_list _ _ _ E) /seen L T.
have TR : is_transformer charged_case (Mbranch "1" "2" 0 1 1 1 0 0 : mbranch C) by exact: trafo_case.
have F : [seq r <- mbranches charged_case | ~~ is_transformer charged_case r] = [::] by rewrite /= TR.
have G : [seq r <- mbranches charged_case | is_transformer charged_case r] = [:: Mbranch "1" "2" 0 1 1 1 0 0] by rewrite /= TR.
rewrite F G !map_cons big_seq1 N12 mul0r addr0.
have i4 : (0 + 'i * 1) / 1 * ('i * 1 * 1) = -1 :> C by rewrite add0r divr1 !mulr1 -expr2 sqrCi.
have n3 : 3%:R != 0 :> C by rewrite pnatr_eq0.
have e3 : -1 + 4%:R = 3%:R :> C by rewrite (natrD _ 3 1) addrC addrK.
have nb : base charged_case != 0 by exact: oner_neq0.
have := @charged C 0 charged_case None p w _ I W two_own (fun r _ => @plainP C charged_case r two_own) nb; rewrite T; under eq_filter do rewrite negbK; rewrite G => H; inversion H as [|? ? ? ? H1 _]; subst; move: H1.
have i0 : (0 + 'i * 1) / 1 != 0 :> C by rewrite add0r mulr1 divr1 nI.
cbn zeta; rewrite i4 e3 => H1; have [|//|//|Z YY] := H1; first by rewrite /= /rating /= oner_eq0 oner_neq0.
rewrite /transformer_branch Z YY /oent /ent !eqxx N21 N12 /=.
rewrite !mul0r !addr0 !mul1r !add0r /Y01 /tau_hv /tau_lv /tau /y_se /Yft /N /ratio /Ys /= !eqxx /= oner_eq0 ex0.
rewrite !mul1r rmorph1 !divr1 !add0r !mulr1 => /oppr_inj /invr_inj /eqP.
by rewrite -[X in _ == X]mulr1 (inj_eq (mulfI nI)) -subr_eq0 addrAC subrr add0r mulf_eq0 oppr_eq0 oner_eq0 invr_eq0 pnatr_eq0.
Qed.
(* a line, a transformer that shifts phases, a shunt and two generators *)
Definition some_case : case C :=
  {| base := 100%:R;
     mbuses := [:: Mbus "1" 3 0 0 0 0 1 110%:R; Mbus "2" 2 50%:R 10%:R 0 19%:R 1 110%:R; Mbus "3" 1 0 5%:R 0 0 1 0];
     mgens := [:: Mgen "1" 40%:R 0 (11%:R / 10%:R) 80%:R; Mgen "2" 10%:R 0 (21%:R / 20%:R) 20%:R];
     mbranches := [:: Mbranch "1" "2" (1 / 50%:R) (1 / 10%:R) (1 / 20%:R) 0 0 0; Mbranch "2" "3" 0 (1 / 5%:R) 0 60%:R (19%:R / 20%:R) 30%:R] |}.
Lemma some_own : own_names (@mb_name C) (mbuses some_case).
Proof. by repeat constructor; move=> H; repeat (case: H => // H). Qed.
Lemma nat_conj (a b : nat) : ((a%:R / b%:R : C))^* = a%:R / b%:R.
Proof. by rewrite rmorphM fmorphV !rmorph_nat. Qed.
Lemma some_branches r : List.In r (mbranches some_case) -> (mr_ratio r)^* = mr_ratio r /\ (plain some_case r \/ mr_b r = 0 /\ exists2 s, rated None r s & s != 0).
Proof.
case=> [<-|[<-|[]]]; split; rewrite /= ?rmorph0 ?nat_conj //.
- left; split=> //=; [|by left]; exists (Mbus "1" 3 0 0 0 0 1 110%:R), (Mbus "2" 2 50%:R 10%:R 0 19%:R 1 110%:R); split; last by left.
  by split=> //=; [left|right; left].
- right; split=> //; exists 60%:R; last by rewrite pnatr_eq0. left; split=> //=; by apply/eqP; rewrite pnatr_eq0.
Qed.
Lemma some_import : exists p, import_from_pypower_ppc some_case None = Some p.
Proof. by apply/defined => b [<-|[<-|[<-|[]]]]. Qed.
Lemma some_split : [seq r <- mbranches some_case | ~~ is_transformer some_case r] = [:: Mbranch "1" "2" (1 / 50%:R) (1 / 10%:R) (1 / 20%:R) 0 0 0] /\
  [seq r <- mbranches some_case | is_transformer some_case r] = [:: Mbranch "2" "3" 0 (1 / 5%:R) 0 60%:R (19%:R / 20%:R) 30%:R].
Proof.
have A : is_transformer some_case (Mbranch "1" "2" (1 / 50%:R) (1 / 10%:R) (1 / 20%:R) 0 0 0) = false by rewrite /is_transformer /level_of /= /v_nom /= !eqxx.
have B : is_transformer some_case (Mbranch "2" "3" 0 (1 / 5%:R) 0 60%:R (19%:R / 20%:R) 30%:R) by rewrite /is_transformer; apply/orP; right; rewrite /= pnatr_eq0.
by rewrite /= A B.
Qed.
End E.
