From mathcomp Require Import all_ssreflect all_algebra.
From Coq Require Import Ring Field String Relations.
From Verif Require Import MCRing AdmitModel AdmitSpec AdmitProofs PerunitModel PerunitSpec PerunitProofs PypowerModel PypowerProofs PandapowerModel PandapowerSpec.
Set Implicit Arguments. Unset Strict Implicit. Unset Printing Implicit Defensive.
Import GRing.Theory Num.Theory Order.TTheory.
Local Open Scope ring_scope.

Lemma traverse_some {A B : Type} (f : A -> option B) s t : traverse f s = Some t -> List.Forall2 (fun a b => f a = Some b) s t.
Proof.
elim: s t => [|a s IH] t /=; first by case=> <-; constructor.
by case E: (f a) => [b|] //; case F: (traverse f s) => [u|] // [<-]; constructor=> //; exact: IH.
Qed.
Lemma traverse_def {A B : Type} (f : A -> option B) s : (forall a, List.In a s -> f a <> None) -> exists t, traverse f s = Some t.
Proof.
elim: s => [|a s IH] H /=; first by exists [::].
have [t ->] := IH (fun c I => H c (or_intror I)); case E: (f a) => [b|]; first by eexists.
by case: (H a (or_introl erefl)).
Qed.
Lemma Forall2_imp {A B : Type} (P R : A -> B -> Prop) s t : (forall a b, List.In a s -> List.In b t -> P a b -> R a b) -> List.Forall2 P s t -> List.Forall2 R s t.
Proof.
move=> H F; elim: F H => [|a b s' t' p _ IH] H; constructor; first by apply: H => //; left.
by apply: IH => c d I J; apply: H; right.
Qed.
Lemma Forall2_inl {A B : Type} (P : A -> B -> Prop) s t a : List.Forall2 P s t -> List.In a s -> exists2 b, List.In b t & P a b.
Proof. by elim=> //= c b s' t' p _ IH [<-|/IH [d I Pd]]; [exists b; [left|]|exists d; [right|]]. Qed.
Lemma Forall2_inr {A B : Type} (P : A -> B -> Prop) s t b : List.Forall2 P s t -> List.In b t -> exists2 a, List.In a s & P a b.
Proof. by elim=> //= c d s' t' p _ IH [<-|/IH [e I Pe]]; [exists c; [left|]|exists e; [right|]]. Qed.

Section P.
Variable C : numClosedFieldType.
Variable pi : C.
Add Field PaF : (field_th C).
Implicit Types (n : net C) (p : imported C).

Lemma bus_at_in n i b : bus_at n i = Some b -> List.In b (n_bus n) /\ nb_id b = i.
Proof. rewrite /bus_at; elim: (n_bus n) => //= c s IH; case: eqP => [E [<-]|_ /IH [I E]]; [by split; [left|]|by split; [right|]]. Qed.
Lemma bus_at_own n b : own_ids n -> List.In b (n_bus n) -> bus_at n (nb_id b) = Some b.
Proof.
case=> D _; rewrite /bus_at; elim: (n_bus n) D => //= c s IH D; inversion D as [|? ? N D']; subst => -[->|I]; first by rewrite eqxx.
case: eqP => [E|_]; last exact: IH. by case: N; rewrite E; exact: List.in_map.
Qed.
Lemma name_of_at n i x : own_ids n -> name_of n i = Some x <-> at_bus n i x.
Proof.
move=> D; rewrite /name_of; split.
- by case E: (bus_at n i) => [b|] // [<-]; have [I J] := bus_at_in E; exists b.
- by case=> b [I <- <-]; rewrite bus_at_own.
Qed.
Lemma at_unique n i j x : own_ids n -> at_bus n i x -> at_bus n j x -> i = j.
Proof.
case=> _ D [b [I <- E]] [c [J <- F]]; congr nb_id; rewrite -F in E; move: D I J E; elim: (n_bus n) => //= d s IH D; inversion D as [|? ? N D']; subst.
case=> [A|I] [B|J] E; [by rewrite -A -B|case: N; rewrite A E; exact: List.in_map|case: N; rewrite B -E; exact: List.in_map|exact: IH].
Qed.

(* switches *)
Lemma replaced n rs x y : own_ids n -> to_replace n = Some rs -> List.In (x, y) rs <-> joined n x y.
Proof.
move=> D /traverse_some F; split.
- move=> /(Forall2_inr F) [s IN]; case A: name_of => [a|] //; case B: name_of => [b|] // [<- <-].
  have [IN' /andP [/String.eqb_spec T Cl]] := in_filter IN.
  by exists s; split=> //; split; apply/(name_of_at _ _ D).
- case=> s [[IN T Cl] [/(name_of_at _ _ D) X /(name_of_at _ _ D) Z]].
  have IN' : List.In s [seq s <- n_switch n | String.eqb (nw_et s) "b" && nw_closed s].
    elim: (n_switch n) IN => //= c r IH [E|I]; first by rewrite E T Cl /=; left.
    by case: ifPn => _; [right|]; exact: IH.
  by have [[b a] IN'' ] := Forall2_inl F IN'; rewrite X Z => -[-> ->].
Qed.
Lemma in_filter' {A : Type} (d : pred A) (s : seq A) a : List.In a s -> d a -> List.In a [seq x <- s | d x].
Proof. by elim: s => //= b s IH [->|I] D; [rewrite D; left|case: ifPn => _; [right|]; exact: IH]. Qed.
Lemma hasIn {A : Type} (d : pred A) (s : seq A) : has d s -> exists2 a, List.In a s & d a.
Proof. by elim: s => //= a s IH /orP [D|/IH [b I D]]; [exists a; [left|]|exists b; [right|]]. Qed.
Lemma remove_there xs (bs bs' : seq (pbus C)) x : remove_buses xs bs = Some bs' -> List.In x xs -> exists2 q, List.In q bs & pb_name q = x.
Proof.
elim: xs bs => //= y xs IH bs; case: ifPn => // /hasIn [q I /String.eqb_spec E] R [<-|IN]; first by exists q.
by have [q' I' E'] := IH _ R IN; exists q' => //; have [] := in_filter I'.
Qed.
Lemma remove_some xs (bs bs' : seq (pbus C)) : remove_buses xs bs = Some bs' ->
  List.NoDup xs /\ bs' = [seq q <- bs | ~~ has (String.eqb (pb_name q)) xs].
Proof.
elim: xs bs => [|x xs IH] bs /=; first by case=> <-; split; [constructor|rewrite filter_predT].
case: ifPn => // H R; have [D ->] := IH _ R; split.
- constructor=> // IN; have [q IQ E] := remove_there R IN; have [_] := in_filter IQ; by rewrite E String.eqb_refl.
- by rewrite -filter_predI; apply: eq_filter => q /=; rewrite negb_or andbC.
Qed.
Lemma hasP' (x : string) xs : reflect (List.In x xs) (has (String.eqb x) xs).
Proof.
apply: (iffP idP); first by move/hasIn => [y I /String.eqb_spec ->].
by elim: xs => //= y xs IH [->|/IH ->]; rewrite ?String.eqb_refl ?orbT.
Qed.

Section Moved.
Variables (n : net C) (rs : seq (string * string)).
Hypothesis own : own_ids n.
Hypothesis Ers : to_replace n = Some rs.
Hypothesis goes : List.NoDup [seq w.1 | w <- rs].
Hypothesis chain : no_chain n.
Lemma inJ x y : List.In (x, y) rs <-> joined n x y. Proof. exact: replaced. Qed.
Lemma moved_spec x : (exists2 y, joined n x y & moved rs x = y) \/ (forall z, ~ joined n x z) /\ moved rs x = x.
Proof.
rewrite /moved; have [[H ->]|[s0 [[x' y] [s1 [E /String.eqb_spec D _ ->]]]]] := last_filter (fun w : string * string => w.2) (fun w => String.eqb w.1 x) x rs.
- right; split=> // z /inJ /H /=; by rewrite String.eqb_refl.
- left; exists y => //; apply/inJ; rewrite E -D; by elim: (s0) => [|c s IH] /=; [left|right].
Qed.
Lemma moved_joined x y : joined n x y -> moved rs x = y.
Proof.
move=> J; case: (moved_spec x) => [[z K ->]|[/(_ y)]] //.
move: J K => /inJ J /inJ K; move: goes J K; elim: (rs) => //= -[a b] r IH D; inversion D as [|? ? N D']; subst.
have sub t : List.In (x, t) r -> List.In x [seq w.1 | w <- r] by move=> I; elim: (r) I => //= c r' IH' [->|/IH' ?]; [left|right].
by case=> [[E1 F1]|J] [[E F]|K]; [rewrite -F -F1|case: N; rewrite E1; exact: sub K|case: N; rewrite E; exact: sub J|exact: IH].
Qed.
Lemma moved_stay x : (forall z, ~ joined n x z) -> moved rs x = x.
Proof. by move=> H; case: (moved_spec x) => [[y /H]|[]]. Qed.
Lemma moved_last x : forall z, ~ joined n (moved rs x) z.
Proof. by move=> z; case: (moved_spec x) => [[y J ->]|[H ->]]; [exact: chain J|exact: H]. Qed.
Lemma moved_rel x : clos_refl_sym_trans _ (joined n) x (moved rs x).
Proof. by case: (moved_spec x) => [[y J ->]|[_ ->]]; [apply: rst_step|apply: rst_refl]. Qed.
Lemma moved_eq x y : clos_refl_sym_trans _ (joined n) x y -> moved rs x = moved rs y.
Proof.
elim=> [u v J|u|u v _ ->|u v w _ -> _ ->] //.
by rewrite (moved_joined J) moved_stay //; move=> z; exact: chain J.
Qed.
Lemma moved_at i x : at_bus n i x -> exists j, at_bus n j (moved rs x).
Proof. by move=> A; case: (moved_spec x) => [[y [s [_ [_ B]]] ->]|[_ ->]]; eexists; eauto. Qed.
Lemma moved_placed i x : at_bus n i x -> placed n i (moved rs x).
Proof. by move=> A; exists x; split=> //; [exact: moved_rel|split; [exact: moved_at A|exact: moved_last]]. Qed.
Lemma placed_moved i y : placed n i y -> exists2 x, at_bus n i x & y = moved rs x.
Proof. by case=> x [A R [_ L]]; exists x => //; rewrite (moved_eq R) moved_stay. Qed.
End Moved.

(* the pieces of a successful import *)
Lemma parts n e p : import_from_pandapower_net pi n e = Some p -> exists p0 rs, [/\ added pi n e = Some p0, to_replace n = Some rs & amalgamate rs p0 = Some p].
Proof. by rewrite /import_from_pandapower_net; case: added => [p0|] //; case: to_replace => [rs|] // A; exists p0, rs. Qed.
Lemma goes_own rs p0 p : amalgamate rs p0 = Some p -> List.NoDup [seq w.1 | w <- rs].
Proof. by rewrite /amalgamate; case E: remove_buses => [bs|] // _; have [] := remove_some E. Qed.
Lemma Forall2_map2 {A B D : Type} (f : B -> D) (P : A -> D -> Prop) (s : seq A) (t : seq B) : List.Forall2 (fun a b => P a (f b)) s t -> List.Forall2 P s [seq f b | b <- t].
Proof. by elim=> *; constructor. Qed.

Lemma same_place n i j x x' y y' e p : own_ids n -> no_chain n -> import_from_pandapower_net pi n e = Some p ->
  at_bus n i x -> at_bus n j x' -> placed n i y -> placed n j y' -> (y = y' <-> clos_refl_sym_trans _ (joined n) x x').
Proof.
move=> D N I A A' P P'; have [p0 [rs [_ R M]]] := parts I; have G := goes_own M.
have [z Az ->] := placed_moved D R G N P; have [z' Az' ->] := placed_moved D R G N P'.
have -> : z = x by move/(name_of_at _ _ D): Az; move/(name_of_at _ _ D): A => -> [].
have -> : z' = x' by move/(name_of_at _ _ D): Az'; move/(name_of_at _ _ D): A' => -> [].
split; last exact: moved_eq.
move=> E; apply: rst_trans (moved_rel D R x) _; rewrite E; apply: rst_sym; exact: moved_rel.
Qed.
Lemma place_exists n i x e p : own_ids n -> no_chain n -> import_from_pandapower_net pi n e = Some p -> at_bus n i x -> exists y, placed n i y.
Proof.
by move=> D N I A; have [p0 [rs [_ R M]]] := parts I; have G := goes_own M; exists (moved rs x); apply: moved_placed A.
Qed.

Lemma pieces n e p : import_from_pandapower_net pi n e = Some p -> exists rs bs ls gs ns ts ss,
  [/\ to_replace n = Some rs, import_buses n = Some bs, remove_buses [seq w.1 | w <- rs] bs = Some (p_buses p) & traverse (import_load n) (n_load n) = Some ls] /\
  [/\ import_gens n = Some gs, traverse (import_line pi n e) (n_line n) = Some ns, traverse (import_trafo n) (n_trafo n) = Some ts & traverse (import_shunt n) (n_shunt n) = Some ss] /\
  [/\ p_loads p = [seq Pload (moved rs (pl_bus l)) (pl_p l) (pl_q l) | l <- ls],
      p_gens p = [seq Pgen (moved rs (pg_bus g)) (pg_p g) (pg_q g) (pg_nom g) (pg_control g) | g <- gs],
      p_lines p = [seq move_line rs x.1 | x <- ns], p_rates p = [seq x.2 | x <- ns] & p_trafos p = [seq move_trafo rs x | x <- ts]] /\
  p_shunts p = [seq {| sh_bus := moved rs (sh_bus s); sh_g := sh_g s; sh_b := sh_b s; sh_ypu := sh_ypu s |} | s <- ss].
Proof.
move=> I; have [p0 [rs [A R M]]] := parts I; move: A; rewrite /added.
case B: import_buses => [bs|] //; case L: (traverse (import_load n) (n_load n)) => [ls|] //; case G: import_gens => [gs|] //; case N: (traverse (import_line _ _ _) _) => [ns|] //.
case T: (traverse (import_trafo _) _) => [ts|] //; case S: (traverse (import_shunt _) _) => [ss|] // [E]; subst p0.
move: M; rewrite /amalgamate /=; case Q: remove_buses => [bs'|] //= [<-]; exists rs, bs, ls, gs, ns, ts, ss; split=> //; split=> //; split=> //; split=> //.
by rewrite /= -map_comp.
Qed.

Section Import.
Variables (n : net C) (e : bool) (p : imported C).
Hypothesis own : own_ids n.
Hypothesis chain : no_chain n.
Hypothesis imp : import_from_pandapower_net pi n e = Some p.
Lemma put rs i x : to_replace n = Some rs -> name_of n i = Some x -> placed n i (moved rs x).
Proof.
move=> R /(name_of_at _ _ own) A; have [p0 [rs' [_ R' M]]] := parts imp; have G := goes_own M; move: R'; rewrite R => -[E]; subst rs'.
exact: moved_placed.
Qed.
Lemma loads_in : List.Forall2 (fun l q => [/\ placed n (nl_bus l) (pl_bus q), pl_p q = nl_scaling l * nl_p l & pl_q q = nl_scaling l * nl_q l]) (n_load n) (p_loads p).
Proof.
have [rs [bs [ls [gs [ns [ts [ss [[R B X L] [_ [[-> _ _ _ _] _]]]]]]]]]] := pieces imp.
apply: Forall2_map2; move/traverse_some: L; apply: Forall2_imp => l q _ _; rewrite /import_load; case N: name_of => [x|] // [<-] /=; split=> //; exact: put.
Qed.
Lemma gens_in : exists a b c, [/\ p_gens p = a ++ b ++ c,
  List.Forall2 (fun g q => [/\ placed n (ng_bus g) (pg_bus q), pg_p q = ng_scaling g * ng_p g & pg_control q = Some "PV"%string]) (n_gen n) a,
  List.Forall2 (fun g q => [/\ placed n (ns_bus g) (pg_bus q), pg_p q = ns_scaling g * ns_p g, pg_q q = ns_scaling g * ns_q g & pg_control q = Some "PQ"%string]) (n_sgen n) b &
  List.Forall2 (fun g q => placed n (ne_bus g) (pg_bus q) /\ pg_control q = Some "Slack"%string) (n_ext n) c].
Proof.
have [rs [bs [ls [gs [ns [ts [ss [[R _ _ _] [[G _ _ _] [[_ -> _ _ _] _]]]]]]]]]] := pieces imp.
move: G; rewrite /import_gens; case A: (traverse (import_gen n) _) => [a|] //; case B: (traverse (import_sgen n) _) => [b|] //; case D: (traverse (import_ext n) _) => [c|] // [<-].
set f := fun g : pgen C => _; exists [seq f g | g <- a], [seq f g | g <- b], [seq f g | g <- c]; split; first by rewrite !map_cat.
- apply: Forall2_map2; move/traverse_some: A; apply: Forall2_imp => l q _ _; rewrite /import_gen; case N: name_of => [x|] // [<-] /=; split=> //; exact: put.
- apply: Forall2_map2; move/traverse_some: B; apply: Forall2_imp => l q _ _; rewrite /import_sgen; case N: name_of => [x|] // [<-] /=; split=> //; exact: put.
- apply: Forall2_map2; move/traverse_some: D; apply: Forall2_imp => l q _ _; rewrite /import_ext; case N: name_of => [x|] // [<-] /=; split=> //; exact: put.
Qed.
Lemma lines_typed : e = false -> List.Forall2 (fun l q => [/\ placed n (nn_from l) (l_bus0 q), placed n (nn_to l) (l_bus1 q), l_type q = nn_type l, l_length q = nn_length l & l_par q = nn_parallel l])
   (n_line n) (p_lines p).
Proof.
move=> Ee; have [rs [bs [ls [gs [ns [ts [ss [[R _ _ _] [[_ L _ _] [[_ _ -> _ _] _]]]]]]]]]] := pieces imp.
apply: Forall2_map2; move/traverse_some: L; apply: Forall2_imp => l q _ _; rewrite /import_line Ee; case N: (name_of n (nn_from l)) => [x|] //; case M: (name_of n (nn_to l)) => [y|] //.
case: vn_of => // v [<-] /=; by split=> //; exact: put.
Qed.
Lemma lines_extra : e = true -> List.Forall2 (fun l q => [/\ placed n (nn_from l) (l_bus0 q), placed n (nn_to l) (l_bus1 q) & l_type q = ""%string] /\
   (nn_parallel l != 0 -> l_r q + 'i * l_x q = line_z l * nn_parallel l /\ (l_g q + 'i * l_b q) * nn_parallel l = line_y pi n l)) (n_line n) (p_lines p) /\
   List.Forall2 (fun l s => forall b, List.In b (n_bus n) -> nb_id b = nn_from l -> line_limit (nb_vn b) l = sqrtC 3%:R * nn_parallel l * s) (n_line n) (p_rates p).
Proof.
move=> Ee; have [rs [bs [ls [gs [ns [ts [ss [[R _ _ _] [[_ L _ _] [[_ _ -> -> _] _]]]]]]]]]] := pieces imp.
move/traverse_some: L => L; split; apply: Forall2_map2; move: L; apply: Forall2_imp => l q _ _; rewrite /import_line Ee; case N: (name_of n (nn_from l)) => [x|] //; case M: (name_of n (nn_to l)) => [y|] //; rewrite /vn_of; case V: bus_at => [v|] // [<-].
- split; first by split=> //=; exact: put.
  move=> np /=; split; first by rewrite /line_z divfK //; fring C.
  rewrite add0r /line_y; move: (10%:R ^- 9) (2%:R : C) => a b; fring C.
- move=> b IN Eb /=; rewrite /line_limit; move: V; rewrite -Eb bus_at_own // => -[->]; fring C.
Qed.
Lemma trafos_typed : has (fun t : ntrafo C => if nt_type t is Some s then ~~ String.eqb s "" else false) (n_trafo n) ->
  List.Forall2 (fun t q => [/\ placed n (nt_hv t) (tr_bus0 q), placed n (nt_lv t) (tr_bus1 q), tr_type q = odflt "0"%string (nt_type t) & tr_pos q = odflt 0 (nt_tap t)]) (n_trafo n) (p_trafos p).
Proof.
move=> H; have [rs [bs [ls [gs [ns [ts [ss [[R _ _ _] [[_ _ T _] [[_ _ _ _ ->] _]]]]]]]]]] := pieces imp.
apply: Forall2_map2; move/traverse_some: T; apply: Forall2_imp => t q _ _; rewrite /import_trafo; case N: (name_of n (nt_hv t)) => [x|] //; case M: (name_of n (nt_lv t)) => [y|] //.
by rewrite /by_type H => -[<-] /=; split=> //; exact: put.
Qed.
Lemma trafos_plain : (forall t, List.In t (n_trafo n) -> nt_type t = None \/ nt_type t = Some ""%string) ->
  List.Forall2 (fun t q => [/\ placed n (nt_hv t) (tr_bus0 q), placed n (nt_lv t) (tr_bus1 q), tr_type q = ""%string & tr_s q = nt_sn t] /\ tr_shift q = nt_shift t /\
   (nt_vkr t \is Num.real -> 0 <= nt_vk t -> `|nt_vkr t| <= nt_vk t -> nt_pfe t \is Num.real -> 0 < nt_sn t -> 0 <= nt_i0 t -> `|nt_pfe t| / (1000%:R * nt_sn t ^+ 2) <= nt_i0 t / 100%:R ->
    exists x, [/\ tr_x q = Some x, `|(tr_r q + 'i * x) * nt_sn t| = nt_vk t / 100%:R, 'Re ((tr_r q + 'i * x) * nt_sn t) = nt_vkr t / 100%:R & 0 <= 'Im (tr_r q + 'i * x)] /\
      [/\ `|tr_g q + 'i * tr_b q| = nt_i0 t / 100%:R, 'Re (tr_g q + 'i * tr_b q) * nt_sn t * nt_sn t * 1000%:R = nt_pfe t & 0 <= 'Im (tr_g q + 'i * tr_b q)])) (n_trafo n) (p_trafos p).
Proof.
move=> H; have [rs [bs [ls [gs [ns [ts [ss [[R _ _ _] [[_ _ T _] [[_ _ _ _ ->] _]]]]]]]]]] := pieces imp.
have NT : by_type n = false.
  by rewrite /by_type; elim: (n_trafo n) H => //= t s IH H; rewrite IH ?orbF; [case: (H t (or_introl erefl)) => ->|move=> u I; apply: H; right].
apply: Forall2_map2; move/traverse_some: T; apply: Forall2_imp => t q _ _; rewrite /import_trafo; case N: (name_of n (nt_hv t)) => [x|] //; case M: (name_of n (nt_lv t)) => [y|] //.
rewrite NT => -[<-]; split; first by split=> //; exact: put.
split=> // r1 k0 rk r2 s0 i0 gi; cbn [move_trafo tr_x tr_r tr_g tr_b].
have h : 0 < 100%:R :> C by rewrite ltr0n.
have sr : nt_sn t \is Num.real by rewrite realE ltW.
set z := nt_vk t / 100%:R / nt_sn t; set r := nt_vkr t / 100%:R / nt_sn t; set y_ := nt_i0 t / 100%:R; set g := nt_pfe t / nt_sn t / 1000%:R / nt_sn t.
have rr : r \is Num.real by rewrite !real_div // ?realn.
have gr : g \is Num.real by rewrite !real_div // ?realn.
have z0 : 0 <= z by rewrite !divr_ge0 // ltW.
have y0 : 0 <= y_ by rewrite !divr_ge0 // ltW.
have rz : `|r| <= z by rewrite /r /z !normrM !normfV normr_nat (gtr0_norm s0) !ler_pmul2r ?invr_gt0.
have gy : `|g| <= y_.
  have -> // : `|g| = `|nt_pfe t| / (1000%:R * nt_sn t ^+ 2).
  by rewrite /g !normrM !normfV normr_nat (gtr0_norm s0) expr2 !invfM -!mulrA; congr (_ * _); rewrite mulrCA.
have xz := sq_le rr z0 rz; have bz := sq_le gr y0 gy.
rewrite /sqrt xz bz /=; have xr : sqrtC (z ^+ 2 - r ^+ 2) \is Num.real by rewrite realE sqrtC_ge0 xz.
have br : sqrtC (y_ ^+ 2 - g ^+ 2) \is Num.real by rewrite realE sqrtC_ge0 bz.
have sn0 := lt0r_neq0 s0; eexists; split; [split; first by reflexivity|split].
- by rewrite normrM (norm_rect (c := z)) // ?(gtr0_norm s0) ?divfK // sqrtCK addrCA subrr addr0.
- by rewrite mulrDl -mulrA Re_rect ?(realM rr sr) ?(realM xr sr) // /r divfK.
- by rewrite Im_rect // sqrtC_ge0.
- by rewrite (norm_rect (c := y_)) // sqrtCK addrCA subrr addr0.
- by rewrite Re_rect // /g divfK // mulrAC divfK ?pnatr_eq0 // divfK.
- by rewrite Im_rect // sqrtC_ge0.
Qed.
Lemma shunts_in : List.Forall2 (fun s q => placed n (nu_bus s) (sh_bus q) /\
    (nu_vn s \is Num.real -> nu_vn s != 0 -> nu_p s \is Num.real -> nu_q s \is Num.real ->
     forall V, (nu_vn s * V) * ((sh_g q + 'i * sh_b q) * (nu_vn s * V))^* = `|V| ^+ 2 * (nu_p s - 'i * nu_q s))) (n_shunt n) (p_shunts p).
Proof.
have [rs [bs [ls [gs [ns [ts [ss [[R _ _ _] [[_ _ _ S] [_ ->]]]]]]]]]] := pieces imp.
apply: Forall2_map2; move/traverse_some: S; apply: Forall2_imp => s q _ _; rewrite /import_shunt; case N: name_of => [x|] // [<-] /=; split; first exact: put.
move=> /CrealP vr v0 /CrealP pr /CrealP qr V; rewrite !rmorphM rmorphD !rmorphM !fmorphV conjCi rmorphX /= vr pr qr normCK.
have nv := elimN eqP v0; rewrite expr2 !invfM.
have H : nu_vn s / nu_vn s = 1 by rewrite mulfV.
have -> : nu_vn s * V * ((nu_p s * ((nu_vn s)^-1 / nu_vn s) + - 'i * (nu_q s * ((nu_vn s)^-1 / nu_vn s))) * (nu_vn s * V^*)) =
  (nu_vn s / nu_vn s) * (nu_vn s / nu_vn s) * (V * V^* * (nu_p s - 'i * nu_q s)) by fring C.
by rewrite H !mul1r.
Qed.

(* buses *)
Lemma last_map {A B D : Type} (f : A -> option (B * D)) (h : A -> D) (key : B -> bool) (kid : A -> bool) s t v :
  List.Forall2 (fun a b => f a = Some b) s t -> (forall a b, List.In a s -> f a = Some b -> b.2 = h a /\ key b.1 = kid a) ->
  last v [seq w.2 | w <- t & key w.1] = last v [seq h a | a <- s & kid a].
Proof.
move=> F; elim: F v => //= a b s' t' E _ IH v H; have [E2 K] := H a b (or_introl erefl) E; rewrite K.
have {}IH v' := IH v' (fun c d I => H c d (or_intror I)); by case: (kid a) => /=; rewrite ?E2 IH.
Qed.
Lemma key_id i b x : List.In b (n_bus n) -> name_of n i = Some x -> String.eqb x (nb_name b) = (i == nb_id b).
Proof.
move=> IN X; apply/String.eqb_spec/eqP => [E|E].
- move/(name_of_at _ _ own): X => A; rewrite E in A; apply: (at_unique own A); by exists b.
- by move: X; rewrite E /name_of bus_at_own // => -[].
Qed.
Lemma last_at_filter {A : Type} (h : A -> C) (id : A -> nat) i (s : seq A) v :
  (exists2 a, last_at id i s a & last v [seq h a | a <- s & id a == i] = h a) \/ (forall a, List.In a s -> id a <> i) /\ last v [seq h a | a <- s & id a == i] = v.
Proof.
have [[H ->]|[s0 [a [s1 [E /eqP D H ->]]]]] := last_filter h (fun a => id a == i) v s.
- by right; split=> // a /H /eqP.
- by left; exists a => //; exists s0, s1; split=> // c /H /eqP.
Qed.
Lemma joined_out rs x : to_replace n = Some rs -> reflect (exists y, joined n x y) (has (String.eqb x) [seq w.1 | w <- rs]).
Proof.
move=> R; apply: (iffP (hasP' _ _)).
- by move=> I; have [[a b] J E] := in_mapP I; exists b; apply/(inJ own R); rewrite E.
- by case=> y /(inJ own R); elim: (rs) => //= w r IH [->|/IH]; [left|right].
Qed.
Lemma buses_in : exists keep : pred (nbus C), (forall b, List.In b (n_bus n) -> keep b <-> stays n (nb_name b)) /\
  List.Forall2 (fun b q => [/\ pb_name q = nb_name b, pb_v q = nb_vn b & held n b (pb_vset q)]) [seq b <- n_bus n | keep b] (p_buses p).
Proof.
have [rs [bs [ls [gs [ns [ts [ss [[R B Q _] _]]]]]]]] := pieces imp.
exists (fun b => ~~ has (String.eqb (nb_name b)) [seq w.1 | w <- rs]); split.
  move=> b IN; split.
  - move/(joined_out _ R) => H; split; first by exists (nb_id b), b. by move=> z J; apply: H; exists z.
  - by case=> _ H; apply/(joined_out _ R) => -[z /H].
have [_ ->] := remove_some Q; move: B; rewrite /import_buses.
case G: (traverse _ (n_gen n)) => [ga|] //; case E: (traverse _ (n_ext n)) => [ea|] // [<-].
rewrite filter_map; apply: Forall2_map2; rewrite (@eq_filter _ _ (fun b => ~~ has (String.eqb (nb_name b)) [seq w.1 | w <- rs])) //.
move: (map_Forall2 (f := id) (R := fun b q => b = q /\ List.In b (n_bus n)) (s := [seq b <- n_bus n | ~~ has (String.eqb (nb_name b)) [seq w.1 | w <- rs]])).
rewrite map_id => H; have {}H : List.Forall2 (fun b q => b = q /\ List.In b (n_bus n)) [seq b <- n_bus n | ~~ has (String.eqb (nb_name b)) [seq w.1 | w <- rs]] [seq b <- n_bus n | ~~ has (String.eqb (nb_name b)) [seq w.1 | w <- rs]].
  by apply: H => b IN; have [] := in_filter IN.
move: H; apply: Forall2_imp => b q _ _ [<- IN] /=; split=> //; rewrite /written.
rewrite (last_map (key := fun x => String.eqb x (nb_name b)) (h := @ne_vm C) (kid := fun e => ne_bus e == nb_id b) _ (traverse_some E)); last first.
  move=> a c _; case X: name_of => [x|] // [<-] /=; split=> //; exact: key_id.
rewrite (last_map (key := fun x => String.eqb x (nb_name b)) (h := @ng_vm C) (kid := fun e => ng_bus e == nb_id b) _ (traverse_some G)); last first.
  move=> a c _; case X: name_of => [x|] // [<-] /=; split=> //; exact: key_id.
have [[a L ->]|[H ->]] := last_at_filter (@ne_vm C) (@ne_bus C) (nb_id b) (n_ext n) (last 1 [seq ng_vm a | a <- n_gen n & ng_bus a == nb_id b]).
- by left; exists a.
- right; split=> //; have [[a L ->]|[H' ->]] := last_at_filter (@ng_vm C) (@ng_bus C) (nb_id b) (n_gen n) 1; [by left; exists a|by right].
Qed.
End Import.

(* when the import succeeds *)
Definition known n (ids : seq nat) : Prop := forall i, List.In i ids -> exists x, at_bus n i x.
Lemma known_cat n a b : known n (a ++ b) <-> known n a /\ known n b.
Proof.
split; first by move=> H; split=> i I; apply: H; apply/List.in_or_app; [left|right].
by case=> A B i /(@List.in_app_or _ a b) [/A|/B].
Qed.
Lemma known_trav {A B : Type} n (id : A -> nat) (f : A -> option B) (s : seq A) : own_ids n -> (forall a, f a <> None <-> exists x, at_bus n (id a) x) ->
  (exists t, traverse f s = Some t) <-> known n [seq id a | a <- s].
Proof.
move=> D H; split.
- by case=> t /traverse_some F i I; have [a IA ->] := in_mapP I; apply/H; have [b _ ->] := Forall2_inl F IA.
- move=> K; apply: traverse_def => a I; apply/H; apply: K; exact: List.in_map.
Qed.
Lemma known_trav2 {A B : Type} n (id id' : A -> nat) (f : A -> option B) (s : seq A) : own_ids n -> (forall a, f a <> None <-> (exists x, at_bus n (id a) x) /\ exists x, at_bus n (id' a) x) ->
  (exists t, traverse f s = Some t) <-> known n [seq id a | a <- s] /\ known n [seq id' a | a <- s].
Proof.
move=> D H; split.
- by case=> t /traverse_some F; split=> i I; have [a IA ->] := in_mapP I; have [b _ E] := Forall2_inl F IA; have [|? ?] := proj1 (H a); rewrite ?E.
- by case=> K L; apply: traverse_def => a I; apply/H; split; [apply: K|apply: L]; exact: List.in_map.
Qed.
Lemma name_def n i : own_ids n -> name_of n i <> None <-> exists x, at_bus n i x.
Proof. by move=> D; split=> [|[x /(name_of_at _ _ D) ->]//]; case E: name_of => [x|] // _; exists x; apply/(name_of_at _ _ D). Qed.
Lemma omap_def {A B : Type} (f : A -> B) (o : option A) : omap f o <> None <-> o <> None. Proof. by case: o. Qed.
Lemma vn_def n i : vn_of n i <> None <-> name_of n i <> None. Proof. by rewrite /vn_of /name_of !omap_def. Qed.

Lemma remove_def xs (bs : seq (pbus C)) : List.NoDup xs -> (forall x, List.In x xs -> exists2 q, List.In q bs & pb_name q = x) -> exists bs', remove_buses xs bs = Some bs'.
Proof.
elim: xs bs => [|x xs IH] bs D H /=; first by exists bs.
inversion D as [|? ? N D']; subst; have [q I E] := H x (or_introl erefl).
have -> : has (fun b => String.eqb (pb_name b) x) bs by elim: (bs) I => //= c r IHr [->|/IHr ->]; rewrite ?orbT // E String.eqb_refl.
apply: IH => // y IY; have [q' I' E'] := H y (or_intror IY); exists q' => //; apply: in_filter' => //.
by apply/negP => /String.eqb_spec F; apply: N; rewrite -F E'.
Qed.
Lemma own_names_ids n (ids : seq nat) (xs : seq string) : own_ids n -> List.Forall2 (fun i x => name_of n i = Some x) ids xs -> List.NoDup ids <-> List.NoDup xs.
Proof.
move=> D F; elim: F => [|i x ids' xs' E F IH]; first by split; constructor.
split=> H; inversion H as [|? ? N H']; subst; constructor; try by apply/IH.
- move=> I; apply: N; have [j J Ej] := Forall2_inr F I; suff -> : i = j by [].
  by move/(name_of_at _ _ D): E; move/(name_of_at _ _ D): Ej => B A; exact: at_unique A B.
- move=> I; apply: N; have [y J Ey] := Forall2_inl F I; by move: Ey; rewrite E => -[->].
Qed.
Lemma Forall2_maps {A B A' B' : Type} (f : A -> A') (g : B -> B') (P : A' -> B' -> Prop) s t : List.Forall2 (fun a b => P (f a) (g b)) s t -> List.Forall2 P [seq f a | a <- s] [seq g b | b <- t].
Proof. by elim=> *; constructor. Qed.

Lemma import_buses_def n : own_ids n -> (exists bs, import_buses n = Some bs) <-> known n [seq ng_bus g | g <- n_gen n] /\ known n [seq ne_bus g | g <- n_ext n].
Proof.
move=> D.
have A : (exists t, traverse (fun g => omap (pair^~ (ng_vm g)) (name_of n (ng_bus g))) (n_gen n) = Some t) <-> known n [seq ng_bus g | g <- n_gen n].
  by apply: known_trav => // a; rewrite omap_def; exact: name_def.
have B : (exists t, traverse (fun g => omap (pair^~ (ne_vm g)) (name_of n (ne_bus g))) (n_ext n) = Some t) <-> known n [seq ne_bus g | g <- n_ext n].
  by apply: known_trav => // a; rewrite omap_def; exact: name_def.
rewrite -A -B /import_buses; split.
- by case=> bs; case: traverse => [a|] //; case: traverse => [b|] // _; split; eexists.
- by case=> -[a ->] [b ->]; eexists.
Qed.
Lemma import_gens_def n : own_ids n -> (exists bs, import_gens n = Some bs) <-> known n [seq ng_bus g | g <- n_gen n] /\ known n [seq ns_bus g | g <- n_sgen n] /\ known n [seq ne_bus g | g <- n_ext n].
Proof.
move=> D.
have A : (exists t, traverse (import_gen n) (n_gen n) = Some t) <-> known n [seq ng_bus g | g <- n_gen n].
  by apply: known_trav => // a; rewrite /import_gen omap_def; exact: name_def.
have B : (exists t, traverse (import_sgen n) (n_sgen n) = Some t) <-> known n [seq ns_bus g | g <- n_sgen n].
  by apply: known_trav => // a; rewrite /import_sgen omap_def; exact: name_def.
have E : (exists t, traverse (import_ext n) (n_ext n) = Some t) <-> known n [seq ne_bus g | g <- n_ext n].
  by apply: known_trav => // a; rewrite /import_ext omap_def; exact: name_def.
rewrite -A -B -E /import_gens; split.
- by case=> bs; case: traverse => [a|] //; case: traverse => [b|] //; case: traverse => [c|] // _; split; [|split]; eexists.
- by case=> -[a ->] [[b ->] [c ->]]; eexists.
Qed.
Lemma defined_net n e : own_ids n ->
  (exists p, import_from_pandapower_net pi n e = Some p) <-> (forall i, List.In i (references n) -> exists x, at_bus n i x) /\ List.NoDup [seq nw_element s | s <- switches n].
Proof.
move=> D; rewrite -/(known n (references n)) /references !known_cat.
have L : (exists t, traverse (import_load n) (n_load n) = Some t) <-> known n [seq nl_bus g | g <- n_load n].
  by apply: known_trav => // a; rewrite /import_load omap_def; exact: name_def.
have N : (exists t, traverse (import_line pi n e) (n_line n) = Some t) <-> known n [seq nn_from g | g <- n_line n] /\ known n [seq nn_to g | g <- n_line n].
  apply: known_trav2 => // a; rewrite -!name_def // /import_line.
  case A: (name_of n (nn_from a)) => [x|]; case B: (name_of n (nn_to a)) => [y|]; try by split=> // -[].
  by case V: vn_of => [v|]; [case: e|have := proj2 (vn_def n (nn_from a)); rewrite A V => H; case: H].
have T : (exists t, traverse (import_trafo n) (n_trafo n) = Some t) <-> known n [seq nt_hv g | g <- n_trafo n] /\ known n [seq nt_lv g | g <- n_trafo n].
  apply: known_trav2 => // a; rewrite -!name_def // /import_trafo.
  by case A: (name_of n (nt_hv a)) => [x|]; case B: (name_of n (nt_lv a)) => [y|]; try (by split=> // -[]); case: by_type.
have S : (exists t, traverse (import_shunt n) (n_shunt n) = Some t) <-> known n [seq nu_bus g | g <- n_shunt n].
  by apply: known_trav => // a; rewrite /import_shunt omap_def; exact: name_def.
have W : (exists t, to_replace n = Some t) <-> known n [seq nw_bus g | g <- switches n] /\ known n [seq nw_element g | g <- switches n].
  apply: known_trav2 => // a; rewrite -!name_def //.
  by case A: (name_of n (nw_bus a)) => [x|]; case B: (name_of n (nw_element a)) => [y|]; split=> // -[].
have B := import_buses_def D; have G := import_gens_def D.
have U rs : to_replace n = Some rs -> List.Forall2 (fun i x => name_of n i = Some x) [seq nw_element s | s <- switches n] [seq w.1 | w <- rs].
  move/traverse_some => F; apply: Forall2_maps; move: F; apply: Forall2_imp => s w _ _; by case: name_of => // a; case E': name_of => [b|] // [<-].
split.
- case=> p I; have [rs [bs [ls [gs [ns [ts [ss [[R B' X L'] [[G' N' T' S'] _]]]]]]]]] := pieces I; have [D' _] := remove_some X.
  have [|W1 W2] := proj1 W; first by exists rs. have [|N1 N2] := proj1 N; first by exists ns. have [|T1 T2] := proj1 T; first by exists ts.
  have [|G1 [G2 G3]] := proj1 G; first by exists gs.
  split; last by apply/(own_names_ids D (U _ R)).
  have K1 : known n [seq nl_bus l | l <- n_load n] by apply/L; exists ls.
  have K9 : known n [seq nu_bus l | l <- n_shunt n] by apply/S; exists ss.
  by repeat split.
- case=> -[K1 [K2 [K3 [K4 [K5 [K6 [K7 [K8 [K9 [K10 K11]]]]]]]]]] DD.
  have [bs Eb] := proj2 B (conj K2 K4); have [ls El] := proj2 L K1; have [|gs Eg] := proj2 G; first by split.
  have [ns En] := proj2 N (conj K5 K6); have [ts Et] := proj2 T (conj K7 K8); have [ss Es] := proj2 S K9; have [rs Er] := proj2 W (conj K10 K11).
  rewrite /import_from_pandapower_net /added Eb El Eg En Et Es Er /amalgamate /=.
  have [||bs' ->] := @remove_def [seq w.1 | w <- rs] bs; last by eexists.
    exact/(own_names_ids D (U _ Er)).
  move=> x IX; have [i II E] := Forall2_inr (U _ Er) IX; move: Eb; rewrite /import_buses; case: traverse => // ga; case: traverse => // ea [<-].
  move: E; rewrite /name_of; case F: bus_at => [b|] // [Ex]; have [Ib _] := bus_at_in F.
  eexists; first by apply: List.in_map; exact: Ib. by [].
Qed.
End P.

Section E.
Variable C : numClosedFieldType.
Variable pi : C.
Definition three : seq (nbus C) := [:: Nbus 0 "a" 10%:R; Nbus 1 "b" 10%:R; Nbus 2 "c" 10%:R].
Lemma three_own ls gs ss es ns ts us ws f : own_ids (Net three ls gs ss es ns ts us ws f).
Proof. by split; repeat constructor; move=> H; repeat (case: H => // H). Qed.
Lemma three_at ls gs ss es ns ts us ws f i x : at_bus (Net three ls gs ss es ns ts us ws f) i x -> (i, x) = (0%N, "a"%string) \/ (i, x) = (1%N, "b"%string) \/ (i, x) = (2%N, "c"%string).
Proof. by case=> b [/= [<-|[<-|[<-|[]]]] /= <- <-]; auto. Qed.
Lemma no_switch ls gs ss es ns ts us f : no_chain (Net three ls gs ss es ns ts us [::] f).
Proof. by move=> x y z [s [[]]]. Qed.

Definition double : nline C := Nline 0 1 "" 1 1 1 0 1 2%:R.
Definition double_net : net C := Net three [::] [::] [::] [::] [:: double] [::] [::] [::] 50%:R.
Lemma double_wrong : exists p q s, [/\ import_from_pandapower_net pi double_net true = Some p, p_lines p = [:: q], p_rates p = [:: s],
  l_r q + 'i * l_x q <> line_z double & s <> line_limit 10%:R double].
Proof.
rewrite /import_from_pandapower_net /=; do 3 eexists; split; [reflexivity|reflexivity|reflexivity| |]; cbn.
- rewrite /line_z /= !mulr1 => E; have h : 1 + 'i != 0 :> C by apply/eqP => H; have := congr1 (fun x => 'Re x) H; rewrite -['i]mulr1 Re_rect ?rpred1 // raddf0 => /eqP; rewrite oner_eq0.
  have := congr1 (fun x => x * 2%:R) E; rewrite divfK ?pnatr_eq0 // -[RHS]mulr1 => /(mulfI h) /eqP; rewrite -[X in _ == X]/(1%:R) eqr_nat //.
- rewrite /line_limit /= !mulr1 => /eqP; rewrite eq_sym -subr_eq0; have t0 : 10%:R != 0 :> C by rewrite pnatr_eq0.
  have -> : sqrtC 3%:R * 10%:R * 2%:R - 10%:R = 10%:R * (sqrtC 3%:R * 2%:R - 1) :> C by move: (sqrtC _) (10%:R) (2%:R) => a b c; rewrite mulrBr mulr1 mulrA [b * a]mulrC.
  rewrite mulf_eq0 (negbTE t0) /= subr_eq0 => /eqP E; have := congr1 (fun x => x ^+ 2) E; rewrite exprMn sqrtCK expr1n -natrX -natrM => /eqP; rewrite -[X in _ == X]/(1%:R) eqr_nat //.
Qed.
Lemma single_wrong : exists p q s, [/\ import_from_pandapower_net pi (Net three [::] [::] [::] [::] [:: Nline 0 1 "" 1 1 1 0 1 1] [::] [::] [::] 50%:R) true = Some p, p_lines p = [:: q], p_rates p = [:: s],
  l_r q + 'i * l_x q = line_z (Nline 0 1 "" 1 1 1 0 1 1) & s <> line_limit 10%:R (Nline 0 1 "" 1 1 1 0 1 1)].
Proof.
rewrite /import_from_pandapower_net /=; do 3 eexists; split; [reflexivity|reflexivity|reflexivity| |]; cbn.
- by rewrite /line_z /= !mulr1 divr1.
- rewrite /line_limit /= !mulr1; change (10%:R <> sqrtC 3%:R * 10%:R :> C) => /eqP; rewrite -{1}[10%:R]mul1r (inj_eq (mulIf _)) ?pnatr_eq0 // => /eqP E.
  have := congr1 (fun x => x ^+ 2) E; rewrite sqrtCK expr1n => /eqP; rewrite eq_sym -[X in _ == X]/(1%:R) eqr_nat //.
Qed.

Definition ten : ntrafo C := Ntrafo 0 1 None 10%:R 10%:R 0 0 1 0 None.
Definition ten_net : net C := Net three [::] [::] [::] [::] [::] [:: ten] [::] [::] 50%:R.
Lemma ten_wrong : exists p q x, [/\ import_from_pandapower_net pi ten_net false = Some p, p_trafos p = [:: q], tr_x q = Some x &
  forall y, ~ name_plate (plate_of ten) (tr_r q + 'i * x) y] /\ forall z, ~ name_plate (plate_of ten) z (tr_g q + 'i * tr_b q).
Proof.
have [p I] : exists p, import_from_pandapower_net pi ten_net false = Some p.
  apply/defined_net; first exact: three_own. split; last by constructor.
  by case=> [|[|i]] //= H; [exists "a"%string; eexists; split; [left; reflexivity|..]|exists "b"%string; eexists; split; [right; left; reflexivity|..]|case: H => // -[]].
have H : forall t, List.In t (n_trafo ten_net) -> nt_type t = None \/ nt_type t = Some ""%string by move=> t [<-|[]]; left.
have F := trafos_plain (three_own _ _ _ _ _ _ _ _ _) (@no_switch _ _ _ _ _ _ _ _) I H.
inversion F as [|? q ? r [_ [_ P]] F' E1 E2]; inversion F'; subst.
have p10 : 0 < 10%:R :> C by rewrite ltr0n. have h100 : 0 < 100%:R :> C by rewrite ltr0n.
have [|||||||x [[X1 X2 X3 X4] [Y1 Y2 Y3]]] := P; rewrite /= ?normr0 ?mul0r ?rpred0 ?ler0n ?divr_ge0 ?ler01 ?ltW //.
exists p, q, x; split=> //; first split=> //.
- move=> y [[Z _ _] _]; move: X2; rewrite normrM Z /= (gtr0_norm p10) => E.
  have h : 10%:R / 100%:R != 0 :> C by rewrite mulf_neq0 ?invr_eq0 ?pnatr_eq0.
  move: E; rewrite -[RHS]mulr1 => /(mulfI h) /eqP; rewrite -[X in _ == X]/(1%:R) eqr_nat //.
- move=> z [_ [_ A B]]; have Z : 'Im (tr_g q + 'i * tr_b q) = 0 by apply/eqP; rewrite eq_le Y3 B.
  have R0 : 'Re (tr_g q + 'i * tr_b q) = 0 by move/eqP: Y2; rewrite !mulf_eq0 /= !pnatr_eq0 /= !orbF => /eqP.
  have := A; rewrite /= [X in `|X|]Crect Z R0 mulr0 addr0 normr0 => /eqP; rewrite eq_sym mul1r invr_eq0 pnatr_eq0 //.
Qed.

Definition mixed_net : net C := Net three [::] [::] [::] [::] [::] [:: Ntrafo 0 1 (Some "T"%string) 1 1 0 0 1 0 None; Ntrafo 1 2 None 1 1 0 0 1 0 None] [::] [::] 50%:R.
Lemma mixed_wrong : exists p, import_from_pandapower_net pi mixed_net false = Some p /\
  forall lt tt, (forall t, List.In t tt -> tt_name t <> "0"%string) ->
    calculate_dependent_values pi {| buses := buses (as_network p); line_types := lt; transformer_types := tt; lines := p_lines p; transformers := p_trafos p;
                                     shunts := p_shunts p; links := [::]; stores := [::] |} = None.
Proof.
rewrite /import_from_pandapower_net /=; eexists; split; first reflexivity.
move=> lt tt H; apply/raises; right; eexists; split; [by right; left; reflexivity|by []|by move=> t /H].
Qed.

(* a load at c, c joined to b, b joined to a *)
Definition chain_net : net C := Net three [:: Nload 2 1 0 1] [::] [::] [::] [::] [::] [::] [:: Nswitch 1 2 "b" true; Nswitch 0 1 "b" true] 50%:R.
Lemma chain_wrong : exists p l, [/\ import_from_pandapower_net pi chain_net false = Some p, p_loads p = [:: l] & forall q, List.In q (p_buses p) -> pb_name q <> pl_bus l].
Proof. by rewrite /import_from_pandapower_net /=; do 2 eexists; split; [reflexivity|reflexivity|move=> q /= [<-|[]]]. Qed.
(* a generator at b holding 1.1, b joined to a *)
Definition held_net : net C := Net three [::] [:: Ngen 1 1 1 (11%:R / 10%:R)] [::] [::] [::] [::] [::] [:: Nswitch 0 1 "b" true] 50%:R.
Lemma held_chain : no_chain held_net.
Proof.
move=> x y z [s [[/= [<-|[]] _ _] [A B]]] [s' [[/= [<-|[]] _ _] [A' _]]]; move: B A' => /three_at B /three_at /=.
by move: B => /= [[->]|[[]|[]]] // [[]|[[]|[]]].
Qed.
Lemma held_wrong : exists p g q, [/\ import_from_pandapower_net pi held_net false = Some p, p_gens p = [:: g], List.In q (p_buses p), pb_name q = pg_bus g & pb_vset q <> 11%:R / 10%:R].
Proof.
rewrite /import_from_pandapower_net /=; do 3 eexists; split; [reflexivity|reflexivity|left; reflexivity|reflexivity|]; cbn.
change (1 <> 11%:R / 10%:R :> C) => E; have := congr1 (fun x => x * 10%:R) E; rewrite divfK ?pnatr_eq0 // mul1r => /eqP; rewrite eqr_nat //.
Qed.
Definition shunt_net : net C := Net three [::] [::] [::] [::] [::] [::] [:: Nshunt 0 0 1 10%:R] [::] 50%:R.
Lemma shunt_wrong : exists p s, [/\ import_from_pandapower_net pi shunt_net false = Some p, p_shunts p = [:: s] &
  10%:R * 1 * ((sh_g s + 'i * sh_b s) * (10%:R * 1))^* <> 0 + 'i * 1].
Proof.
have [p I] : exists p, import_from_pandapower_net pi shunt_net false = Some p.
  apply/defined_net; first exact: three_own. split; last by constructor.
  by move=> i [<-|[]]; exists "a"%string; eexists; split; [left; reflexivity|..].
have F := shunts_in (three_own _ _ _ _ _ _ _ _ _) (@no_switch _ _ _ _ _ _ _ _) I.
inversion F as [|? q ? r [_ P] F' E1 E2]; inversion F'; subst; exists p, q; split=> //.
rewrite P /= ?realn ?rpred0 ?rpred1 ?pnatr_eq0 // normr1 expr1n mul1r mulr1 sub0r add0r => /eqP; rewrite eq_sym -addr_eq0 -mulr2n mulrn_eq0 /= => H; by rewrite (negbTE (neq0Ci C)) in H.
Qed.
End E.
