From Coq Require Import ZArith List Lia Ring Field.
From Verif Require Import Assoc CyclesModel CyclesSpec CyclesProofs.
From mathcomp Require Import all_ssreflect all_algebra.
From Verif Require Import MCRing LinflowModel LinflowSpec LinflowProofs KvlModel KvlSpec.
Set Implicit Arguments. Unset Strict Implicit. Unset Printing Implicit Defensive.
Import Order.TTheory GRing.Theory Num.Theory.
Local Open Scope nat_scope.
Local Open Scope ring_scope.

Lemma eqbE (a b : nat) : Nat.eqb a b = (a == b).
Proof. by apply/idP/idP => [/Nat.eqb_spec->|/eqP->] //; apply/Nat.eqb_spec. Qed.

Lemma InP (T : eqType) (x : T) (s : seq T) : reflect (List.In x s) (x \in s).
Proof.
elim: s => [|y s IH] /=; first by apply: ReflectF.
rewrite in_cons; apply: (iffP orP) => -[].
- by move/eqP->; left. - by move/IH; right. - by move->; left. - by move/IH; right.
Qed.

Section ZF.
Variable F : fieldType.
Add Field FF6 : (field_th F).
Local Notation zF := (@zF F).

Lemma zF0 : zF 0 = 0. Proof. by rewrite /KvlModel.zF subrr. Qed.
Lemma zF1 : zF 1 = 1. Proof. by rewrite /KvlModel.zF subr0. Qed.
Lemma zFN1 : zF (-1) = -1. Proof. by rewrite /KvlModel.zF sub0r. Qed.
Lemma zFD a b : zF (a + b) = zF a + zF b.
Proof.
have E : (Z.to_nat (a + b) + (Z.to_nat (- a) + Z.to_nat (- b)))%N
       = (Z.to_nat (- (a + b)) + (Z.to_nat a + Z.to_nat b))%N.
  by rewrite -!plusE; lia.
have E' : (Z.to_nat (a + b))%:R + ((Z.to_nat (- a))%:R + (Z.to_nat (- b))%:R)
       = (Z.to_nat (- (a + b)))%:R + ((Z.to_nat a)%:R + (Z.to_nat b)%:R) :> F.
  by rewrite -!natrD E.
apply/eqP; rewrite -subr_eq0; apply/eqP; move/eqP: E'; rewrite -subr_eq0 => /eqP E'.
by rewrite -[RHS]E' /KvlModel.zF; fring F.
Qed.

Lemma zFN a : zF (- a) = - zF a.
Proof. by rewrite /KvlModel.zF Z.opp_involutive opprB. Qed.

Lemma zF_zsum g k : zF (zsum g k) = \sum_(l < k) zF (g l).
Proof.
elim: k => [|k IH] /=; first by rewrite big_ord0 zF0.
by rewrite zFD big_ord_recr /= IH.
Qed.

(* a column applied to a vector *)
Definition apply_col (col : seq (nat * Z)) (D : nat -> F) : F := \sum_(e <- col) zF e.2 * D e.1.

Lemma col_sum m (col : seq (nat * Z)) (D : nat -> F) :
  (forall l s, List.In (l, s) col -> (l < m)%N) ->
  \sum_(l < m) zF (col_entry col l) * D l = apply_col col D.
Proof.
elim: col => [|[k s] col IH] bd.
  by rewrite /apply_col big_nil big1 // => l _; rewrite zF0 mul0r.
rewrite /apply_col big_cons /=.
rewrite -/(apply_col col D) -IH; last by move=> l t h; apply: (bd l t); right.
have km : (k < m)%N by apply: (bd k s); left.
rewrite [\sum_(l < m) zF (if _ then _ else _) * _]
        (eq_bigr (fun l : 'I_m => (l == Ordinal km)%:R * (zF s * D l) + zF (col_entry col l) * D l)).
  rewrite big_split /=; congr (_ + _).
  rewrite (bigD1 (Ordinal km)) //= eqxx mul1r big1 ?addr0 // => l /negbTE->.
  by rewrite mul0r.
move=> l _; rewrite eqbE -val_eqE /= [k == l]eq_sym; case: (val l == k).
  by rewrite zFD mul1r mulrDl.
by rewrite mul0r add0r.
Qed.
End ZF.

Section Kvl.
Variable F : fieldType.
Add Field FF7 : (field_th F).
Variables n m : nat.
Variables b0 b1 : 'I_m -> 'I_(1 + n).
Local Notation brs := (branch_list b0 b1).

Lemma brs_size : List.length brs = m.
Proof. by rewrite -[List.length _]/(size _) size_map size_enum_ord. Qed.

Lemma brs_nth (l : 'I_m) :
  nth_error brs l = Some {| g0 := val (b0 l); g1 := val (b1 l); gfin := true |}.
Proof.
rewrite /branch_list.
have E : nth_error (enum 'I_m) l = Some l.
  have h : (l < size (enum 'I_m))%N by rewrite size_enum_ord.
  have N (T : eqType) (x : T) (t : seq T) i : (i < size t)%N -> nth_error t i = Some (nth x t i).
    by elim: t i => [|y t IH] [|i] //= h'; apply: IH.
  by rewrite (N _ l) // nth_ord_enum.
exact: (map_nth_error _ _ _ E).
Qed.

Lemma brs_nth_inv k b : nth_error brs k = Some b -> exists2 l : 'I_m, val l = k
    & b = {| g0 := val (b0 l); g1 := val (b1 l); gfin := true |}.
Proof.
move=> e; have km : (k < m)%N.
  apply/ssrnat.ltP; rewrite -brs_size; apply/nth_error_Some; by rewrite e.
by exists (Ordinal km) => //; have := brs_nth (Ordinal km); rewrite /= e => -[].
Qed.

Lemma keysP u v k : List.In k (keys brs u v) <->
  exists2 l : 'I_m, val l = k & (val (b0 l) = u /\ val (b1 l) = v) \/ (val (b0 l) = v /\ val (b1 l) = u).
Proof.
rewrite keys_In; split.
- by move=> [b [/brs_nth_inv[l e ->] [_ /= h]]]; exists l.
- move=> [l <- h]; exists {| g0 := val (b0 l); g1 := val (b1 l); gfin := true |}.
  by rewrite brs_nth.
Qed.

(* voltage drop from u to v over the first branch between them *)
Definition dd (D : nat -> F) (u v : nat) : F :=
  match keys brs u v with
  | k :: _ => (match g0_at brs k with Some x => if Nat.eqb x u then 1 else -1 | None => -1 end) * D k
  | [::] => 0
  end.

Lemma walk_sum (D : nat -> F) ps col :
  walk_column brs ps = Some col -> apply_col col D = \sum_(p <- ps) dd D p.1 p.2.
Proof.
elim: ps col => [|[u v] ps IH] col /=.
  by case=> <-; rewrite /apply_col !big_nil.
rewrite big_cons /dd /=; case: (keys brs u v) => [//|k ks].
case: (walk_column brs ps) IH => [c|//] IH [<-].
rewrite /apply_col big_cons /= -(IH c) // -/(apply_col c D); congr (_ * _ + _).
by case: (g0_at brs k) => [x|]; rewrite ?zFN1 //; case: (Nat.eqb x u); rewrite ?zF1 ?zFN1.
Qed.

Lemma pairs_steps c : cyclic_pairs c = steps c.
Proof.
case: c => [|x c] //; rewrite /cyclic_pairs /steps rot1_cons -cats1.
have E (s t : seq nat) : combine s t = zip s t by elim: s t => [|a s IH] [|b t] //=; rewrite IH.
by rewrite E.
Qed.

Lemma seq_nth (A : Type) (l : list (option A)) r j :
  sequence l = Some r -> (j < size l)%N -> exists x, nth_error r j = Some x /\ nth_error l j = Some (Some x).
Proof.
elim: l r j => [|[x|] l IH] r j //=.
case: (sequence l) IH => [r'|//] IH [<-].
case: j => [|j] jl; first by exists x.
by have [y [? ?]] := IH r' j (erefl _) jl; exists y.
Qed.

Lemma walk_in cycles cols c : find_cycles brs cycles = Some cols -> List.In c cycles ->
  exists2 col, List.In col cols & walk_column brs (steps c) = Some col.
Proof.
rewrite /find_cycles.
case E : (sequence _) => [cs|] //= [<-] ci.
have [j jc] := In_nth_error _ _ ci.
have jl : (j < size [seq walk_column brs (cyclic_pairs c) | c <- cycles])%N.
  apply/ssrnat.ltP; apply/nth_error_Some.
  by rewrite (map_nth_error (fun c => walk_column brs (cyclic_pairs c)) _ _ jc).
have [x [x1 x2]] := seq_nth E jl.
exists x; first by apply: in_or_app; left; exact: nth_error_In x1.
rewrite -pairs_steps.
by move: x2; rewrite (map_nth_error (fun c => walk_column brs (cyclic_pairs c)) _ _ jc) => -[].
Qed.

Hypothesis noself : forall l, b0 l != b1 l.

Lemma dd_anti D u v : dd D u v = - dd D v u.
Proof.
rewrite /dd keys_sym; case E : (keys brs v u) => [|k ks]; first by rewrite oppr0.
have : List.In k (keys brs v u) by rewrite E; left.
case/keysP => l <- h; rewrite /g0_at brs_nth /= !eqbE.
have := noself l; rewrite -val_eqE.
case: h => -[<- <-] nb; rewrite ?eqxx.
- by rewrite (negbTE nb) mulN1r mul1r.
- by rewrite (negbTE nb) mulN1r mul1r opprK.
Qed.

Lemma dd_first D (l : 'I_m) ks : keys brs (b0 l) (b1 l) = val l :: ks -> dd D (b0 l) (b1 l) = D l.
Proof. by move=> E; rewrite /dd E /g0_at brs_nth /= eqbE eqxx mul1r. Qed.

Lemma dd_adj D (l : 'I_m) cols cycles :
  find_cycles brs cycles = Some cols -> (forall col, List.In col cols -> apply_col col D = 0) ->
  dd D (b0 l) (b1 l) = D l.
Proof.
move=> fc kv.
have Il : List.In (val l) (keys brs (b0 l) (b1 l)) by apply/keysP; exists l => //; left.
case E : (keys brs (b0 l) (b1 l)) Il => [|k ks] //= [kl|lk].
  by rewrite -kl in E *; rewrite /dd E /g0_at kl brs_nth /= eqbE eqxx mul1r.
have : List.In k (keys brs (b0 l) (b1 l)) by rewrite E; left.
move=> /[dup] kin /keysP[f fk fe].
have Kf : keys brs (b0 f) (b1 f) = k :: ks.
  by rewrite -E; case: fe => -[-> ->] //; rewrite keys_sym.
pose col : list (nat * Z) :=
  (k, Zpos xH) :: (val l, if Nat.eqb (val (b0 l)) (val (b0 f)) then Zneg xH else Zpos xH) :: nil.
have cin : List.In col (multi_columns brs).
  apply/multi_In; exists k, {| g0 := val (b0 f); g1 := val (b1 f); gfin := true |}, k, ks, (val l),
    {| g0 := val (b0 l); g1 := val (b1 l); gfin := true |}.
  by rewrite -{1}fk !brs_nth.
have : apply_col col D = 0.
  apply: kv; move: fc; rewrite /find_cycles; case: (sequence _) => [cs|] //= [<-].
  by apply: in_or_app; right.
rewrite /apply_col !big_cons big_nil /= zF1 mul1r addr0 eqbE val_eqE.
rewrite /dd E /g0_at -fk brs_nth /= eqbE val_eqE [b0 f == _]eq_sym.
case: (b0 l == b0 f).
  by rewrite zFN1 mulN1r mul1r => /eqP; rewrite subr_eq0 => /eqP.
by rewrite zF1 mul1r mulN1r => /eqP; rewrite addrC addr_eq0 => /eqP->.
Qed.

(* pairs u < v joined by a branch *)
Definition E : {set 'I_(1 + n) * 'I_(1 + n)} :=
  [set p : 'I_(1 + n) * 'I_(1 + n) | (p.1 < p.2)%N && adj b0 b1 p.1 p.2].

Lemma adj_neq u v : adj b0 b1 u v -> u != v.
Proof.
case/existsP => l /orP[]/andP[/eqP<- /eqP<-]; first exact: noself.
by rewrite eq_sym; exact: noself.
Qed.

Lemma adj_E u v : adj b0 b1 u v -> ((u, v) \in E) || ((v, u) \in E).
Proof.
move=> a; rewrite !inE /= a adj_sym a !andbT -neq_ltn.
exact: (adj_neq a).
Qed.

Lemma sum_steps (d : nat -> nat -> F) (ps : seq (nat * nat)) :
  (forall u v, d u v = - d v u) ->
  (forall u v, (u, v) \in ps -> exists u' v' : 'I_(1 + n), [/\ val u' = u, val v' = v & adj b0 b1 u' v']) ->
  \sum_(p <- ps) d p.1 p.2 =
  \sum_(x in E) ((count (pred1 (val x.1, val x.2)) ps)%:R - (count (pred1 (val x.2, val x.1)) ps)%:R)
     * d x.1 x.2.
Proof.
move=> anti; elim: ps => [|[u v] ps IH] h.
  by rewrite big_nil big1 // => x _; rewrite subrr mul0r.
rewrite big_cons IH /=; last by move=> a b ab; apply: h; rewrite in_cons ab orbT.
have [u' [v' [eu ev a]]] := h u v (mem_head _ _).
have Z : d u v = \sum_(x in E) (((u, v) == (val x.1, val x.2))%:R - ((u, v) == (val x.2, val x.1))%:R)
     * d x.1 x.2.
  have sw : forall x : 'I_(1 + n) * 'I_(1 + n), ((u, v) == (val x.1, val x.2)) = (x == (u', v')).
    by move=> [x y]; rewrite -eu -ev !xpair_eqE !val_eqE /= [u' == _]eq_sym [v' == _]eq_sym.
  have sw' : forall x : 'I_(1 + n) * 'I_(1 + n), ((u, v) == (val x.2, val x.1)) = (x == (v', u')).
    by move=> [x y]; rewrite -eu -ev !xpair_eqE !val_eqE /= andbC [u' == _]eq_sym [v' == _]eq_sym.
  have nu := adj_neq a.
  under eq_bigr => x _ do rewrite sw sw'.
  case/orP: (adj_E a) => i; rewrite (bigD1 _ i) /= eqxx !xpair_eqE.
  - rewrite [v' == u']eq_sym (negbTE nu) /= subr0 mul1r big1 ?addr0 ?eu ?ev // => x /andP[xE xn].
    rewrite (negbTE xn); case: eqP => [ex|_]; last by rewrite subrr mul0r.
    have xE' : x \in E := xE.
    move: xE' i; rewrite ex !inE /= => /andP[l1 _] /andP[l2 _].
    by have := ltn_trans l1 l2; rewrite ltnn.
  - rewrite [v' == u']eq_sym (negbTE nu) /= sub0r mulN1r eu ev -anti big1 ?addr0 // => x /andP[xE xn].
    rewrite (negbTE xn); case: eqP => [ex|_]; last by rewrite subrr mul0r.
    have xE' : x \in E := xE.
    move: xE' i; rewrite ex !inE /= => /andP[l1 _] /andP[l2 _].
    by have := ltn_trans l1 l2; rewrite ltnn.
rewrite Z -big_split /=; apply: eq_bigr => x _.
by rewrite -mulrDl !natrD opprD addrACA.
Qed.

Lemma count_ext (ps : seq (nat * nat)) p : (count (pred1 p) ps) = count_mem p ps.
Proof. by []. Qed.

Lemma basis_potential (cycles : seq (seq nat)) (d : nat -> nat -> F) :
  cycle_basis F b0 b1 cycles ->
  (forall u v, d u v = - d v u) ->
  (forall c, c \in cycles -> \sum_(p <- steps c) d p.1 p.2 = 0) ->
  exists th : 'I_(1 + n) -> F, forall u v, adj b0 b1 u v -> d u v = th u - th v.
Proof.
move=> [walks span] anti dz.
pose e0 (l : 'I_#|E|) := (enum_val l).1; pose e1 (l : 'I_#|E|) := (enum_val l).2.
pose C : 'M[F]_(#|E|, size cycles) := \matrix_(l, j) turns F (nth [::] cycles j) (e0 l) (e1 l).
pose f : 'cV[F]_#|E| := \col_l d (e0 l) (e1 l).
have kv : kvl (fun=> 1) C 1 f.
  move=> j; have cj : nth [::] cycles j \in cycles by rewrite mem_nth.
  rewrite -[RHS](dz _ cj) (sum_steps anti); last first.
    move=> u v uv; have [l h] := walks _ _ _ cj uv.
    case: h => -[eu ev].
      by exists (b0 l), (b1 l); split=> //; exact: adj_ends.
    by exists (b1 l), (b0 l); split=> //; rewrite adj_sym; exact: adj_ends.
  rewrite [RHS]big_enum_val /=; apply: eq_bigr => l _.
  by rewrite !mxE mul1r mul1r.
have sp : forall g : 'I_#|E| -> F, circulation e0 e1 g ->
    exists w : 'I_(size cycles) -> F, forall l, g l = \sum_j C l j * w j.
  move=> g gc.
  have [E0|[l0 l0E]] := set_0Vmem E.
    exists (fun=> 0) => l; exfalso; have := enum_valP l; move: (enum_val l) => y; by rewrite E0 inE.
  pose G (x : 'I_(1 + n) * 'I_(1 + n)) : F := if x \in E then g (enum_rank_in l0E x) else 0.
  have Gv l : G (enum_val l) = g l by rewrite /G enum_valP enum_valK_in.
  pose h u v := G (u, v) - G (v, u).
  have hc : simple_circulation b0 b1 h.
    split; [|split].
    - by move=> u v; rewrite /h opprB.
    - move=> u v na; have na' : ~~ adj b0 b1 v u by rewrite adj_sym.
      by rewrite /h /G !inE /= (negbTE na) (negbTE na') !andbF subrr.
    - move=> u; rewrite sumrB; have := gc u; rewrite /outflow.
      have A (P : pred ('I_(1 + n) * 'I_(1 + n))) :
         \sum_(l | P (enum_val l)) g l = \sum_(x | P x) G x.
        rewrite [RHS](bigID (mem E)) /= [X in _ + X]big1; last by move=> x /andP[_ /negbTE xn]; rewrite /G xn.
        rewrite addr0 (eq_bigl (fun x => (x \in E) && P x)); last by move=> x; rewrite andbC.
        rewrite big_mkcondr /= [RHS]big_enum_val [LHS]big_mkcond /=.
        by apply: eq_bigr => l _; rewrite Gv.
      rewrite (A (fun x => x.1 == u)) (A (fun x => x.2 == u)).
      have B1 : \sum_(x | x.1 == u) G x = \sum_v G (u, v).
        rewrite (eq_bigl (fun x : 'I_(1 + n) * 'I_(1 + n) => (x.1 == u) && true)); last by move=> x; rewrite andbT.
        by rewrite (eq_bigr (fun x => G (x.1, x.2))) => [|[]] //; rewrite -(pair_big (pred1 u) xpredT (fun a b => G (a, b))) /= big_pred1_eq.
      have B2 : \sum_(x | x.2 == u) G x = \sum_v G (v, u).
        rewrite (eq_bigr (fun x => G (x.1, x.2))) => [|[]] //.
        rewrite (eq_bigl (fun x : 'I_(1 + n) * 'I_(1 + n) => true && (x.2 == u))) // -(pair_big xpredT (pred1 u) (fun a b => G (a, b))) /=.
        by apply: eq_bigr => i _; rewrite big_pred1_eq.
      by rewrite B1 B2.
  have [w hw] := span h hc.
  exists (fun j => w j) => l.
  transitivity (h (e0 l) (e1 l)).
    rewrite /h /e0 /e1 -surjective_pairing Gv /G.
    have -> : ((enum_val l).2, (enum_val l).1) \in E = false; last by rewrite subr0.
    apply/negP => h1; move: (enum_valP l) h1; rewrite !inE /= => /andP[l1 _] /andP[l2 _].
    by have := ltn_trans l1 l2; rewrite ltnn.
  by rewrite hw; apply: eq_bigr => j _; rewrite mxE mulrC.
have [th o] := kvl_ohm (oner_neq0 F) sp kv.
have on u v : (u, v) \in E -> d u v = th u - th v.
  move=> uv; have := o (enum_rank_in uv (u, v)).
  by rewrite mul1r subr0 mxE /e0 /e1 enum_rankK_in.
exists th => u v /adj_E/orP[] i; first exact: on.
by rewrite anti (on _ _ i) opprB.
Qed.

Variable z : 'I_m -> F.
Variable s : F.
Hypothesis sn : s != 0.

Definition ext (f : 'I_m -> F) (k : nat) : F := if insub k is Some l then f l else 0.
Lemma extE f (l : 'I_m) : ext f l = f l. Proof. by rewrite /ext valK. Qed.

Lemma term_col cycles cols col (f : 'I_m -> F) :
  find_cycles brs cycles = Some cols -> List.In col cols ->
  \sum_l kvl_term z xpredT s col f l = s * apply_col col (ext (fun l => z l * f l)).
Proof.
move=> fc ci; rewrite -(@col_sum _ m); last first.
  move=> l t h; apply/ssrnat.ltP; rewrite -brs_size.
  exact: (find_cycles_bound _ _ _ _ _ _ fc ci h).
rewrite mulr_sumr; apply: eq_bigr => l _; rewrite /kvl_term /= extE; by fring F.
Qed.

Lemma kvl_iff cycles cols (f : 'I_m -> F) :
  find_cycles brs cycles = Some cols -> cycle_basis F b0 b1 cycles ->
  kvl_constraints z xpredT s cols f <-> exists th, ohm b0 b1 z (fun=> 0) th f.
Proof.
move=> fc bas; split.
- move=> kv.
  have kv' : forall col, List.In col cols -> apply_col col (ext (fun l => z l * f l)) = 0.
    move=> col ci; have := kv col ci; rewrite (term_col _ fc ci) => /eqP.
    by rewrite mulf_eq0 (negbTE sn) => /eqP.
  have [] := @basis_potential cycles (dd (ext (fun l => z l * f l))) bas.
  + exact: dd_anti.
  + move=> c cc; have [col ci w] := walk_in fc (elimT (InP _ _) cc).
    by rewrite -(walk_sum _ w); exact: kv'.
  move=> th ht; exists th => l; rewrite subr0 -(ht _ _ (adj_ends b0 b1 l)).
  by rewrite (dd_adj l fc kv') extE.
- move=> [th o] col ci; rewrite (term_col _ fc ci).
  rewrite -(@col_sum _ m); last first.
    by move=> l t h; apply/ssrnat.ltP; rewrite -brs_size; exact: (find_cycles_bound _ _ _ _ _ _ fc ci h).
  rewrite (eq_bigr (fun l : 'I_m => zF F (col_entry col l) * (th (b0 l) - th (b1 l)))); last first.
    by move=> l _; rewrite extE o subr0.
  rewrite tellegen big1 ?mulr0 // => i _.
  suff -> : outflow b0 b1 (fun l : 'I_m => zF F (col_entry col l)) i = 0 by rewrite mulr0.
  rewrite outflowE.
  have := find_cycles_dense _ _ _ _ (val i) fc ci; rewrite brs_size => /(congr1 (zF F)).
  rewrite zF_zsum zF0 => E0; rewrite -[RHS]E0; apply: eq_bigr => l _.
  rewrite /inc brs_nth /= !eqbE !val_eqE /delta.
  case: (b0 l == i); case: (b1 l == i); rewrite ?subrr ?subr0 ?sub0r ?mul0r ?mul1r ?zF0 ?mulN1r //.
  - by rewrite Z.mul_1_l.
  - by rewrite -[Z.sub 0 1]/(Z.opp 1) Z.mul_opp_l Z.mul_1_l zFN.
Qed.
End Kvl.

Lemma kvl_lpf (F : realFieldType) (n m : nat) (b0 b1 : 'I_m -> 'I_(1 + n)) (z : 'I_m -> F) (s : F)
      cycles cols (p : 'cV[F]_(1 + n)) (f : 'I_m -> F) :
  (forall l, b0 l != b1 l) -> s != 0 -> (forall l, 0 < z l) -> connected b0 b1 ->
  find_cycles (branch_list b0 b1) cycles = Some cols -> cycle_basis F b0 b1 cycles ->
  \sum_i p i ord0 = 0 ->
  (kvl_constraints z xpredT s cols f /\ balanced_at b0 b1 (fun i => p i ord0) f <->
   forall l, f l = branch_p0 b0 b1 z (fun=> 0) p l).
Proof.
move=> ns sn zp C fc bas S.
have zn l : z l != 0 by rewrite gt_eqF.
have U := connected_unit zp C.
have D := lpf_dc_flow (fun=> 0) U zn p; rewrite (bus_p_balanced S) in D.
split.
- move=> [kv bal]; apply: (dc_flow_unique U zn _ D); split=> //.
  by apply/(kvl_iff ns z sn f fc bas).
- move=> E; have [k o] := D; split.
  + apply/(kvl_iff ns z sn f fc bas); have [th ot] := o.
    by exists th => l; rewrite E; exact: ot.
  + by move=> i; rewrite -(k i) !outflowE; apply: eq_bigr => l _; rewrite E.
Qed.

Lemma tri_list : branch_list tri0 tri1 =
  [:: {| g0 := 0; g1 := 1; gfin := true |}; {| g0 := 1; g1 := 2; gfin := true |};
      {| g0 := 2; g1 := 0; gfin := true |}]%N.
Proof.
rewrite /branch_list; have -> : enum 'I_3 = [:: tr 0; tr 1; tr 2].
  by apply: (inj_map val_inj); rewrite val_enum_ord.
by [].
Qed.

Lemma tri_noself l : tri0 l != tri1 l.
Proof. by case: l => [[|[|[|l]]] // h]. Qed.

Lemma tri_basis : cycle_basis rat_fieldType tri0 tri1 [:: [:: 0; 1; 2]]%N.
Proof.
split.
- move=> c u v; rewrite inE => /eqP->; rewrite !inE => /orP[|/orP[|]]; rewrite xpair_eqE => /andP[/eqP-> /eqP->].
  + by exists (tr 0); left. + by exists (tr 1); left. + by exists (tr 2); left.
- move=> h [anti [off cons]].
  exists (fun=> h (tr 0) (tr 1)) => u v; rewrite big_ord1 /=.
  have z0 i : h i i = 0.
    by apply: off; apply/negP => /(adj_neq tri_noself); rewrite eqxx.
  have h02 : h (tr 2) (tr 0) = h (tr 0) (tr 1).
    have := cons (tr 0); rewrite !big_ord_recl big_ord0 addr0.
    have -> : h (tr 0) ord0 = 0 by exact: z0.
    rewrite add0r (_ : lift ord0 ord0 = tr 1); last exact: val_inj.
    rewrite (_ : lift ord0 (lift ord0 ord0) = tr 2); last exact: val_inj.
    by rewrite [h (tr 0) (tr 2)]anti => /eqP; rewrite subr_eq0 => /eqP.
  have h12 : h (tr 1) (tr 2) = h (tr 0) (tr 1).
    have := cons (tr 1); rewrite !big_ord_recl big_ord0 addr0.
    rewrite (_ : lift ord0 ord0 = tr 1); last exact: val_inj.
    rewrite (_ : lift ord0 (lift ord0 ord0) = tr 2); last exact: val_inj.
    have -> : h (tr 1) (tr 1) = 0 by exact: z0.
    rewrite add0r (_ : ord0 = tr 0); last exact: val_inj.
    by rewrite [h (tr 1) (tr 0)]anti addrC => /eqP; rewrite subr_eq0 => /eqP.
  have cases (i : 'I_(1 + 2)) : [\/ i = tr 0, i = tr 1 | i = tr 2].
    case: i => [[|[|[|i]]] // hi].
    - by apply: Or31; apply: val_inj. - by apply: Or32; apply: val_inj. - by apply: Or33; apply: val_inj.
  by case: (cases u) => ->; case: (cases v) => ->; rewrite ?z0 /turns /= ?subrr ?mulr0 // ?subr0 ?sub0r ?mulr1
       ?mulrN1 ?h02 ?h12 //; rewrite anti ?h02 ?h12.
Qed.

Lemma triangle_basis :
  (forall l, tri0 l != tri1 l) /\ cycle_basis rat_fieldType tri0 tri1 [:: [:: 0; 1; 2]]%N /\
  exists cols, find_cycles (branch_list tri0 tri1) [:: [:: 0; 1; 2]]%N = Some cols /\ List.length cols = 1%N.
Proof.
split; first exact: tri_noself.
split; first exact: tri_basis.
by rewrite tri_list; eexists; split; [vm_compute; reflexivity|].
Qed.

Lemma tri_cols : find_cycles (branch_list tri0 tri1) [:: [:: 0; 1; 2]]%N
  = Some [:: [:: (0%N, Zpos xH); (1%N, Zpos xH); (2%N, Zpos xH)]].
Proof. by rewrite tri_list. Qed.

Lemma kvl_inactive :
  exists (n m : nat) (b0 b1 : 'I_m -> 'I_(1 + n)) (z : 'I_m -> rat) (active : 'I_m -> bool)
         (cycles : list (list nat)) (cols : list (list (nat * Z))) (f : 'I_m -> rat) (th : 'I_(1 + n) -> rat),
    (forall l, b0 l != b1 l) /\ (forall l, 0 < z l) /\
    find_cycles (branch_list b0 b1) cycles = Some cols /\ cycle_basis rat_fieldType b0 b1 cycles /\
    (forall l, active l -> z l * f l = th (b0 l) - th (b1 l)) /\ (forall l, ~~ active l -> f l = 0) /\
    (forall s, s != 0 -> ~ kvl_constraints z active s cols f).
Proof.
exists 2%N, 3%N, tri0, tri1, (fun=> 1), (fun l => val l != 2%N), [:: [:: 0; 1; 2]]%N,
  [:: [:: (0%N, Zpos xH); (1%N, Zpos xH); (2%N, Zpos xH)]],
  (fun l => if val l == 2%N then 0 else 1), (fun i => (2 - val i)%:R).
split; first exact: tri_noself.
split=> //; split; first exact: tri_cols.
split; first exact: tri_basis.
split; first by case=> [[|[|[|l]]] // h] _; apply/eqP.
split; first by move=> l; rewrite negbK => ->.
move=> s sn /(_ _ (or_introl (erefl _))).
rewrite !big_ord_recl big_ord0 /kvl_term /= !zF1 !mulr1 addr0 addr0.
by move/eqP; rewrite -mulr2n mulrn_eq0 /= (negbTE sn).
Qed.

Lemma kvl_phase_shift :
  exists (n m : nat) (b0 b1 : 'I_m -> 'I_(1 + n)) (z shift : 'I_m -> rat)
         (cycles : list (list nat)) (cols : list (list (nat * Z))) (f : 'I_m -> rat) (th : 'I_(1 + n) -> rat),
    (forall l, b0 l != b1 l) /\ (forall l, 0 < z l) /\
    find_cycles (branch_list b0 b1) cycles = Some cols /\ cycle_basis rat_fieldType b0 b1 cycles /\
    ohm b0 b1 z shift th f /\ (forall s, s != 0 -> ~ kvl_constraints z xpredT s cols f).
Proof.
exists 2%N, 3%N, tri0, tri1, (fun=> 1), (fun l => if val l == 2%N then 1 else 0), [:: [:: 0; 1; 2]]%N,
  [:: [:: (0%N, Zpos xH); (1%N, Zpos xH); (2%N, Zpos xH)]],
  (fun l => if val l == 2%N then -1 else 0), (fun=> 0).
split; first exact: tri_noself.
split=> //; split; first exact: tri_cols.
split; first exact: tri_basis.
split; first by case=> [[|[|[|l]]] // h]; apply/eqP.
move=> s sn /(_ _ (or_introl (erefl _))).
rewrite !big_ord_recl big_ord0 /kvl_term /= !zF1 !mulr1 !mulr0 !add0r addr0 mulrN1.
by move/eqP; rewrite oppr_eq0 (negbTE sn).
Qed.
