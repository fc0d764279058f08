From Coq Require Import String ZArith List.
From Verif Require Import CyclesModel KvlModel KvlSpec KvlProofs.
From mathcomp Require Import all_ssreflect all_algebra.
From Verif Require Import MCRing LinflowModel LinflowSpec LinflowProofs SecureModel SecureSpec.
Set Implicit Arguments. Unset Strict Implicit. Unset Printing Implicit Defensive.
Import Order.TTheory GRing.Theory Num.Theory.
Local Open Scope nat_scope.
Local Open Scope ring_scope.

Lemma label_eqP a b : label_eqb a b = true <-> a = b.
Proof.
case: a b => [x|c x] [y|d y] //=; split=> [|[]] //.
- by move=> /String.eqb_eq ->.
- by move=> ->; rewrite String.eqb_refl.
- by case/andP => /String.eqb_eq -> /String.eqb_eq ->.
- by move=> -> ->; rewrite !String.eqb_refl.
Qed.
Lemma bkey_eqP a b : bkey_eqb a b = true <-> a = b.
Proof.
case: a b => [c x] [d y]; rewrite /bkey_eqb /=; split=> [|[]].
- by case/andP => /String.eqb_eq -> /label_eqP ->.
- by move=> -> ->; rewrite String.eqb_refl; apply/label_eqP.
Qed.
Lemma isinP k ks : isin k ks = true <-> List.In k ks.
Proof.
elim: ks => [|x ks IH] //=; split.
- by case/orP => [/bkey_eqP ->|/IH]; [left|right].
- by case=> [->|/IH ->]; rewrite ?orbT //; apply/orP; left; apply/bkey_eqP.
Qed.

Lemma all_In (A : Type) (P : A -> bool) (xs : seq A) : all P xs <-> (forall x, List.In x xs -> P x).
Proof.
elim: xs => [|x xs IH] //=; split.
- by case/andP => px /IH H y [<-|/H].
- by move=> H; apply/andP; split; [apply: H; left|apply/IH => y I; apply: H; right].
Qed.
Lemma has_In (A : Type) (P : A -> bool) (xs : seq A) : has P xs -> exists2 x, List.In x xs & P x.
Proof.
elim: xs => [|x xs IH] //= /orP[px|/IH[y I py]]; first by exists x => //; left.
by exists y => //; right.
Qed.
Lemma In_cat (A : Type) (x : A) (xs ys : seq A) : List.In x (xs ++ ys) <-> List.In x xs \/ List.In x ys.
Proof. by elim: xs => [|y xs IH] /=; [tauto|rewrite IH; tauto]. Qed.
Lemma In_map (A B : Type) (g : A -> B) y xs : List.In y [seq g x | x <- xs] <-> exists2 x, List.In x xs & y = g x.
Proof.
elim: xs => [|x xs IH] /=; first by split=> // -[].
rewrite IH; split.
- by case=> [<-|[w I ->]]; [exists x => //; left|exists w => //; right].
- by case=> w [<- ->|I ->]; [left|right; exists w].
Qed.
Lemma In_flatten (A : Type) (x : A) xss : List.In x (flatten xss) <-> exists2 xs, List.In xs xss & List.In x xs.
Proof.
elim: xss => [|xs xss IH] /=; first by split=> // -[].
rewrite In_cat IH; split.
- by case=> [I|[ys J I]]; [exists xs => //; left|exists ys => //; right].
- by case=> ys [<-|J] I; [left|right; exists ys].
Qed.
Lemma In_mem (T : eqType) (x : T) xs : List.In x xs <-> x \in xs.
Proof.
elim: xs => [|y xs IH] //=; rewrite inE IH; split.
- by case=> [->|->]; rewrite ?eqxx ?orbT.
- by case/orP => [/eqP ->|]; [left|right].
Qed.

Section Select.
Lemma select_none al : select al NoOutages = Some al. Proof. by []. Qed.
Lemma select_names al xs ks :
  select al (Listed [seq Name x | x <- xs]) = Some ks <->
  (forall x, List.In x xs -> List.In ("Line"%string, Name x) al) /\ ks = [seq ("Line"%string, Name x) | x <- xs].
Proof.
rewrite /select -!map_comp; case: ifP => [/all_In H|N]; split.
- move=> [<-]; split=> // x I; apply/isinP; apply: H; apply/In_map.
  by exists x.
- by case=> _ ->.
- by [].
- case=> H _; exfalso; move/negP: N; apply; apply/all_In => k /In_map[x I ->]; apply/isinP; exact: H.
Qed.
Lemma select_multi al xs :
  (forall k, List.In k al -> exists c x, k = (c, Name x)) -> xs <> [::] ->
  select al (Listed [seq Tuple x.1 x.2 | x <- xs]) = None.
Proof.
move=> N; case: xs => [|[c x] xs] // _; rewrite /select /=.
case I: (isin _ _) => //=.
by have [d [y]] := N _ (proj1 (isinP _ _) I).
Qed.
End Select.

Section Proofs.
Variable F : realFieldType.
Variables n m : nat.
Variables b0 b1 : 'I_m -> 'I_(1 + n).
Variable z : 'I_m -> F.
Variable key : 'I_m -> bkey.
Variable off : seq bkey.
Variable ext : 'I_m -> bool.
Variables pu nom f cap loss : 'I_m -> F.
Local Notation sec := (security_constraints b0 b1 z key ext pu nom f cap loss).
Local Notation tpl := (template ext pu nom f cap loss).
Local Notation outs := (outages key).

Lemma in_outages sel k : k \in outs sel <-> List.In (key k) sel.
Proof. by rewrite mem_filter mem_enum andbT; exact: isinP. Qed.

Lemma in_classes ls l : l \in ls -> exists2 c, List.In c (classes key ls) & of_class key c l.
Proof.
elim: ls => [|x ls IH] //; rewrite inE => /orP[/eqP <-|I] /=.
- case: ifP => [|_]; last by exists (key l).1; [left|rewrite /of_class String.eqb_refl].
  by case/has_In => c I E; exists c.
- have [c J E] := IH I; exists c => //.
  by case: ifP => // _; right.
Qed.

Definition secured (b : bool) l k : con F :=
  Con (clhs (tpl b l) + BODF b0 b1 z l k * f k) (cge (tpl b l)) (crhs (tpl b l)).

Lemma secP sel c : List.In c (sec sel) <-> exists b l k, List.In (key k) sel /\ c = secured b l k.
Proof.
split.
- rewrite /security_constraints In_flatten => -[cs1 /In_map[[co ca] _ ->]].
  rewrite In_flatten => -[cs2 /In_map[[b e] _ ->]].
  move=> /In_flatten[cs3 /In_map[l _ ->]] /In_map[k /In_mem Ik ->].
  exists b, l, k; split=> //.
  by move: Ik; rewrite mem_filter => /andP[_ /in_outages].
- case=> b [l [k [S ->]]].
  have Ko : k \in outs sel by apply/in_outages.
  have [co Ico Eco] := in_classes Ko.
  have [ca Ica Eca] := in_classes (mem_enum _ l : l \in enum 'I_m).
  rewrite /security_constraints; apply/In_flatten.
  eexists; first (apply/In_map; exists (co, ca); [|reflexivity]).
    apply/In_flatten; eexists; first (apply/In_map; exists co; [exact: Ico|reflexivity]).
    by apply/In_map; exists ca.
  apply/In_flatten; eexists; first (apply/In_map; exists (b, ext l); [|reflexivity]).
    by case: (b); case: (ext l); rewrite /=; tauto.
  apply/In_flatten; eexists; first (apply/In_map; exists l; [|reflexivity]).
    by apply/In_mem; rewrite mem_filter /= Eca eqxx mem_enum.
  apply/In_map; exists k => //.
  by apply/In_mem; rewrite mem_filter /= Eco.
Qed.
End Proofs.

Section Main.
Variable F : realFieldType.
Variables n m : nat.
Variables b0 b1 : 'I_m.+1 -> 'I_(1 + n).
Variable z : 'I_m.+1 -> F.
Variable key : 'I_m.+1 -> bkey.
Variable ext : 'I_m.+1 -> bool.
Variables pu nom f cap loss : 'I_m.+1 -> F.
Add Field FFs : (field_th F).
Local Notation secd := (secured b0 b1 z ext pu nom f cap loss).
Local Notation wi := (within pu (rated ext nom cap) loss).

Lemma secured_within l k : (holds (secd true l k) /\ holds (secd false l k)) <-> wi l (f l + BODF b0 b1 z l k * f k).
Proof.
rewrite /holds /secured /template /within /rated; case: (ext l) => /=.
- have -> : f l - loss l - - pu l * cap l + BODF b0 b1 z l k * f k =
     f l + BODF b0 b1 z l k * f k - (- (pu l * cap l) + loss l) by fring F.
  have -> : f l + loss l - pu l * cap l + BODF b0 b1 z l k * f k =
     f l + BODF b0 b1 z l k * f k - (pu l * cap l - loss l) by fring F.
  by rewrite subr_ge0 subr_le0; split=> -[].
- have -> : f l - loss l + BODF b0 b1 z l k * f k = f l + BODF b0 b1 z l k * f k - loss l by fring F.
  have -> : f l + loss l + BODF b0 b1 z l k * f k = f l + BODF b0 b1 z l k * f k + loss l by fring F.
  by rewrite !ler_subr_addr mulNr; split=> -[].
Qed.

Lemma sec_all sel : all (@holds F) (security_constraints b0 b1 z key ext pu nom f cap loss sel) <->
  forall k, List.In (key k) sel -> forall l, wi l (f l + BODF b0 b1 z l k * f k).
Proof.
rewrite all_In; split.
- move=> A k I l; apply/secured_within; split; apply: A; apply/secP; [exists true, l, k|exists false, l, k]; done.
- by move=> A c /secP[b [l [k [I ->]]]]; have [] := proj2 (secured_within l k) (A _ I l); case: b.
Qed.

Lemma secured_out sel cs off : security b0 b1 z key off ext pu nom f cap loss sel = Some cs ->
  all (@holds F) cs <-> forall k, List.In (key k) sel -> forall l, wi l (f l + BODF b0 b1 z l k * f k).
Proof.
rewrite /security; case: ifP => [/andP[/nilP E _] [<-]|_]; last first.
  by case: ifP => // _ [<-]; exact: sec_all.
split=> // _ k I; exfalso.
by have := proj2 (in_outages key sel k) I; rewrite E.
Qed.

Variables (s : F) (cycles : list (list nat)) (cols : list (list (nat * Z))) (p : 'cV[F]_(1 + n)).
Hypothesis ns : forall l, b0 l != b1 l.
Hypothesis sn : s != 0.
Hypothesis zp : forall l, 0 < z l.
Hypothesis C : connected b0 b1.
Hypothesis fc : find_cycles (branch_list b0 b1) cycles = Some cols.
Hypothesis bas : cycle_basis F b0 b1 cycles.
Hypothesis kv : kvl_constraints z xpredT s cols f.
Hypothesis ba : balanced_at b0 b1 (fun i => p i ord0) f.

Lemma total_zero : \sum_i p i ord0 = 0.
Proof.
rewrite -(eq_bigr _ (fun i _ => ba i)) /outflow sumrB.
rewrite (exchange_big_dep xpredT) //= [X in _ - X](exchange_big_dep xpredT) //=.
rewrite -sumrB big1 // => l _.
by rewrite (big_pred1 (b0 l)) ?(big_pred1 (b1 l)) ?subrr // => i; rewrite /= eq_sym.
Qed.

Lemma flow_is l : f l = branch_p0 b0 b1 z (fun=> 0) p l.
Proof. exact: (proj1 (kvl_lpf f ns sn zp C fc bas total_zero) (conj kv ba)). Qed.

Lemma after_is k g : still_connected b0 b1 k -> after_outage b0 b1 z k (fun i => p i ord0) g ->
  forall j, g j = f (lift k j) + BODF b0 b1 z (lift k j) k * f k.
Proof.
move=> R D j; have := outage_flows zp C (fun=> 0) p R j.
rewrite mxE -/(branch_p0 b0 b1 z (fun=> 0) p (lift k j)) -/(branch_p0 b0 b1 z (fun=> 0) p k) -!flow_is => ->.
have zp' i : 0 < z (lift k i) by [].
have zn' i : z (lift k i) != 0 by rewrite gt_eqF.
have U' := connected_unit zp' R.
have L := lpf_dc_flow (fun=> 0) U' zn' p; rewrite (bus_p_balanced total_zero) in L.
exact: (dc_flow_unique U' zn' D L).
Qed.

Lemma after_exists k : still_connected b0 b1 k ->
  after_outage b0 b1 z k (fun i => p i ord0) (fun j => f (lift k j) + BODF b0 b1 z (lift k j) k * f k).
Proof.
move=> R.
have zp' i : 0 < z (lift k i) by [].
have zn' i : z (lift k i) != 0 by rewrite gt_eqF.
have U' := connected_unit zp' R.
have L := lpf_dc_flow (fun=> 0) U' zn' p; rewrite (bus_p_balanced total_zero) in L.
have E j := after_is R L j.
case: L => [kc [th o]]; split; last by exists th => j; rewrite -E; exact: o.
move=> i; rewrite -kc /outflow; congr (_ - _); by apply: eq_bigr => j _; rewrite -E.
Qed.

Lemma secure sel cs off k : security b0 b1 z key off ext pu nom f cap loss sel = Some cs ->
  all (@holds F) cs -> List.In (key k) sel -> still_connected b0 b1 k ->
  survives b0 b1 z pu (rated ext nom cap) loss (fun i => p i ord0) k.
Proof.
move=> E A I R g D j; rewrite (after_is R D).
exact: (proj1 (secured_out E) A).
Qed.

Lemma exact_security sel cs off : security b0 b1 z key off ext pu nom f cap loss sel = Some cs ->
  (forall k, List.In (key k) sel -> still_connected b0 b1 k) -> (forall l, wi l (f l)) ->
  (all (@holds F) cs <-> forall k, List.In (key k) sel -> survives b0 b1 z pu (rated ext nom cap) loss (fun i => p i ord0) k).
Proof.
move=> E R W; split; first by move=> A k I; apply: (secure E A I); exact: R.
move=> A; apply/(secured_out E) => k I l.
case: (unliftP k l) => [j ->|->]; first exact: (A k I _ (after_exists (R _ I)) j).
have -> : f k + BODF b0 b1 z k k * f k = 0 by rewrite mxE eqxx mulN1r subrr.
have [w1 w2] := W k; move: (le_trans w1 w2); rewrite /within -subr_ge0.
set S := pu k * _; set x := loss k => h.
have h2 : 0 <= (S - x) *+ 2 by rewrite mulr2n (_ : S - x + (S - x) = S - x - (- S + x)) //; fring F.
have h3 : 0 <= S - x by rewrite pmulrn_lge0 in h2.
by split=> //; rewrite -oppr_ge0 opprD opprK.
Qed.
End Main.

Lemma security_raises (F : realFieldType) n m (b0 b1 : 'I_m -> 'I_(1 + n)) (z : 'I_m -> F) key off ext pu nom f cap loss sel :
  security b0 b1 z key off ext pu nom f cap loss sel = None <->
  off <> [::] /\ ((exists k, List.In (key k) sel) \/ exists2 k, List.In k off & List.In k sel).
Proof.
rewrite /security /no_outage; split.
- case: ifP => // /negbT N; case: ifP => // /negbT M _.
  split; first by move=> E; rewrite E in M.
  move: N; rewrite negb_and negbK => /orP[N|/has_In[k I /isinP J]]; last by right; exists k.
  left; case E: (outages key sel) N => [|k ks] // _; exists k.
  by apply/(in_outages key sel); rewrite E mem_head.
- case=> M O; case: ifP; last by move=> _; case: off M {O}.
  case/andP => /nilP E N; exfalso; case: O => [[k I]|[k I J]].
  + by have := proj2 (in_outages key sel k) I; rewrite E.
  + move/negP: N; apply.
    move: I {M}; elim: off => [|x off IH] //= [->|/IH ->]; last by rewrite orbT.
    by rewrite (proj2 (isinP k sel) J).
Qed.

Section Cont.
Variable F : realFieldType.
Implicit Types (nets : seq (subnet F)) (s : subnet F) (base : bkey -> F).

Lemma get_loc_some s k i : get_loc s k = Some i -> skey i = k.
Proof. by rewrite /get_loc; case: pickP => // j /bkey_eqP E [<-]. Qed.
Lemma get_loc_none s k : get_loc s k = None <-> forall i, @skey F s i <> k.
Proof.
rewrite /get_loc; case: pickP => [j /bkey_eqP E|N]; split=> //.
- by move=> /(_ j); rewrite E.
- by move=> _ i E; have := N i; rewrite (proj2 (bkey_eqP _ _) E).
Qed.

Lemma home_some nets k x : home nets k = Some x -> List.In (projT1 x) nets /\ skey (projT2 x) = k.
Proof.
elim: nets => [|s' nets IH] //=; case E: (get_loc s' k) => [j|]; last by move=> /IH[I ->]; split=> //; right.
by move=> [<-] /=; split; [left|exact: get_loc_some E].
Qed.
Lemma home_none nets k : home nets k = None <-> forall s, List.In s nets -> forall i, @skey F s i <> k.
Proof.
elim: nets => [|s' nets IH] //=; case E: (get_loc s' k) => [j|].
  by split=> // /(_ s' (or_introl erefl) j); rewrite (get_loc_some E).
rewrite IH; split; first by move=> H s [<-|]; [exact/get_loc_none|exact: H].
by move=> H s I; apply: H; right.
Qed.

Lemma columns_some nets base xs cs : columns nets base xs = Some cs ->
  [seq c.1 | c <- cs] = [seq branch_of x | x <- xs] /\
  forall k col, List.In (k, col) cs -> exists2 x, home nets k = Some x & col = p0_new base (projT2 x).
Proof.
elim: xs cs => [|x xs IH] cs /=; first by move=> [<-]; split.
case E: (home nets (branch_of x)) => [[s i]|] //; case D: (columns nets base xs) => [ds|] //.
move=> [<-] /=; have [M H] := IH _ D; split; first by rewrite M.
move=> k col [[<- <-]|]; last exact: H.
by exists (existT _ s i).
Qed.

Lemma columns_none nets base xs : columns nets base xs = None <->
  exists2 x, List.In x xs & forall s, List.In s nets -> forall i, @skey F s i <> branch_of x.
Proof.
elim: xs => [|x xs IH] /=; first by split=> // -[].
case E: (home nets (branch_of x)) => [[s i]|]; last first.
  by split=> // _; exists x; [left|exact/home_none].
have [I K] := home_some E; rewrite /= in I K.
case D: (columns nets base xs) => [ds|].
  split=> // -[y [<-|J] H]; first by case: (H s I i).
  have : columns nets base xs = None by apply/IH; exists y.
  by rewrite D.
by split=> // _; have [y J H] := proj1 IH D; exists y => //; right.
Qed.

Lemma contingency_none nets base xs : contingency nets base xs = None <->
  (exists2 s, List.In s nets & sm s = 0%N) \/
  (exists2 x, List.In x xs & forall s, List.In s nets -> forall i, @skey F s i <> branch_of x).
Proof.
rewrite /contingency; case: ifP => [|/negbT N].
  by case/has_In => s I /eqP M; split=> // _; left; exists s.
rewrite columns_none; split; first by right.
case=> // -[s I M]; exfalso; move/negP: N; apply.
elim: nets I => [|s' nets IH] //= [->|/IH ->]; rewrite ?orbT //.
by rewrite M.
Qed.

Section One.
Variables (nets : seq (subnet F)) (n m : nat) (b0 b1 : 'I_m.+1 -> 'I_(1 + n)) (z : 'I_m.+1 -> F) (key : 'I_m.+1 -> bkey).
Let s := Subnet b0 b1 z key.
Hypothesis I : List.In s nets.
Hypothesis inj : forall x : {s : subnet F & 'I_(sm s)}, List.In (projT1 x) nets ->
  forall k : 'I_m.+1, skey (projT2 x) = key k -> x = existT _ s k.
Variables (base : bkey -> F) (xs : seq label) (cs : seq (bkey * (bkey -> option F))).
Hypothesis E : contingency nets base xs = Some cs.

Lemma key_inj i j : key i = key j -> i = j.
Proof.
move=> e; have H := inj (x := existT _ s i) I e.
have inj2 (a b : 'I_m.+1) : existT (fun s => 'I_(sm s)) s a = existT _ s b -> val a = val b.
  by move=> q; exact: (f_equal (fun x : {s : subnet F & 'I_(sm s)} => val (projT2 x)) q).
by apply: val_inj; exact: inj2.
Qed.

Lemma get_loc_key j : get_loc s (key j) = Some j.
Proof.
case G: (get_loc s (key j)) => [i|]; last by have := proj1 (get_loc_none _ _) G j.
by congr Some; apply: key_inj; exact: (get_loc_some G).
Qed.

Lemma cont_col k col : List.In (key k, col) cs -> col = p0_new base (k : 'I_(sm s)).
Proof.
move: E; rewrite /contingency; case: ifP => // _ /columns_some[_ H] /H[x /home_some[J K] ->].
by rewrite (inj J K).
Qed.

Lemma cont_same k col (shift : 'I_m.+1 -> F) (p : 'cV[F]_(1 + n)) : (forall l, 0 < z l) -> still_connected b0 b1 k ->
  (forall j, base (key j) = branch_p0 b0 b1 z shift p j) ->
  List.In (key k, col) cs ->
  (forall g, dc_flow (fun j => b0 (lift k j)) (fun j => b1 (lift k j)) (fun j => z (lift k j)) (fun j => shift (lift k j))
              (fun i => bus_p p i ord0) g -> forall j, col (key (lift k j)) = Some (g j)) /\
  col (key k) = Some 0.
Proof.
move=> zp R B J; rewrite (cont_col J); split; last first.
  by rewrite /p0_new get_loc_key /= mxE eqxx mulN1r subrr.
have C : connected b0 b1 := connected_mono R.
have zp' i : 0 < z (lift k i) by [].
have zn' i : z (lift k i) != 0 by rewrite gt_eqF.
have U' := connected_unit zp' R.
move=> g D j; rewrite /p0_new get_loc_key !B; congr Some.
rewrite (dc_flow_unique U' zn' D (lpf_dc_flow _ U' zn' p)).
by rewrite -outage_flows // [RHS]mxE.
Qed.

Lemma cont_else k col t : List.In (key k, col) cs -> (forall j, key j <> t) -> col t = None.
Proof. by move=> J N; rewrite (cont_col J) /p0_new; case G: (get_loc s t) => [j|] //; case: (N j); exact: (get_loc_some G). Qed.
End One.
End Cont.

(* two separate areas of two parallel lines each *)
Definition par0 (l : 'I_2) : 'I_(1 + 1) := ord0.
Definition par1 (l : 'I_2) : 'I_(1 + 1) := ord_max.
Definition areaA : subnet [realFieldType of rat] :=
  Subnet par0 par1 (fun=> 1) (fun l => ("Line"%string, Name (if val l == 0%N then "a0" else "a1")%string)).
Definition areaB : subnet [realFieldType of rat] :=
  Subnet par0 par1 (fun=> 1) (fun l => ("Line"%string, Name (if val l == 0%N then "b0" else "b1")%string)).
Definition two_bases (k : bkey) : rat :=
  if bkey_eqb k ("Line"%string, Name "a0"%string) || bkey_eqb k ("Line"%string, Name "a1"%string) then 1 else 2%:R.

Lemma two_val (i j : 'I_2) : (val i == 0%N) = (val j == 0%N) -> i = j.
Proof. by case: i j => [[|[|//]] hi] [[|[|//]] hj] //= _; apply: val_inj. Qed.

Lemma areas_inj (x : {s : subnet [realFieldType of rat] & 'I_(sm s)}) : List.In (projT1 x) [:: areaA; areaB] ->
  forall k : 'I_2, skey (projT2 x) = skey (s := areaA) k -> x = existT _ areaA k.
Proof.
case: x => s i /= [e|[e|//]] k; subst s => /= -[].
- move=> e; congr existT; apply: two_val.
  by move: e; case: (val i == 0%N); case: (val k == 0%N).
- by case: (val i == 0%N); case: (val k == 0%N).
Qed.

Lemma areas_case : exists cs col,
  contingency [:: areaA; areaB] two_bases [:: Name "a0"%string] = Some cs /\
  List.In (("Line"%string, Name "a0"%string), col) cs /\
  (forall l, two_bases (skey (s := areaB) l) = 2%:R) /\
  (forall l, col (skey (s := areaB) l) = None).
Proof.
case E: (contingency [:: areaA; areaB] two_bases [:: Name "a0"%string]) => [cs|]; last first.
  case: (proj1 (contingency_none _ _ _) E) => [[s]|[x]]; first by case=> [<-|[<-|]].
  by case=> // <- N; have := N areaA (or_introl erefl) ord0.
have M : [seq c.1 | c <- cs] = [:: ("Line"%string, Name "a0"%string)].
  move: E; rewrite /contingency.
  have -> : has (fun s : subnet [realFieldType of rat] => sm s == 0%N) [:: areaA; areaB] = false by [].
  move=> E.
  by have [] := @columns_some [realFieldType of rat] _ _ _ _ E.
have [col J] : exists col, List.In (("Line"%string, Name "a0"%string), col) cs.
  by case: cs M {E} => [|[k col] cs] //= [-> _]; exists col; left.
exists cs, col; split=> //; split=> //; split.
  by move=> [[|[|//]] h].
move=> l.
have J' : List.In (skey (s := areaA) (ord0 : 'I_2), col) cs by exact: J.
apply: (@cont_else [realFieldType of rat] [:: areaA; areaB] 1 1 par0 par1 (fun=> 1) (@skey _ areaA) areas_inj _ _ _ E ord0 col _ J') => j /=.
by case: (val j == 0%N); rewrite /=; case: (val l == 0%N).
Qed.

Definition tkey (l : 'I_3) : bkey :=
  ("Line"%string, Name (if val l == 0%N then "x" else if val l == 1%N then "y" else "z")%string).
Local Notation trisec nom :=
  (security tri0 tri1 triz tkey [::] xpred0 (fun=> 1) (fun=> nom) (branch_p0 tri0 tri1 triz (fun=> 0) trip) (fun=> 0) (fun=> 0)
    [:: ("Line"%string, Name "z"%string)]).

Lemma secure_case :
  (exists cs, trisec 1 = Some cs /\ all (@holds _) cs) /\
  (exists cs, trisec (3%:R / 4%:R) = Some cs /\ ~~ all (@holds _) cs) /\
  (forall l, within (fun=> 1) (fun=> 3%:R / 4%:R) (fun=> 0) l (branch_p0 tri0 tri1 triz (fun=> 0) trip l)).
Proof.
have [_ [_ [_ [Tb To]]]] := triangle.
have K k : List.In (tkey k) [:: ("Line"%string, Name "z"%string)] <-> k = ord_max.
  split; last by move=> ->; left.
  by case: k => [[|[|[|//]]] h] //= [] // _; apply: val_inj.
have O l : branch_p0 tri0 tri1 triz (fun=> 0) trip l + BODF tri0 tri1 triz l ord_max * branch_p0 tri0 tri1 triz (fun=> 0) trip ord_max
    = if val l == 1%N then 1 else 0.
  have -> : branch_p0 tri0 tri1 triz (fun=> 0) trip l + BODF tri0 tri1 triz l ord_max * branch_p0 tri0 tri1 triz (fun=> 0) trip ord_max
     = outage_flow tri0 tri1 triz (flows tri0 tri1 triz (fun=> 0) trip) ord_max l ord0 by rewrite [RHS]mxE.
  case: To => t0 t1 t2.
  case: l => [[|[|[|//]]] h] /=.
  - by rewrite (_ : Ordinal h = tr 0) ?t0 //; apply: val_inj.
  - by rewrite (_ : Ordinal h = tr 1) ?t1 //; apply: val_inj.
  - by rewrite (_ : Ordinal h = tr 2) ?t2 //; apply: val_inj.
have D nom : exists cs, trisec nom = Some cs by rewrite /security; case: ifP => _ /=; eexists.
split; [|split].
- have [cs E] := D 1; exists cs; split=> //; apply/(secured_out E) => k /K -> l; rewrite O /within /rated /=.
  by case: (val l == 1%N).
- have [cs E] := D (3%:R / 4%:R); exists cs; split=> //; apply/negP => /(proj1 (secured_out E)) H.
  have [] := H ord_max (proj2 (K _) erefl) (tr 1); rewrite O /=.
  by [].
- case: Tb => t0 t1 t2 l.
  have : branch_p0 tri0 tri1 triz (fun=> 0) trip l \in [:: - 4%:R^-1; 3%:R / 4%:R; - 4%:R^-1].
    rewrite -t0 -t1 !inE; case: l => [[|[|[|//]]] h].
    - by rewrite (_ : Ordinal h = tr 0) ?eqxx //; apply: val_inj.
    - by rewrite (_ : Ordinal h = tr 1) ?eqxx ?orbT //; apply: val_inj.
    - by rewrite (_ : Ordinal h = tr 2) ?t0 ?t2 ?eqxx ?orbT //; apply: val_inj.
  by rewrite !inE => /or3P[] /eqP ->.
Qed.

Lemma contingency_keys (F : realFieldType) (nets : seq (subnet F)) base xs cs :
  contingency nets base xs = Some cs -> [seq c.1 | c <- cs] = [seq branch_of x | x <- xs].
Proof. by rewrite /contingency; case: ifP => // _ /columns_some[]. Qed.

Lemma other_areas :
  exists (nets : seq (subnet [realFieldType of rat])) (base : bkey -> rat) (x : label) (s : subnet [realFieldType of rat]) cs col,
    List.In s nets /\ contingency nets base [:: x] = Some cs /\ List.In (branch_of x, col) cs /\
    (forall l, base (@skey _ s l) = 2%:R) /\ (forall l, col (@skey _ s l) = None).
Proof.
have [cs [col [E [J [B N]]]]] := areas_case.
exists [:: areaA; areaB], two_bases, (Name "a0"%string), areaB, cs, col.
by split; [right; left|].
Qed.

Definition area_p : 'cV[rat]_(1 + 1) := \col_i (if i == ord0 then 2%:R else - 2%:R).
Lemma par_conn (r0 r1 : 'I_(1 + 1)) m (b0 b1 : 'I_m.+1 -> 'I_(1 + 1)) :
  (forall l, b0 l = ord0) -> (forall l, b1 l = ord_max) -> connect (adj b0 b1) r0 r1.
Proof.
move=> E0 E1.
have A : adj b0 b1 ord0 ord_max by apply/existsP; exists ord0; rewrite E0 E1 !eqxx.
have A' : adj b0 b1 ord_max ord0 by apply/existsP; exists ord0; rewrite E0 E1 !eqxx orbT.
have S i : i = ord0 \/ i = ord_max :> 'I_(1 + 1) by case: i => [[|[|//]] h]; [left|right]; apply: val_inj.
by case: (S r0) => ->; case: (S r1) => ->; rewrite ?connect0 // connect1.
Qed.
Lemma par_dc m (v : rat) (b0 b1 : 'I_m.+1 -> 'I_(1 + 1)) :
  (forall l, b0 l = ord0) -> (forall l, b1 l = ord_max) -> v * m.+1%:R = 2%:R ->
  dc_flow b0 b1 (fun=> 1) (fun=> 0) (fun i => area_p i ord0) (fun=> v).
Proof.
move=> E0 E1 V; split; last first.
  by exists (fun i => if i == ord0 then v else 0) => l; rewrite E0 E1 /= mul1r !subr0.
move=> i; rewrite mxE /outflow.
have [->|->] : i = ord0 \/ i = ord_max by case: i => [[|[|//]] h]; [left|right]; apply: val_inj.
- rewrite (eq_bigl xpredT) => [|l]; last by rewrite E0 eqxx.
  rewrite [X in _ - X]big_pred0 ?subr0 => [|l]; last by rewrite E1.
  by rewrite sumr_const card_ord -[_ *+ m.+1]mulr_natr V.
- rewrite big_pred0 ?sub0r => [|l]; last by rewrite E0.
  rewrite (eq_bigl xpredT) => [|l]; last by rewrite E1 eqxx.
  by rewrite sumr_const card_ord -[_ *+ m.+1]mulr_natr V.
Qed.

Lemma contingency_case :
  List.In areaA [:: areaA; areaB] /\ still_connected par0 par1 ord0 /\
  (forall j, two_bases (skey (s := areaA) j) = branch_p0 par0 par1 (fun=> 1) (fun=> 0) area_p j) /\
  exists cs col, contingency [:: areaA; areaB] two_bases [:: Name "a0"%string] = Some cs /\
    List.In (("Line"%string, Name "a0"%string), col) cs /\
    col ("Line"%string, Name "a0"%string) = Some 0 /\ col ("Line"%string, Name "a1"%string) = Some 2%:R.
Proof.
have L : List.In areaA [:: areaA; areaB] by left.
have R : still_connected par0 par1 ord0 by move=> i j; exact: (@par_conn _ _ 0).
have C : connected par0 par1 by move=> i j; exact: (@par_conn _ _ 1).
have zp (l : 'I_2) : 0 < (1 : rat) by [].
have zn (l : 'I_2) : (1 : rat) != 0 by [].
have U := connected_unit zp C.
have T : \sum_i area_p i ord0 = 0 by rewrite !big_ord_recl big_ord0 !mxE.
have B j : two_bases (skey (s := areaA) j) = branch_p0 par0 par1 (fun=> 1) (fun=> 0) area_p j.
  have D := lpf_dc_flow (fun=> 0) U zn area_p; rewrite (bus_p_balanced T) in D.
  have E : dc_flow par0 par1 (fun=> 1) (fun=> 0) (fun i => area_p i ord0) (fun=> 1) by exact: (@par_dc 1).
  rewrite /branch_p0 -(dc_flow_unique U zn E D j).
  by case: j => [[|[|//]] h].
split=> //; split=> //; split=> //.
have [cs [col [E [J _]]]] := areas_case.
exists cs, col; split=> //; split=> //.
have J' : List.In (skey (s := areaA) (ord0 : 'I_2), col) cs by exact: J.
have [G Z] := @cont_same [realFieldType of rat] [:: areaA; areaB] 1 1 par0 par1 (fun=> 1) (@skey _ areaA) L areas_inj
  _ _ _ E ord0 col (fun=> 0) area_p zp R B J'.
split; first exact: Z.
have D : dc_flow (fun j : 'I_1 => par0 (lift ord0 j)) (fun j => par1 (lift ord0 j)) (fun=> 1) (fun=> 0) (fun i => area_p i ord0) (fun=> 2%:R)
  by exact: (@par_dc 0).
have := G (fun=> 2%:R); rewrite (bus_p_balanced T) => /(_ D ord0); exact.
Qed.
