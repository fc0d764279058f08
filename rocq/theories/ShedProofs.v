From Coq Require Import List String Bool QArith ZArith Arith Lqa Lia Setoid.
From Verif Require Import LinModel LinProofs BalanceModel BalanceSpec BalanceProofs ShedModel ShedSpec.
From Verif Require DispatchModel DispatchSpec DispatchProofs ObjectiveModel ObjectiveSpec ObjectiveProofs PriceSpec PriceProofs.
Import ListNotations.
Open Scope string_scope.
Open Scope list_scope.
Open Scope Q_scope.

Lemma append_length s s' : String.length (s ++ s') = (String.length s + String.length s')%nat.
Proof. induction s as [|a s IH]; [reflexivity|]. cbn [append String.length]. rewrite IH. reflexivity. Qed.
Lemma append_inj s b b' : (b ++ s)%string = (b' ++ s)%string -> b = b'.
Proof.
  revert b'. induction b as [|a b IH]; intros [|a' b'] E; [reflexivity| | |].
  - apply (f_equal String.length) in E. cbn [append String.length] in E. rewrite append_length in E. lia.
  - apply (f_equal String.length) in E. cbn [append String.length] in E. rewrite append_length in E. lia.
  - cbn [append] in E. injection E as -> E. f_equal. exact (IH b' E).
Qed.
Lemma known_name_iff l s : known_name l s = true <-> In s l.
Proof.
  unfold known_name. rewrite existsb_exists. split.
  - intros (y & I & E). apply String.eqb_eq in E. subst. exact I.
  - intros I. exists s. split; [exact I|apply String.eqb_refl].
Qed.
Lemma unique_nodup l : unique l = true -> NoDup l.
Proof.
  induction l as [|s l IH]; [constructor|]. cbn [unique]. intros E. apply andb_true_iff in E as [E1 E2]. constructor; [|auto].
  intros I. apply known_name_iff in I. rewrite I in E1. discriminate.
Qed.
Lemma nodup_unmap {A B} (f : A -> B) l : NoDup (map f l) -> NoDup l.
Proof.
  induction l as [|a l IH]; [constructor|]. cbn [map]. intros N. inversion N as [|? ? N1 N2]; subst. constructor; [|auto]. intros I. apply N1, in_map, I.
Qed.
Lemma unique_complete l : NoDup l -> unique l = true.
Proof.
  induction 1 as [|s l N _ IH]; [reflexivity|]. cbn [unique]. rewrite IH. destruct (known_name l s) eqn:E; [|reflexivity]. apply known_name_iff in E. contradiction.
Qed.
Lemma total_pick (f : string -> Q) b l : NoDup l -> total (fun b' => at_bus b' b (f b')) l == if known_name l b then f b else 0.
Proof.
  induction 1 as [|c l N _ IH]; [reflexivity|]. cbn [total fold_right]. fold (total (fun b' => at_bus b' b (f b')) l). rewrite IH.
  unfold known_name, at_bus. cbn [existsb]. rewrite (String.eqb_sym b c). destruct (String.eqb_spec c b) as [->|E]; cbn [orb]; [|ring].
  assert (K : existsb (String.eqb b) l = false). { destruct (existsb (String.eqb b) l) eqn:K; [|reflexivity]. apply known_name_iff in K. contradiction. }
  rewrite K. ring.
Qed.

Lemma defined p F : add_load_shedding p F <> None <-> NoDup (s_buses p).
Proof.
  unfold add_load_shedding. destruct (unique (map (gname p) (s_buses p))) eqn:U; split; intros H; try congruence.
  - apply unique_nodup in U. exact (nodup_unmap _ _ U).
  - exfalso. rewrite unique_complete in U; [discriminate|]. clear -H. induction H as [|b l N _ IH]; [constructor|]. cbn [map]. constructor; [|exact IH].
    intros I. apply in_map_iff in I as (b' & E & I). apply append_inj in E. subst. contradiction.
Qed.

Section Add.
Variables (p : plan) (F F' : frame) (names : list string).
Hypothesis A : add_load_shedding p F = Some (F', names).
Hypothesis FR : free p F.

Lemma nd : NoDup (s_buses p).
Proof. apply (defined p F). rewrite A. discriminate. Qed.
Lemma fresh_all : fresh_buses p F = s_buses p.
Proof.
  unfold fresh_buses. assert (H : forall b, In b (s_buses p) -> known_name (map c_name (gens (bal F))) (gname p b) = false).
  { intros b I. destruct (known_name (map c_name (gens (bal F))) (gname p b)) eqn:E; [|reflexivity]. apply known_name_iff in E. destruct (FR b I E). }
  revert H. generalize (s_buses p). intros l H. induction l as [|b l IH]; [reflexivity|]. cbn [filter]. rewrite (H b (or_introl eq_refl)). cbn [negb]. f_equal.
  apply IH. intros c I. apply H. right. exact I.
Qed.
Lemma frame_is : names = map (gname p) (s_buses p) /\
  bal F' = {| buses := buses (bal F); gens := gens (bal F) ++ map (comp_of p) (s_buses p); stores := stores (bal F); units := units (bal F);
              lines := lines (bal F); trafos := trafos (bal F); links := links (bal F); loads := loads (bal F) |} /\
  dis F' = dis F ++ map (limits_of p) (s_buses p) /\
  ObjectiveModel.assets (obj F') = ObjectiveModel.assets (obj F) ++ map (cost_of p) (s_buses p) /\
  ObjectiveModel.nsnaps (obj F') = ObjectiveModel.nsnaps (obj F) /\ ObjectiveModel.w_snap (obj F') = ObjectiveModel.w_snap (obj F) /\
  ObjectiveModel.per (obj F') = ObjectiveModel.per (obj F) /\ ObjectiveModel.multi (obj F') = ObjectiveModel.multi (obj F).
Proof.
  unfold add_load_shedding in A. rewrite fresh_all in A. destruct (unique (map (gname p) (s_buses p))); [|discriminate]. injection A as <- <-.
  cbn [bal dis obj ObjectiveModel.assets ObjectiveModel.nsnaps ObjectiveModel.w_snap ObjectiveModel.per ObjectiveModel.multi]. repeat (split; [reflexivity|]). reflexivity.
Qed.
Lemma bal_is : bal F' = {| buses := buses (bal F); gens := gens (bal F) ++ map (comp_of p) (s_buses p); stores := stores (bal F); units := units (bal F);
              lines := lines (bal F); trafos := trafos (bal F); links := links (bal F); loads := loads (bal F) |}.
Proof. apply frame_is. Qed.
Lemma dis_is : dis F' = dis F ++ map (limits_of p) (s_buses p). Proof. apply frame_is. Qed.

(* the balance of a bus gains the power of its shedding *)
Lemma net_new losses x t b : net_power (bal F') losses x t b ==
  net_power (bal F) losses x t b + (if known_name (s_buses p) b then s_sign p b * shedding p x b t else 0).
Proof.
  unfold net_power. rewrite bal_is. cbn [gens stores units lines trafos links]. rewrite total_app, total_map.
  rewrite <- (total_pick (fun b => s_sign p b * shedding p x b t) b _ nd). unfold gen_p at 2, value. cbn [c_bus c_sign c_active c_name comp_of].
  change (fun a => at_bus a b (s_sign p a * x ("Generator-p", t, gname p a))) with (fun b' => at_bus b' b (s_sign p b' * shedding p x b' t)). ring.
Qed.
Lemma demand_new t b : demand (bal F') t b = demand (bal F) t b.
Proof. unfold demand. rewrite bal_is. reflexivity. Qed.

(* limits *)
Lemma limits_new losses T x : sat x (limits F' losses T) <->
  sat x (limits F losses T) /\ forall b t, In b (s_buses p) -> (t < T)%nat -> 0 <= shedding p x b t /\ shedding p x b t <= s_nom p b.
Proof.
  unfold limits. rewrite !DispatchProofs.dispatch_iff, dis_is. unfold DispatchSpec.dispatch_ok. split.
  - intros (H1 & H2 & H3 & H4). split.
    + split; [|split; [|split]]; intros; [apply H1|apply H2|apply H3|eapply H4; [|eassumption..]]; try apply in_or_app; auto.
    + intros b t I L. assert (I' : In (limits_of p b) (dis F ++ map (limits_of p) (s_buses p))) by (apply in_or_app; right; apply in_map, I).
      specialize (H2 _ t I' L eq_refl (or_intror eq_refl)). cbn in H2. unfold DispatchModel.reported, DispatchModel.op in H2. cbn in H2.
      unfold shedding, shed_name. change (DispatchModel.vname "Generator" "p") with "Generator-p" in H2. unfold gname in H2. split; lra.
  - intros ((H1 & H2 & H3 & H4) & H5). split; [|split; [|split]].
    + intros a I E. apply in_app_or in I as [I|I]; [auto|]. apply in_map_iff in I as (b & <- & _). discriminate.
    + intros a t I L AC E. apply in_app_or in I as [I|I]; [auto|]. apply in_map_iff in I as (b & <- & I). cbn.
      destruct (H5 b t I L) as [L1 L2]. unfold shedding, shed_name in L1, L2. unfold DispatchModel.reported, DispatchModel.op. cbn.
      change (DispatchModel.vname "Generator" "p") with "Generator-p". unfold gname. split; lra.
    + intros a t I L AC E. apply in_app_or in I as [I|I]; [auto|]. apply in_map_iff in I as (b & <- & _). discriminate.
    + intros a t s I L AC E. apply in_app_or in I as [I|I]; [eauto|]. apply in_map_iff in I as (b & <- & _). discriminate.
Qed.

Lemma old_name nm v t : In nm (map c_name (gens (bal F))) -> ~ is_shedding p (v, t, nm).
Proof. intros I (_ & b & Ib & E). cbn [snd] in E. subst. exact (FR b Ib I). Qed.
Lemma other_var v t nm : v <> "Generator-p" -> ~ is_shedding p (v, t, nm).
Proof. intros N (E & _). apply N, E. Qed.

Lemma limits_same losses T x x' : same_generators F -> but_shedding p x x' -> sat x (limits F losses T) -> sat x' (limits F losses T).
Proof.
  intros [SG _] B. unfold limits. rewrite !DispatchProofs.dispatch_iff. unfold DispatchSpec.dispatch_ok.
  assert (R : forall a v t, In a (dis F) -> DispatchModel.reported "Generator" x' v a t = DispatchModel.reported "Generator" x v a t).
  { intros a v t I. unfold DispatchModel.reported, DispatchModel.op. destruct (DispatchModel.active a t); [|reflexivity]. cbn [val]. apply B, old_name, SG, I. }
  assert (N : forall a, In a (dis F) -> DispatchModel.nom_opt "Generator" "p_nom" x' a = DispatchModel.nom_opt "Generator" "p_nom" x a).
  { intros a I. unfold DispatchModel.nom_opt, DispatchModel.cap. destruct (DispatchModel.ext a); [|reflexivity]. cbn [val]. apply B, old_name, SG, I. }
  intros (H1 & H2 & H3 & H4). split; [|split; [|split]].
  - intros a I E. specialize (H1 a I E). unfold DispatchSpec.capacity_ok in *. rewrite N by exact I. rewrite (B (DispatchModel.vname "Generator" "n_mod", O, DispatchModel.name a)) by (apply old_name, SG, I). exact H1.
  - intros a t I L AC E. specialize (H2 a t I L AC E). unfold DispatchSpec.loss_of in *. rewrite !R, N by exact I. exact H2.
  - intros a t I L AC E. specialize (H3 a t I L AC E). cbv zeta in *. rewrite !R by exact I. exact H3.
  - intros a t s I L AC E. rewrite R by exact I. eauto.
Qed.
Lemma sat_silent cs x x' : silent p cs -> but_shedding p x x' -> sat x cs -> sat x' cs.
Proof.
  intros SI B S c I. specialize (S c I). unfold holds in *.
  assert (E : eval x' (lhs c) = eval x (lhs c)).
  { assert (H : forall q v, In (q, Some v) (lhs c) -> x' v = x v) by (intros q v J; exact (B v (SI c q v I J))). revert H. generalize (lhs c). intros l H.
    induction l as [|[q [v|]] l IH]; [reflexivity| |]; cbn [eval val]; [rewrite (H q v (or_introl eq_refl))|]; rewrite IH; try reflexivity; intros; eapply H; right; eassumption. }
  rewrite E. exact S.
Qed.
Lemma net_same losses x x' t b : but_shedding p x x' -> net_power (bal F) losses x' t b == net_power (bal F) losses x t b.
Proof.
  intros B. assert (V : forall act v nm, (v <> "Generator-p" \/ In nm (map c_name (gens (bal F)))) -> value x' act v nm t = value x act v nm t).
  { intros act v nm O. unfold value. destruct (act t); [|reflexivity]. apply B. destruct O as [O|O]; [apply other_var, O|apply old_name, O]. }
  unfold net_power.
  rewrite (total_ext (fun c => at_bus (c_bus c) b (gen_p x' t c)) (fun c => at_bus (c_bus c) b (gen_p x t c))) by (intros c I; unfold gen_p; rewrite V; [reflexivity|right; apply in_map, I]).
  rewrite (total_ext (fun c => at_bus (c_bus c) b (store_p x' t c)) (fun c => at_bus (c_bus c) b (store_p x t c))) by (intros c I; unfold store_p; rewrite V; [reflexivity|left; discriminate]).
  rewrite (total_ext (fun c => at_bus (c_bus c) b (unit_p x' t c)) (fun c => at_bus (c_bus c) b (unit_p x t c))) by (intros c I; unfold unit_p; rewrite !V; [reflexivity|left; discriminate..]).
  rewrite (total_ext (branch_at losses x' t "Line-s" "Line-loss" b) (branch_at losses x t "Line-s" "Line-loss" b)) by (intros c I; unfold branch_at, flow; rewrite !V; [reflexivity|left; discriminate..]).
  rewrite (total_ext (branch_at losses x' t "Transformer-s" "Transformer-loss" b) (branch_at losses x t "Transformer-s" "Transformer-loss" b)) by (intros c I; unfold branch_at, flow; rewrite !V; [reflexivity|left; discriminate..]).
  rewrite (total_ext (fun l => total (fun pe => at_bus (fst pe) b (snd pe * BalanceSpec.link_p x' t l)) (outputs t l) - at_bus (l_bus0 l) b (BalanceSpec.link_p x' t l))
    (fun l => total (fun pe => at_bus (fst pe) b (snd pe * BalanceSpec.link_p x t l)) (outputs t l) - at_bus (l_bus0 l) b (BalanceSpec.link_p x t l)))
    by (intros c I; unfold BalanceSpec.link_p; rewrite !V; [reflexivity|left; discriminate]).
  reflexivity.
Qed.

Lemma sat_app x cs cs' : sat x (cs ++ cs') <-> sat x cs /\ sat x cs'.
Proof. unfold sat. split; [intros H; split; intros c I; apply H, in_or_app; auto|intros [H1 H2] c I; apply in_app_or in I as [I|I]; auto]. Qed.

Definition completed (losses : bool) (x : sol) : sol := fun v =>
  let '(w, t, nm) := v in
  if String.eqb w "Generator-p" then
    match find (fun b => String.eqb nm (gname p b)) (s_buses p) with Some b => missing (bal F) losses x t b / s_sign p b | None => x v end
  else x v.
Lemma completed_but losses x : but_shedding p x (completed losses x).
Proof.
  intros [[w t] nm] N. unfold completed. destruct (String.eqb_spec w "Generator-p") as [->|]; [|reflexivity].
  destruct (find (fun b => String.eqb nm (gname p b)) (s_buses p)) as [b|] eqn:E; [|reflexivity]. apply find_some in E as [I E]. apply String.eqb_eq in E.
  exfalso. apply N. split; [reflexivity|]. exists b. split; [exact I|exact E].
Qed.
Lemma completed_shed losses x b t : In b (s_buses p) -> shedding p (completed losses x) b t = missing (bal F) losses x t b / s_sign p b.
Proof.
  intros I. unfold shedding, completed. cbv beta iota. rewrite String.eqb_refl.
  destruct (find (fun b0 => String.eqb (shed_name p b) (gname p b0)) (s_buses p)) as [b'|] eqn:E.
  - apply find_some in E as [_ E]. apply String.eqb_eq in E. apply append_inj in E. subst. reflexivity.
  - exfalso. apply (find_none _ _ E b) in I. change (gname p b) with (shed_name p b) in I. rewrite String.eqb_refl in I. discriminate.
Qed.

Lemma completes losses T cols thr cs rest x :
  same_generators F -> silent p rest -> (forall b, In b (s_buses p) -> 0 < s_sign p b) ->
  nodal_balance (bal F') losses T cols thr = Some cs -> (forall b, In b cols -> b = "" \/ In b (buses (bal F))) -> (forall b, In b (s_buses p) -> In b (buses (bal F))) ->
  ((exists x', but_shedding p x x' /\ sat x' (cs ++ limits F' losses T ++ rest)) <->
   sat x (limits F losses T ++ rest) /\ forall b t, In b (buses (bal F)) -> (t < T)%nat ->
     if known_name (s_buses p) b then 0 <= missing (bal F) losses x t b /\ missing (bal F) losses x t b <= s_sign p b * s_nom p b
     else missing (bal F) losses x t b == 0).
Proof.
  intros SG SI PO B CO IN.
  assert (BB : buses (bal F') = buses (bal F)) by (rewrite bal_is; reflexivity).
  assert (CO' : forall b, In b (meshed cols thr) -> In b (buses (bal F'))) by (rewrite BB; apply PriceProofs.mesh_ok; exact CO).
  split.
  - intros (x' & BS & S). apply sat_app in S as [S1 S]. apply sat_app in S as [S2 S3]. apply limits_new in S2 as [S2 S2'].
    assert (BS' : but_shedding p x' x) by (intros v N; symmetry; exact (BS v N)).
    split; [apply sat_app; split; [exact (limits_same losses T x' x SG BS' S2)|exact (sat_silent rest x' x SI BS' S3)]|].
    intros b t I L. assert (E := proj1 (nodal_iff (bal F') losses x' T cols thr cs B CO') S1 b t). rewrite BB in E. specialize (E I L).
    rewrite net_new, demand_new, (net_same losses x x' t b BS) in E. unfold missing. destruct (known_name (s_buses p) b) eqn:K; [|lra].
    apply known_name_iff in K. destruct (S2' b t K L) as [L1 L2]. assert (P := PO b K).
    assert (Q1 := Qmult_le_0_compat (s_sign p b) (shedding p x' b t) ltac:(lra) L1).
    assert (Q2 := Qmult_le_0_compat (s_sign p b) (s_nom p b - shedding p x' b t) ltac:(lra) ltac:(lra)). split; lra.
  - intros (S & M). apply sat_app in S as [S2 S3]. exists (completed losses x). assert (BS := completed_but losses x). split; [exact BS|].
    apply sat_app. split; [|apply sat_app; split].
    + apply (proj2 (nodal_iff (bal F') losses (completed losses x) T cols thr cs B CO')). rewrite BB. intros b t I L. rewrite net_new, demand_new, (net_same losses x _ t b BS).
      specialize (M b t I L). unfold missing in M. destruct (known_name (s_buses p) b) eqn:K; [|lra]. apply known_name_iff in K. rewrite (completed_shed losses x b t K).
      unfold missing. assert (P := PO b K). field. lra.
    + apply limits_new. split; [exact (limits_same losses T x _ SG BS S2)|]. intros b t K L. rewrite (completed_shed losses x b t K). specialize (M b t (IN b K) L).
      rewrite (proj2 (known_name_iff _ _) K) in M. destruct M as [M1 M2]. assert (P := PO b K). split.
      * apply Qle_shift_div_l; [exact P|]. lra.
      * apply Qle_shift_div_r; [exact P|]. lra.
    + exact (sat_silent rest x _ SI BS S3).
Qed.

(* the balance can be built *)
Lemma attached_shed b t : In b (s_buses p) -> attached (bal F') b t.
Proof.
  intros I. left. exists (comp_of p b). split; [|split; reflexivity]. rewrite bal_is. cbn [gens stores units]. rewrite !in_app_iff. left. right. apply in_map, I.
Qed.
Lemma built losses T cols thr : (forall b, In b (buses (bal F)) -> In b (s_buses p)) -> buses (bal F) <> [] -> (forall b, In b cols -> b = "" \/ In b (buses (bal F))) ->
  nodal_balance (bal F') losses T cols thr <> None.
Proof.
  intros AL NE CO. assert (BB : buses (bal F') = buses (bal F)) by (rewrite bal_is; reflexivity).
  assert (B1 : forall bs, bs <> [] -> (forall b, In b bs -> In b (s_buses p)) -> balance (bal F') losses bs T <> None).
  { intros bs N H. apply balance_builds.
    - destruct bs as [|b bs]; [congruence|]. exists b. split; [left; reflexivity|]. apply attached_shed, H. left. reflexivity.
    - intros b t I _. left. apply attached_shed, H, I. }
  unfold nodal_balance. rewrite BB. cbv zeta. destruct (negb (emptyb (meshed cols thr)) && negb (emptyb (difference (buses (bal F)) (meshed cols thr)))) eqn:E.
  - apply andb_true_iff in E as [E1 E2].
    assert (D1 : balance (bal F') losses (difference (buses (bal F)) (meshed cols thr)) T <> None).
    { apply B1; [intros Z; rewrite Z in E2; discriminate|]. intros b I. apply filter_In in I as [I _]. auto. }
    assert (D2 : balance (bal F') losses (meshed cols thr) T <> None).
    { apply B1; [intros Z; rewrite Z in E1; discriminate|]. intros b I. apply AL. exact (PriceProofs.mesh_ok (bal F) cols thr CO b I). }
    destruct (balance (bal F') losses (difference (buses (bal F)) (meshed cols thr)) T); [|congruence].
    destruct (balance (bal F') losses (meshed cols thr) T); congruence.
  - apply B1; auto.
Qed.

(* costs *)
Import ObjectiveModel ObjectiveSpec.
Lemma costed_new x : costed F x -> costed F' x.
Proof.
  destruct frame_is as (_ & _ & _ & AS & NS & WS & PE & MU). intros (K & C & P1 & P2). unfold costed.
  assert (CL : forall c, ext (obj F') c = ext (obj F) c).
  { intros c. unfold ext, cls. rewrite AS, !filter_app. assert (Z : filter a_ext (filter (fun a => String.eqb (a_class a) c) (map (cost_of p) (s_buses p))) = []).
    { generalize (s_buses p). intros l. induction l as [|b l IH]; [reflexivity|]. cbn [map filter]. destruct (String.eqb (a_class (cost_of p b)) c); [cbn [filter a_ext cost_of]|]; exact IH. }
    rewrite Z, app_nil_r. reflexivity. }
  assert (AN : forall a, annual (obj F') a = annual (obj F) a) by (intros a; unfold annual; rewrite MU; reflexivity).
  split; [|split; [|split]].
  - intros a I. rewrite AS in I. apply in_app_or in I as [I|I]; [auto|]. apply in_map_iff in I as (b & <- & _). reflexivity.
  - unfold const_fixed. assert (E : constant (obj F') = constant (obj F)); [|rewrite E; exact C]. unfold constant.
    assert (EX : forall l, fold_right (fun a q' => annual (obj F') a * a_nom a + q') 0 l = fold_right (fun a q' => annual (obj F) a * a_nom a + q') 0 l).
    { induction l as [|a l IH]; [reflexivity|]. cbn [fold_right]. rewrite IH, AN. reflexivity. }
    induction nominal as [|ca l IH]; [reflexivity|]. cbn [fold_right]. rewrite IH, CL, EX. reflexivity.
  - intros a I. rewrite AS in I. apply in_app_or in I as [I|I]; [auto|]. apply in_map_iff in I as (b & <- & _). cbn. lra.
  - intros a I. rewrite AS in I. apply in_app_or in I as [I|I]; [auto|]. apply in_map_iff in I as (b & <- & _). cbn. lra.
Qed.
Lemma total_zero_eq {X} (l : list X) : total (fun _ => 0) l == 0.
Proof. apply total_zero. reflexivity. Qed.
Lemma cost_new x ps ps' : costed F x -> objective (obj F) = Some ps -> objective (obj F') = Some ps' ->
  value_of x ps' == value_of x ps + shedding_cost p F x.
Proof.
  destruct frame_is as (_ & _ & _ & AS & NS & WS & PE & MU). intros C O O'. assert (C' := costed_new x C).
  destruct C as (K & C & P1 & P2). destruct C' as (K' & C' & P1' & P2').
  rewrite (ObjectiveProofs.objective_value _ _ _ K C P1 P2 O), (ObjectiveProofs.objective_value _ _ _ K' C' P1' P2' O').
  assert (AN : forall a, annual (obj F') a = annual (obj F) a) by (intros a; unfold annual; rewrite MU; reflexivity).
  assert (E1 : expansion (obj F') x (annual (obj F')) == expansion (obj F) x (annual (obj F))).
  { unfold expansion. rewrite AS, total_app, total_map. rewrite (total_zero (fun a => annual (obj F') (cost_of p a) * (capacity x (cost_of p a) - a_nom (cost_of p a)))).
    - rewrite (total_ext (fun a => annual (obj F') a * (capacity x a - a_nom a)) (fun a => annual (obj F) a * (capacity x a - a_nom a))) by (intros a _; rewrite AN; reflexivity). ring.
    - intros b _. unfold capacity. cbn [a_ext cost_of a_nom]. ring. }
  assert (E2 : switching_cost (obj F') x == switching_cost (obj F) x).
  { unfold switching_cost, days. rewrite NS. apply total_ext. intros t _. rewrite AS, total_app, total_map, (total_zero (fun a => starts x (cost_of p a) t)); [ring|].
    intros b _. unfold starts, unit_value. cbn [a_start a_shut a_com cost_of]. ring. }
  assert (E3 : operating (obj F') x (weighting (obj F')) == operating (obj F) x (weighting (obj F)) + shedding_cost p F x).
  { unfold operating, shedding_cost, days. rewrite NS, <- total_plus. apply total_ext. intros t _. rewrite AS, total_app, total_map.
    assert (W : weighting (obj F') t = weighting (obj F) t) by (unfold weighting; rewrite MU, WS, PE; reflexivity). rewrite W.
    change (PriceSpec.weight (obj F) t) with (weighting (obj F) t).
    rewrite (total_ext (fun a => running x (cost_of p a) t) (fun b => s_cost p b * shedding p x b t)); [ring|].
    intros b _. unfold running, dispatch, stored, spilled, unit_value, at_, is. cbn [a_class a_marginal a_quadratic a_storage a_spill a_standby a_com a_on a_name cost_of existsb String.eqb Ascii.eqb Bool.eqb orb andb].
    unfold shedding, shed_name, gname. ring. }
  rewrite E1, E2, E3. ring.
Qed.
Lemma value_same x x' ps : same_generators F -> costed F x -> but_shedding p x x' -> objective (obj F) = Some ps -> value_of x' ps == value_of x ps.
Proof.
  intros [_ SG] (K & C & P1 & P2) B O.
  assert (OV : forall v t nm, v <> "Generator-p" -> x' (v, t, nm) = x (v, t, nm)) by (intros v t nm N; apply B, other_var, N).
  assert (C' : const_fixed (obj F) x'). { unfold const_fixed in *. intros E. cbn [val const_label] in *. rewrite OV by discriminate. exact (C E). }
  rewrite (ObjectiveProofs.objective_value _ _ _ K C P1 P2 O), (ObjectiveProofs.objective_value _ _ _ K C' P1 P2 O).
  assert (CP : forall a, capacity x' a = capacity x a).
  { intros a. unfold capacity. destruct (a_ext a); [|reflexivity]. apply OV.
    repeat match goal with |- context [if ?c then _ else _] => destruct c end; discriminate. }
  assert (AT : forall a v t, v <> "Generator-p" -> at_ x' a v t = at_ x a v t) by (intros a v t N; unfold at_; destruct (a_on a t); [apply OV, N|reflexivity]).
  assert (DI : forall a t, In a (assets (obj F)) -> dispatch x' a t = dispatch x a t).
  { intros a t I. unfold dispatch. destruct (is a ["StorageUnit"]); [apply AT; discriminate|]. destruct (is a ["Generator"]) eqn:G.
    - unfold at_. destruct (a_on a t); [|reflexivity]. apply B, old_name. apply SG; [exact I|]. unfold is in G. cbn [existsb] in G. rewrite orb_false_r in G. apply String.eqb_eq, G.
    - destruct (is a ["Link"]); [apply AT; discriminate|]. destruct (is a ["Store"]); [apply AT; discriminate|reflexivity]. }
  assert (UV : forall a t w, w = "status" \/ w = "start_up" \/ w = "shut_down" -> unit_value x' w a t = unit_value x w a t).
  { intros a t w W. unfold unit_value. destruct (a_com a); [|reflexivity]. destruct (is a ["Generator"]); [apply AT; destruct W as [->|[->| ->]]; discriminate|].
    destruct (is a ["Link"]); [apply AT; destruct W as [->|[->| ->]]; discriminate|reflexivity]. }
  assert (E1 : expansion (obj F) x' (annual (obj F)) == expansion (obj F) x (annual (obj F))) by (unfold expansion; apply total_ext; intros a _; rewrite CP; reflexivity).
  assert (E2 : switching_cost (obj F) x' == switching_cost (obj F) x).
  { unfold switching_cost. apply total_ext. intros t _. apply total_ext. intros a _. unfold starts. rewrite !UV by auto. reflexivity. }
  assert (E3 : operating (obj F) x' (weighting (obj F)) == operating (obj F) x (weighting (obj F))).
  { unfold operating. apply total_ext. intros t _. rewrite (total_ext (fun a => running x' a t) (fun a => running x a t)); [reflexivity|].
    intros a I. unfold running, stored, spilled. rewrite DI, UV by auto. rewrite !AT by discriminate. reflexivity. }
  rewrite E1, E2, E3. reflexivity.
Qed.

(* the objective exists *)
Lemma obj_is : obj F' = {| assets := assets (obj F) ++ map (cost_of p) (s_buses p); nsnaps := nsnaps (obj F); w_snap := w_snap (obj F); per := per (obj F); multi := multi (obj F) |}.
Proof. destruct frame_is as (_ & _ & _ & AS & NS & WS & PE & MU). destruct (obj F') as [a b c d e]. cbn in *. subst. reflexivity. Qed.
Lemma cls_other c : c <> "Generator" -> cls (obj F') c = cls (obj F) c.
Proof.
  intros N. rewrite obj_is. unfold cls. cbn [assets]. rewrite filter_app.
  assert (Z : filter (fun a => String.eqb (a_class a) c) (map (cost_of p) (s_buses p)) = []).
  { generalize (s_buses p). intros l. induction l as [|b l IH]; [reflexivity|]. cbn [map filter]. destruct (String.eqb_spec (a_class (cost_of p b)) c) as [E|E]; [exfalso; apply N; rewrite <- E; reflexivity|exact IH]. }
  rewrite Z, app_nil_r. reflexivity.
Qed.
Lemma cls_more c a : In a (cls (obj F) c) -> In a (cls (obj F') c).
Proof. rewrite obj_is. unfold cls. cbn [assets]. rewrite filter_app. intros I. apply in_or_app. left. exact I. Qed.
Lemma charged_same f a : charged (obj F') f a = charged (obj F) f a.
Proof. unfold charged. rewrite obj_is. reflexivity. Qed.
Lemma sub_filter (g : asset -> bool) c : (forall b, g (cost_of p b) = false) -> filter g (cls (obj F') c) = filter g (cls (obj F) c).
Proof.
  intros G. rewrite obj_is. unfold cls. cbn [assets]. rewrite !filter_app.
  assert (Z : filter g (filter (fun a => String.eqb (a_class a) c) (map (cost_of p) (s_buses p))) = []).
  { generalize (s_buses p). intros l. induction l as [|b l IH]; [reflexivity|]. cbn [map filter]. destruct (String.eqb (a_class (cost_of p b)) c); [cbn [filter]; rewrite G|]; exact IH. }
  rewrite Z, app_nil_r. reflexivity.
Qed.
Lemma ext_same c : ext (obj F') c = ext (obj F) c. Proof. apply sub_filter. reflexivity. Qed.
Lemma com_same c : com (obj F') c = com (obj F) c. Proof. apply sub_filter. reflexivity. Qed.
Lemma nonempty_in {X} (l : list X) : nonempty l = true <-> exists a, In a l.
Proof. destruct l as [|a l]; cbn; split; intros H; try discriminate; [destruct H as [? []]|exists a; auto|reflexivity]. Qed.
Lemma op_missing sq f rows : (forall l, is_missing (sq l) = false) -> existsb is_missing (operation (obj F) sq f rows) = false -> existsb is_missing (operation (obj F') sq f rows) = false.
Proof.
  intros SQ. induction rows as [|[c attr] rows IH]; [reflexivity|]. unfold operation in *. cbn [flat_map fst snd]. rewrite !existsb_app. intros H. apply orb_false_iff in H as [H1 H2].
  apply orb_false_iff. split; [|exact (IH H2)].
  destruct (nonempty (filter (charged (obj F') f) (cls (obj F') c))) eqn:N; [|reflexivity]. cbn [existsb]. rewrite orb_false_r.
  destruct (exists_array (obj F') c attr) eqn:E; [apply SQ|]. exfalso. unfold exists_array in E. destruct (is_spill (vname c attr)) eqn:SP.
  - assert (NG : c <> "Generator") by (intros ->; unfold is_spill, vname in SP; cbn in SP; discriminate).
    rewrite (cls_other c NG) in N, E. rewrite (filter_ext _ _ (charged_same f)) in N. rewrite N in H1. cbn [existsb] in H1. unfold exists_array in H1. rewrite SP in H1.
    replace (nsnaps (obj F')) with (nsnaps (obj F)) in E by (rewrite obj_is; reflexivity). rewrite E in H1. cbn in H1. discriminate.
  - apply nonempty_in in N as [a I]. apply filter_In in I as [I _]. destruct (cls (obj F') c); [exact I|discriminate].
Qed.
Lemma op_nonempty sq f rows : nonempty (operation (obj F) sq f rows) = true -> nonempty (operation (obj F') sq f rows) = true.
Proof.
  intros H. apply nonempty_in in H as [q I]. unfold operation in I. apply in_flat_map in I as ([c attr] & J & I). cbn [fst snd] in I.
  destruct (nonempty (filter (charged (obj F) f) (cls (obj F) c))) eqn:N; [|destruct I]. apply (ObjectiveProofs.nonempty_flat _ _ (c, attr) J). cbn [fst snd].
  assert (N' : nonempty (filter (charged (obj F') f) (cls (obj F') c)) = true).
  { apply nonempty_in in N as [a K]. apply filter_In in K as [K1 K2]. apply nonempty_in. exists a. apply filter_In. split; [apply cls_more, K1|rewrite charged_same; exact K2]. }
  rewrite N'. reflexivity.
Qed.
Lemma objective_exists : objective (obj F) <> None -> objective (obj F') <> None.
Proof.
  unfold objective. destruct (existsb is_missing (pieces (obj F))) eqn:M; [congruence|]. destruct (nonempty (pieces (obj F))) eqn:N; [|congruence]. intros _.
  assert (CO : constant (obj F') = constant (obj F)).
  { unfold constant. assert (EX : forall l, fold_right (fun a q' => annual (obj F') a * a_nom a + q') 0 l = fold_right (fun a q' => annual (obj F) a * a_nom a + q') 0 l).
    { intros l. unfold annual. rewrite obj_is. reflexivity. }
    induction nominal as [|ca l IH]; [reflexivity|]. cbn [fold_right]. rewrite IH, ext_same, EX. reflexivity. }
  unfold pieces in M, N |- *. rewrite !existsb_app in M. rewrite !orb_false_iff in M. destruct M as (M1 & M2 & M3 & M4 & M5 & M6 & M7 & M8 & M9).
  rewrite !existsb_app. rewrite CO, M1. rewrite (op_missing Linear _ _ (fun _ => eq_refl) M2), (op_missing Linear _ _ (fun _ => eq_refl) M3), (op_missing Linear _ _ (fun _ => eq_refl) M4), (op_missing Square _ _ (fun _ => eq_refl) M5).
  assert (S6 : existsb is_missing (standby (obj F')) = false) by apply ObjectiveProofs.linear_no_missing.
  assert (S7 : existsb is_missing (investment (obj F')) = false) by apply ObjectiveProofs.linear_no_missing.
  assert (S8 : forall attr f, existsb is_missing (switching (obj F') attr f) = false).
  { intros attr f. unfold switching. generalize ["Generator"; "Link"]. intros l. induction l as [|c l IH]; [reflexivity|]. cbn [flat_map]. rewrite existsb_app, IH, orb_false_r.
    destruct (Qeq_bool (fold_right (fun a q => f a + q) 0 (com (obj F') c)) 0); reflexivity. }
  rewrite S6, S7, !S8. cbn [orb].
  assert (NE : nonempty (pieces (obj F')) = true).
  { unfold pieces. rewrite !ObjectiveProofs.nonempty_app in N |- *. rewrite !orb_true_iff in N |- *. rewrite CO.
    destruct N as [N|[N|[N|[N|[N|[N|[N|[N|N]]]]]]]].
    - left. exact N.
    - right; left. apply op_nonempty, N.
    - do 2 right; left. apply op_nonempty, N.
    - do 3 right; left. apply op_nonempty, N.
    - do 4 right; left. apply op_nonempty, N.
    - do 5 right; left. unfold standby in *. apply nonempty_in in N as [q I]. apply in_flat_map in I as (c & J & I). apply (ObjectiveProofs.nonempty_flat _ _ c J). rewrite com_same. destruct (nonempty (com (obj F) c)); [reflexivity|destruct I].
    - do 6 right; left. unfold investment in *. apply nonempty_in in N as [q I]. apply in_flat_map in I as (c & J & I). apply (ObjectiveProofs.nonempty_flat _ _ c J). rewrite ext_same. destruct (nonempty (ext (obj F) (fst c))); [reflexivity|destruct I].
    - do 7 right; left. unfold switching in *. apply nonempty_in in N as [q I]. apply in_flat_map in I as (c & J & I). apply (ObjectiveProofs.nonempty_flat _ _ c J). rewrite com_same.
      destruct (Qeq_bool (fold_right (fun a q => a_start a + q) 0 (com (obj F) c)) 0); [destruct I|reflexivity].
    - do 8 right. unfold switching in *. apply nonempty_in in N as [q I]. apply in_flat_map in I as (c & J & I). apply (ObjectiveProofs.nonempty_flat _ _ c J). rewrite com_same.
      destruct (Qeq_bool (fold_right (fun a q => a_shut a + q) 0 (com (obj F) c)) 0); [destruct I|reflexivity]. }
  unfold pieces in NE. rewrite CO in NE. rewrite NE. discriminate.
Qed.

(* the old optimum stays optimal while no price exceeds the cost of shedding *)
Lemma stays_optimal losses T cols thr own others cs cs' ps ps' x x' price :
  same_generators F -> T = nsnaps (obj F) -> NoDup (buses (bal F)) -> (forall b, In b cols -> b = "" \/ In b (buses (bal F))) ->
  (forall b, In b (s_buses p) -> In b (buses (bal F))) ->
  objective (obj F) = Some ps -> objective (obj F') = Some ps' -> PriceSpec.convex (obj F) -> costed F x' ->
  nodal_balance (bal F) losses T cols thr = Some cs -> forall cols' thr', (forall b, In b cols' -> b = "" \/ In b (buses (bal F))) -> nodal_balance (bal F') losses T cols' thr' = Some cs' ->
  map fst own = limits F losses T ->
  PriceSpec.kkt x ps (PriceSpec.nodal_y (bal F) losses T cols thr (fun t b => PriceSpec.weight (obj F) t * price b t) ++ own ++ others) ->
  (forall b t, In b (s_buses p) -> (t < T)%nat -> s_sign p b * price b t <= s_cost p b) ->
  sat x' (cs' ++ limits F' losses T ++ map fst others) ->
  value_of x ps <= value_of x' ps'.
Proof.
  intros SG TT ND CO IN O O' CV CX B cols' thr' CO2 B' RE K PR S. remember (own ++ others) as rest eqn:RR. destruct K as (KF & SGN & CS & ST). apply sat_app in S as [S1 S]. apply sat_app in S as [S2 S3]. apply limits_new in S2 as [S2 S2'].
  rewrite (cost_new x' ps ps' CX O O').
  assert (X' : forall b t, In b (buses (bal F)) -> (t < T)%nat -> net_power (bal F) losses x' t b == demand (bal F) t b - (if known_name (s_buses p) b then s_sign p b * shedding p x' b t else 0)).
  { assert (BB : buses (bal F') = buses (bal F)) by (rewrite bal_is; reflexivity).
    intros b t I L. assert (E := proj1 (nodal_iff (bal F') losses x' T cols' thr' cs' B' ltac:(rewrite BB; apply PriceProofs.mesh_ok; exact CO2)) S1 b t). rewrite BB in E. specialize (E I L).
    rewrite net_new, demand_new in E. lra. }
  assert (X : forall b t, In b (buses (bal F)) -> (t < T)%nat -> net_power (bal F) losses x t b == demand (bal F) t b).
  { apply (nodal_iff (bal F) losses x T cols thr cs B (PriceProofs.mesh_ok _ cols thr CO)). rewrite <- (PriceProofs.nodal_fst _ losses T cols thr (fun t b => PriceSpec.weight (obj F) t * price b t) cs B).
    intros c I. apply KF. rewrite map_app. apply in_or_app. left. exact I. }
  set (d := PriceProofs.less x' x).
  assert (E : value_of (PriceProofs.plus x d) ps == value_of x' ps) by (apply PriceProofs.value_congr; intros v; unfold PriceProofs.plus, d, PriceProofs.less; ring).
  assert (V := PriceProofs.value_above x d ps (PriceProofs.convex_obj _ ps O CV)). rewrite (ST d) in V.
  change (fun cy : con * Q => snd cy * eval d (lhs (fst cy))) with (PriceProofs.weigh d) in V. rewrite total_app, PriceProofs.nodal_sum in V; [|exact ND|apply PriceProofs.mesh_ok; exact CO].
  assert (L : 0 <= total (PriceProofs.weigh d) rest).
  { assert (S' : sat x' (map fst rest)) by (rewrite RR, map_app, RE; apply sat_app; split; assumption).
    rewrite <- (total_zero (fun _ : con * Q => 0) rest) by reflexivity. apply PriceProofs.total_le. intros [c y] I. unfold PriceProofs.weigh, d. cbn [fst snd]. rewrite PriceProofs.eval_less.
    assert (I' : In (c, y) (PriceSpec.nodal_y (bal F) losses T cols thr (fun t b => PriceSpec.weight (obj F) t * price b t) ++ rest)) by (apply in_or_app; right; exact I).
    assert (G := SGN c y I'). assert (Z := CS c y I'). assert (HH : holds x' c) by (apply S', in_map_iff; exists (c, y); auto).
    unfold holds in HH. unfold PriceSpec.signed in G. assert (Z' : y * eval x (lhs c) == y * rhs c) by lra.
    setoid_replace (y * (eval x' (lhs c) - eval x (lhs c))) with (y * eval x' (lhs c) - y * eval x (lhs c)) by ring. rewrite Z'.
    setoid_replace (y * eval x' (lhs c) - y * rhs c) with (y * (eval x' (lhs c) - rhs c)) by ring.
    destruct (sns c).
    - assert (P := Qmult_le_0_compat (- y) (rhs c - eval x' (lhs c)) ltac:(lra) ltac:(lra)). setoid_replace (- y * (rhs c - eval x' (lhs c))) with (y * (eval x' (lhs c) - rhs c)) in P by ring. exact P.
    - apply Qmult_le_0_compat; lra.
    - rewrite HH. ring_simplify. lra. }
  assert (Y : total (fun t => total (fun b => PriceSpec.weight (obj F) t * price b t * net_power (bal F) losses d t b) (buses (bal F))) (seq 0 T) + shedding_cost p F x' >= 0).
  { unfold shedding_cost. rewrite <- TT, <- total_plus. apply Qle_trans with (total (fun _ : nat => 0) (seq 0 T)); [rewrite total_zero_eq; lra|]. apply PriceProofs.total_le. intros t I. apply in_seq in I.
    assert (W : 0 <= PriceSpec.weight (obj F) t) by (apply CV; lia).
    rewrite (total_ext (fun b => PriceSpec.weight (obj F) t * price b t * net_power (bal F) losses d t b)
      (fun b => (- PriceSpec.weight (obj F) t) * (price b t * (if known_name (s_buses p) b then s_sign p b * shedding p x' b t else 0)))).
    2:{ intros b Ib. unfold d. rewrite PriceProofs.net_less, (X b t Ib), (X' b t Ib) by lia. ring. }
    rewrite total_scale.
    assert (PQ : total (fun b => price b t * (if known_name (s_buses p) b then s_sign p b * shedding p x' b t else 0)) (buses (bal F)) ==
                 total (fun b => price b t * (s_sign p b * shedding p x' b t)) (s_buses p)).
    { assert (NS := nd). rewrite (total_ext _ (fun b => total (fun b' => at_bus b' b (price b' t * (s_sign p b' * shedding p x' b' t))) (s_buses p))).
      2:{ intros b _. rewrite (total_pick (fun b' => price b' t * (s_sign p b' * shedding p x' b' t)) b _ NS). destruct (known_name (s_buses p) b); ring. }
      rewrite total_swap. apply total_ext. intros b' Ib. apply total_at_In; [exact ND|apply IN, Ib]. }
    rewrite PQ. setoid_replace (- PriceSpec.weight (obj F) t * total (fun b => price b t * (s_sign p b * shedding p x' b t)) (s_buses p) +
      PriceSpec.weight (obj F) t * total (fun b => s_cost p b * shedding p x' b t) (s_buses p)) with
      (PriceSpec.weight (obj F) t * (total (fun b => s_cost p b * shedding p x' b t) (s_buses p) - total (fun b => price b t * (s_sign p b * shedding p x' b t)) (s_buses p))) by ring.
    apply Qmult_le_0_compat; [exact W|]. rewrite <- total_minus. apply Qle_trans with (total (fun _ : string => 0) (s_buses p)); [rewrite total_zero_eq; lra|]. apply PriceProofs.total_le.
    intros b Ib. destruct (S2' b t Ib ltac:(lia)) as [L1 _]. assert (LL : (t < T)%nat) by lia. assert (PB := PR b t Ib LL).
    assert (Q1 := Qmult_le_0_compat (s_cost p b - s_sign p b * price b t) (shedding p x' b t) ltac:(lra) L1). lra. }
  rewrite E in V. lra.
Qed.

(* prices *)
Lemma new_comp c b : In c (gens (bal F')) -> In b (s_buses p) -> c_name c = shed_name p b -> c = comp_of p b.
Proof.
  rewrite bal_is. cbn [gens]. intros I Ib E. apply in_app_or in I as [I|I].
  - exfalso. apply (FR b Ib). rewrite <- E. apply in_map, I.
  - apply in_map_iff in I as (b' & <- & _). cbn [c_name comp_of] in E. apply append_inj in E. subst. reflexivity.
Qed.
Lemma new_limits a b : same_generators F -> In a (dis F') -> In b (s_buses p) -> DispatchModel.name a = shed_name p b -> a = limits_of p b.
Proof.
  intros [SG _]. rewrite dis_is. intros I Ib E. apply in_app_or in I as [I|I].
  - exfalso. apply (FR b Ib). rewrite <- E. apply SG, I.
  - apply in_map_iff in I as (b' & <- & _). cbn [DispatchModel.name limits_of] in E. apply append_inj in E. subst. reflexivity.
Qed.
Lemma new_cost o b : same_generators F -> In o (assets (obj F')) -> In b (s_buses p) -> a_class o = "Generator" -> a_name o = shed_name p b -> o = cost_of p b.
Proof.
  intros [_ SG]. rewrite obj_is. cbn [assets]. intros I Ib C E. apply in_app_or in I as [I|I].
  - exfalso. apply (FR b Ib). rewrite <- E. apply SG; assumption.
  - apply in_map_iff in I as (b' & <- & _). cbn [a_name cost_of] in E. apply append_inj in E. subst. reflexivity.
Qed.
Lemma price_cap losses T cols thr o ps c a x price mu rest b t :
  same_generators F -> In b (s_buses p) -> PriceSpec.market (bal F') losses T cols thr (obj F') o ps (PriceSpec.Gen c) a x price mu rest ->
  c_name c = shed_name p b -> In a (dis F') -> (forall k y, In (k, y) rest -> PriceSpec.apart (PriceSpec.Gen c) k) ->
  (t < T)%nat -> 0 < PriceSpec.weight (obj F) t ->
  (shedding p x b t < s_nom p b -> s_sign p b * price b t <= s_cost p b) /\
  (0 < shedding p x b t -> s_cost p b <= s_sign p b * price b t) /\
  (s_sign p b * price b t < s_cost p b -> shedding p x b t == 0).
Proof.
  intros SG Ib M E IA RE L W.
  assert (LO := PriceSpec.mk_located _ _ _ _ _ _ _ _ _ _ _ _ _ _ M). destruct LO as [_ (l1 & l2 & LO & _)].
  assert (EC : c = comp_of p b) by (apply new_comp; [rewrite LO; apply in_or_app; right; left; reflexivity|exact Ib|exact E]).
  assert (SP := PriceSpec.mk_same _ _ _ _ _ _ _ _ _ _ _ _ _ _ M). destruct SP as (S1 & S2 & S3 & _).
  assert (EA : a = limits_of p b) by (apply new_limits; [exact SG|exact IA|exact Ib|rewrite S1; exact E]).
  assert (VA := PriceSpec.mk_valued _ _ _ _ _ _ _ _ _ _ _ _ _ _ M). destruct VA as (l3 & l4 & VA & _).
  assert (EO : o = cost_of p b) by (apply new_cost; [exact SG|rewrite VA; apply in_or_app; right; left; reflexivity|exact Ib|exact S3|rewrite S2; exact E]).
  assert (AC : PriceSpec.pactive (PriceSpec.Gen c) t = true) by (rewrite EC; reflexivity).
  assert (FX : DispatchModel.fix_set a t = None) by (rewrite EA; reflexivity).
  destruct (PriceProofs.merit _ _ _ _ _ _ _ _ _ _ _ _ _ _ M t L AC FX) as (H1 & H2 & H3). cbv zeta in *.
  assert (EE : PriceSpec.earning (obj F') price rest (PriceSpec.Gen c) t == PriceSpec.weight (obj F) t * (s_sign p b * price b t)).
  { unfold PriceSpec.earning. rewrite (PriceProofs.toll_apart _ rest _ t (or_introl eq_refl) RE). rewrite EC. unfold PriceSpec.worth. cbn [c_sign c_bus comp_of].
    unfold PriceSpec.weight. rewrite obj_is. cbn [multi w_snap per]. ring. }
  assert (MM : PriceSpec.weight (obj F') t * PriceSpec.marginal x (PriceSpec.Gen c) o t == PriceSpec.weight (obj F) t * s_cost p b).
  { unfold PriceSpec.marginal. rewrite EO. cbn [a_marginal a_quadratic cost_of]. unfold PriceSpec.weight. rewrite obj_is. cbn [multi w_snap per]. ring. }
  assert (PP : PriceSpec.power x (PriceSpec.Gen c) t == shedding p x b t).
  { unfold PriceSpec.power. rewrite AC. rewrite EC. reflexivity. }
  assert (HI : DispatchModel.max_pu a t * PriceSpec.capacity x (PriceSpec.Gen c) a == s_nom p b) by (rewrite EA; unfold PriceSpec.capacity; cbn; ring).
  assert (LW : DispatchModel.min_pu a t * PriceSpec.capacity x (PriceSpec.Gen c) a == 0) by (rewrite EA; unfold PriceSpec.capacity; cbn; ring).
  rewrite EE, MM, PP, HI in H1. rewrite EE, MM, PP, LW in H2. clear H3.
  assert (CMP : forall q r, q < r -> PriceSpec.weight (obj F) t * q < PriceSpec.weight (obj F) t * r) by (intros q r QR; apply Qmult_lt_l; assumption).
  split; [|split].
  - intros H. apply Qnot_lt_le. intros N. specialize (H1 (CMP _ _ N)). lra.
  - intros H. apply Qnot_lt_le. intros N. specialize (H2 (CMP _ _ N)). lra.
  - intros H. exact (H2 (CMP _ _ H)).
Qed.
End Add.

Lemma total_zero_eq_all (w f : nat -> Q) l : (forall t, f t == 0) -> total (fun t => w t * f t) l == 0.
Proof. intros H. apply total_zero. intros t _. rewrite (H t). ring. Qed.
(* names in use: nothing is added for these buses *)
Lemma taken p F F' names b : add_load_shedding p F = Some (F', names) -> In (shed_name p b) (map c_name (gens (bal F))) ->
  forall c, In c (gens (bal F')) -> c_name c = shed_name p b -> In c (gens (bal F)).
Proof.
  unfold add_load_shedding. destruct (unique (map (gname p) (s_buses p))); [|discriminate]. intros E T c. injection E as <- _. cbn [bal gens]. intros I N.
  apply in_app_or in I as [I|I]; [exact I|]. exfalso. apply in_map_iff in I as (b' & <- & I). apply filter_In in I as [_ I].
  cbn [c_name comp_of] in N. rewrite N, (proj2 (known_name_iff _ _) T) in I. discriminate.
Qed.
Lemma again p q F F1 n1 F2 n2 : add_load_shedding p F = Some (F1, n1) -> add_load_shedding q F1 = Some (F2, n2) -> s_suffix q = s_suffix p ->
  (forall b, In b (s_buses q) -> In b (s_buses p)) -> gens (bal F2) = gens (bal F1) /\ dis F2 = dis F1 /\ ObjectiveModel.assets (obj F2) = ObjectiveModel.assets (obj F1) /\ n2 = map (shed_name q) (s_buses q).
Proof.
  intros A1 A2 SU IN.
  assert (FB : fresh_buses q F1 = []).
  { unfold fresh_buses. assert (H : forall b, In b (s_buses q) -> known_name (map c_name (gens (bal F1))) (gname q b) = true).
    { intros b I. apply known_name_iff. unfold add_load_shedding in A1. destruct (unique (map (gname p) (s_buses p))); [|discriminate]. injection A1 as <- _. cbn [bal gens].
      rewrite map_app, map_map. apply in_or_app. destruct (known_name (map c_name (gens (bal F))) (gname p b)) eqn:K.
      - left. apply known_name_iff in K. unfold gname in *. rewrite SU. exact K.
      - right. apply in_map_iff. exists b. split; [cbn [c_name comp_of]; unfold gname; rewrite SU; reflexivity|]. apply filter_In. split; [apply IN, I|]. rewrite K. reflexivity. }
    revert H. generalize (s_buses q). intros l H. induction l as [|b l IH]; [reflexivity|]. cbn [filter]. rewrite (H b (or_introl eq_refl)). cbn [negb]. apply IH. intros c I. apply H. right. exact I. }
  unfold add_load_shedding in A2. destruct (unique (map (gname q) (s_buses q))); [|discriminate]. rewrite FB in A2. injection A2 as <- <-.
  cbn [bal gens dis obj ObjectiveModel.assets map]. rewrite !app_nil_r. repeat split.
Qed.
Lemma carrier_row p F F' names b : add_load_shedding p F = Some (F', names) -> free p F -> In b (s_buses p) -> ~ In "load" (carriers F) -> ~ carriers_known F'.
Proof.
  intros A FR I N C. assert (FA := fresh_all p F FR). unfold add_load_shedding in A. destruct (unique (map (gname p) (s_buses p))); [|discriminate]. injection A as <- _.
  rewrite FA in C. specialize (C (gname p b) "load"). cbn [carriers gcarriers] in C.
  assert (J : In (gname p b, "load") (gcarriers F ++ map (fun b0 => (gname p b0, "load")) (s_buses p))).
  { apply in_or_app. right. apply in_map_iff. exists b. split; [reflexivity|exact I]. }
  specialize (C J). destruct (known_name (carriers F) "Load"); [contradiction|]. apply in_app_or in C as [C|[C|[]]]; [contradiction|discriminate].
Qed.
