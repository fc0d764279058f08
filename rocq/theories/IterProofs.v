From Coq Require Import List String Bool QArith Qround Qabs ZArith Arith Lqa Lia.
From Verif Require Import IterModel IterSpec.
Import ListNotations.
Open Scope list_scope.
Open Scope Q_scope.

Lemma qge_iff a b : Qge_bool a b = true <-> b <= a. Proof. apply Qle_bool_iff. Qed.
Lemma qlt_iff a b : Qlt_bool a b = true <-> a < b.
Proof. unfold Qlt_bool. rewrite negb_true_iff. split; intros H; [apply Qnot_le_lt; intros C; apply Qle_bool_iff in C; congruence|]. destruct (Qle_bool b a) eqn:E; auto. apply Qle_bool_iff in E. lra. Qed.
Lemma qlt_false a b : Qlt_bool a b = false <-> b <= a.
Proof. unfold Qlt_bool. rewrite negb_false_iff. apply Qle_bool_iff. Qed.
Lemma qge_false a b : Qge_bool a b = false <-> a < b.
Proof. unfold Qge_bool. split; intros H; [apply Qnot_le_lt; intros C; apply Qle_bool_iff in C; congruence|]. destruct (Qle_bool b a) eqn:E; auto. apply Qle_bool_iff in E. lra. Qed.

Section D.
Variable u : Q.
Hypothesis U : 0 < u.
Lemma fdiv_bounds a : inject_Z (fdiv a u) * u <= a /\ a < (inject_Z (fdiv a u) + 1) * u.
Proof.
  unfold fdiv. pose proof (Qfloor_le (a / u)) as L. pose proof (Qlt_floor (a / u)) as R. rewrite inject_Z_plus in R. change (inject_Z 1) with 1 in R.
  assert (E : a == a / u * u) by (field; lra). set (f := inject_Z (Qfloor (a / u))) in *. set (y := a / u) in *. split; nra.
Qed.
Lemma fmod_bounds a : 0 <= fmod a u /\ fmod a u < u.
Proof. unfold fmod. pose proof (fdiv_bounds a). lra. Qed.
Lemma fmod_div a : a == inject_Z (fdiv a u) * u + fmod a u.
Proof. unfold fmod. ring. Qed.
(* a multiple below a bound plus one unit is below the bound *)
Lemma int_le k m : inject_Z k * u < inject_Z m * u + u -> (k <= m)%Z.
Proof.
  intros H. assert (inject_Z k < inject_Z (m + 1)) by (rewrite inject_Z_plus; change (inject_Z 1) with 1; nra). rewrite <- Zlt_Qlt in H0. lia.
Qed.
Lemma int_mono k m : (k <= m)%Z -> inject_Z k * u <= inject_Z m * u.
Proof. intros H. rewrite Zle_Qle in H. nra. Qed.

Variables (o : Q) (mx : option Q) (th : Q) (fr : bool).
Let dc := discretized_capacity o mx u th fr.
Hypothesis O : 0 <= o.
Hypothesis M : match mx with Some m => o <= m | None => True end.

Lemma fdiv_nonneg a : 0 <= a -> (0 <= fdiv a u)%Z.
Proof. intros A. pose proof (fdiv_bounds a) as [_ B]. apply (int_le 0 (fdiv a u)). change (inject_Z 0) with 0. lra. Qed.
Lemma units_bounds : (fdiv o u <= units o u th <= fdiv o u + 1)%Z.
Proof. unfold units. destruct (Qge_bool _ _); unfold b2z; lia. Qed.

Lemma shape : (multiple_of u dc /\ 0 <= dc) \/ (exists m, mx = Some m /\ dc = m).
Proof.
  clear M. pose proof units_bounds as UB. pose proof (fdiv_nonneg o O) as FN.
  assert (B : multiple_of u (block_capacity o u th) /\ 0 <= block_capacity o u th).
  { split; [eexists; reflexivity|]. unfold block_capacity. pose proof (int_mono 0 (units o u th) ltac:(lia)) as I. change (inject_Z 0) with 0 in I. lra. }
  unfold dc, discretized_capacity. destruct mx as [m|]; [|left; exact B]. destruct (Qeq_bool _ 0); [left; exact B|]. destruct (Qlt_bool (m - o) u); [|left; exact B].
  destruct (fr && _); [right; eauto|]. destruct (Qlt_bool m u); [right; eauto|]. left. split; [eexists; reflexivity|].
  pose proof (int_mono 0 (fdiv o u) FN) as I. change (inject_Z 0) with 0 in I. lra.
Qed.
Lemma near : o - u < dc /\ dc <= o + u.
Proof.
  clear O. pose proof units_bounds as UB. pose proof (fdiv_bounds o) as [F1 F2].
  assert (B : o - u < block_capacity o u th /\ block_capacity o u th <= o + u).
  { unfold block_capacity. pose proof (int_mono _ _ (proj1 UB)) as I1. pose proof (int_mono _ _ (proj2 UB)) as I2. rewrite inject_Z_plus in I2. change (inject_Z 1) with 1 in I2. lra. }
  unfold dc, discretized_capacity. destruct mx as [m|]; [|exact B]. destruct (Qeq_bool _ 0); [exact B|]. destruct (Qlt_bool (m - o) u) eqn:L; [|exact B].
  apply qlt_iff in L. destruct (fr && _); [lra|]. destruct (Qlt_bool m u); lra.
Qed.
Lemma at_most m : mx = Some m -> 0 < th -> dc <= m.
Proof.
  clear O. intros E T. pose proof (fdiv_bounds o) as [F1 F2]. pose proof (fmod_bounds o) as [G1 G2].
  unfold dc, discretized_capacity. rewrite E in *. destruct (Qeq_bool (fmod m u) 0) eqn:Q.
  - apply Qeq_bool_iff in Q. pose proof (fmod_div m) as D. rewrite Q in D.
    unfold block_capacity, units. destruct (Qge_bool (fmod o u) (th * u)) eqn:G; unfold b2z.
    + apply qge_iff in G. assert (P : 0 < fmod o u) by nra. pose proof (fmod_div o) as DO.
      assert (K : (fdiv o u + 1 <= fdiv m u)%Z).
      { assert (fdiv o u < fdiv m u)%Z; [|lia]. rewrite Zlt_Qlt. nra. }
      pose proof (int_mono _ _ K). lra.
    + rewrite Z.add_0_r. lra.
  - destruct (Qlt_bool (m - o) u) eqn:L.
    + destruct (fr && _); [lra|]. destruct (Qlt_bool m u); lra.
    + apply qlt_false in L. unfold block_capacity. pose proof units_bounds as UB.
      pose proof (int_mono _ _ (proj2 UB)) as I2. rewrite inject_Z_plus in I2. change (inject_Z 1) with 1 in I2. lra.
Qed.
(* the threshold rule, wherever a whole unit fits or the limit is a multiple of the unit *)
Lemma rule : match mx with None => True | Some m => multiple_of u m \/ o + u <= m end ->
  exists k : Z, inject_Z k * u <= o /\ o < (inject_Z k + 1) * u /\
    (th * u <= o - inject_Z k * u -> dc == (inject_Z k + 1) * u) /\ (o - inject_Z k * u < th * u -> dc == inject_Z k * u).
Proof.
  clear O M. intros C. exists (fdiv o u). pose proof (fdiv_bounds o) as [F1 F2]. split; auto. split; auto.
  assert (E : dc = block_capacity o u th).
  { unfold dc, discretized_capacity. destruct mx as [m|]; auto. destruct (Qeq_bool (fmod m u) 0) eqn:Q; auto. destruct C as [[k C]|C].
    - exfalso. assert (fmod m u == 0); [|apply Qeq_bool_iff in H; congruence].
      pose proof (fdiv_bounds m) as [L1 L2]. unfold fmod.
      assert (K1 : (k <= fdiv m u)%Z) by (apply int_le; rewrite <- C; lra). pose proof (int_mono _ _ K1). lra.
    - destruct (Qlt_bool (m - o) u) eqn:L; auto. apply qlt_iff in L. lra. }
  rewrite E. unfold block_capacity, units, fmod in *. destruct (Qge_bool _ _) eqn:G; unfold b2z.
  - apply qge_iff in G. rewrite inject_Z_plus. change (inject_Z 1) with 1. split; intros; lra.
  - apply qge_false in G. rewrite Z.add_0_r. split; intros; lra.
Qed.
End D.

(* iterations *)
Lemma ndiv_fin a b : ~ b == 0 -> ndiv (Fin a) (Fin b) = Fin (a / b).
Proof. intros N. cbn. destruct (Qeq_bool b 0) eqn:E; auto. apply Qeq_bool_iff in E. contradiction. Qed.

Lemma scaled_refl l : (l_ext l = true -> 0 < l_opt l) -> scaled l l 0.
Proof.
  intros P. unfold scaled, same_data, product_kept. repeat split; auto; try lia.
  - intros _ _ _ q E. exists q. split; auto. reflexivity.
  - intros _ _ _ q E. exists q. split; auto. reflexivity.
Qed.

Lemma step_line l l' k o : scaled l l' k -> 0 < o -> scaled l (update (set_opt l' o) (l_opt l')) (S k).
Proof.
  intros [S [X [R [X0 [R0 [P [O N]]]]]]] Po. destruct S as [S1 [S2 [S3 [S4 [S5 [S6 [S7 S8]]]]]]].
  assert (F : l_ext l = true -> ndiv (Fin (l_opt (set_opt l' o))) (Fin (l_opt l')) = Fin (o / l_opt l')).
  { intros E. cbn [set_opt l_opt]. rewrite S1, E. apply ndiv_fin. specialize (O E). lra. }
  assert (Nz : l_ext l = true -> ~ o / l_opt l' == 0).
  { intros E Z. specialize (O E). assert (o == o / l_opt l' * l_opt l') by (field; lra). rewrite Z in H. lra. }
  unfold scaled. split; [|split; [|split; [|split; [|split; [|split; [|split]]]]]].
  - unfold same_data. cbn [update set_opt l_ext l_typed l_ac l_dc l_b l_base l_nom l_max]. tauto.
  - intros E T A q Q. destruct (X E T A q Q) as [q' [Q1 Q2]]. exists (q' / (o / l_opt l')).
    unfold update. cbn [l_x l_opt l_ext l_typed l_ac set_opt]. rewrite S1, S2, S3, E, T, A. cbn [negb andb]. specialize (F E). cbn [set_opt l_opt] in F. rewrite S1, E in F. rewrite F, Q1.
    rewrite ndiv_fin by auto. split; [reflexivity|]. rewrite <- Q2. specialize (O E). field. split; lra.
  - intros E T A q Q. destruct (R E T A q Q) as [q' [Q1 Q2]]. exists (q' / (o / l_opt l')).
    unfold update. cbn [l_r l_opt l_ext l_typed l_dc set_opt]. rewrite S1, S2, S4, E, T, A. cbn [negb andb]. specialize (F E). cbn [set_opt l_opt] in F. rewrite S1, E in F. rewrite F, Q1.
    rewrite ndiv_fin by auto. split; [reflexivity|]. rewrite <- Q2. specialize (O E). field. split; lra.
  - intros C. rewrite <- (X0 C). unfold update. cbn [l_x l_ext l_typed l_ac set_opt]. rewrite S1, S2, S3. destruct (l_ext l), (l_typed l), (l_ac l); cbn [negb andb]; auto; exfalso; intuition discriminate.
  - intros C. rewrite <- (R0 C). unfold update. cbn [l_r l_ext l_typed l_dc set_opt]. rewrite S1, S2, S4. destruct (l_ext l), (l_typed l), (l_dc l); cbn [negb andb]; auto; exfalso; intuition discriminate.
  - intros E T B _. unfold update. cbn [l_par l_ext l_typed l_opt l_base set_opt]. rewrite S1, S2, S6, E, T. cbn [andb]. rewrite ndiv_fin by auto. exists (o / l_base l). split; auto. field. auto.
  - intros E. cbn [update set_opt l_opt]. rewrite S1, E. auto.
  - intros E _. cbn [update set_opt l_opt]. rewrite S1, E, S7. reflexivity.
Qed.

Section I.
Variable optimize : nat -> list line -> option (list Q).
Variable diff_ge : list Q -> list line -> bool.
Variables mn : nat.
Hypothesis positive : forall i ls os, optimize i ls = Some os -> List.length os = List.length ls /\ forall o, In o os -> 0 < o.

Lemma step_all ls ls' os k : Forall2 (fun l l' => scaled l l' k) ls ls' -> List.length os = List.length ls' -> (forall o, In o os -> 0 < o) ->
  Forall2 (fun l l' => scaled l l' (S k)) ls (update_all (assign_opt ls' os) (map l_opt ls')).
Proof.
  intros H. revert os. induction H as [|l l' ls ls' S F IH]; intros os E P; [constructor|]. destruct os as [|o os]; [discriminate|]. cbn [assign_opt map update_all].
  constructor; [apply step_line; auto; apply P; simpl; auto|]. apply IH; [simpl in E; lia|]. intros q I. apply P. simpl. auto.
Qed.

Lemma iterate_scaled fuel : forall it go ls0 ls ls' k, (1 <= it)%nat -> Forall2 (fun l l' => scaled l l' (it - 1)) ls0 ls ->
  iterate optimize diff_ge mn fuel it go ls = Some (ls', k) ->
  Forall2 (fun l l' => scaled l l' k) ls0 ls' /\ (it - 1 <= k <= it - 1 + fuel)%nat /\ ((k < it - 1 + fuel)%nat -> (mn <= S k)%nat) /\
  (go = true -> (0 < fuel)%nat -> (it <= k)%nat).
Proof.
  induction fuel as [|fuel IH]; intros it go ls0 ls ls' k L F E; cbn [iterate] in E.
  - destruct (go || (it <? mn)%nat); injection E as <- <-; repeat split; auto; try lia.
  - destruct (go || (it <? mn)%nat) eqn:G.
    + destruct (optimize it ls) as [os|] eqn:O; [|discriminate]. destruct (positive _ _ _ O) as [P1 P2].
      apply (IH (S it) _ ls0) in E; [|lia|].
      * destruct E as [E1 [E2 [E3 E4]]]. split; [exact E1|]. split; [lia|]. split; [intros K; apply E3; lia|lia].
      * replace (S it - 1)%nat with (S (it - 1)) by lia. apply step_all; auto.
    + injection E as <- <-. apply orb_false_iff in G. destruct G as [G1 G2]. apply Nat.ltb_ge in G2. repeat split; auto; try lia. intros ->. discriminate.
Qed.
End I.

Lemma finish_plain th fr l : let l' := finish None th fr l in
  l_x l' = l_x l /\ l_r l' = l_r l /\ l_par l' = l_par l /\ same_data l l' /\ l_opt l' = if l_ext l then l_opt l else l_nom l.
Proof.
  unfold finish, fix_line, same_data. destruct (l_ext l) eqn:E; cbn [set_nom set_opt l_x l_r l_par l_ext l_typed l_ac l_dc l_b l_base l_nom l_max l_opt]; rewrite ?E; repeat split; auto.
Qed.
Lemma init_plain l : (l_ext l && l_typed l) = false -> init_line l = l.
Proof. intros E. unfold init_line. now rewrite E. Qed.
Lemma init_opt l : l_opt (init_line l) = l_opt l /\ l_ext (init_line l) = l_ext l /\ l_typed (init_line l) = l_typed l /\ l_x (init_line l) = l_x l /\ l_r (init_line l) = l_r l /\ same_data l (init_line l).
Proof. unfold init_line, same_data. destruct (l_ext l && l_typed l); cbn; repeat split; auto. Qed.

Lemma expand_scaled optimize diff_ge mn mx th fr ls ls' k :
  (forall i ls os, optimize i ls = Some os -> List.length os = List.length ls /\ forall o, In o os -> 0 < o) ->
  (forall l, In l ls -> l_ext l = true -> 0 < l_opt l) ->
  expand optimize diff_ge mn mx None th fr ls = Some (ls', k) ->
  Forall2 (fun l l' => scaled l l' k) ls ls' /\ (k <= mx)%nat /\ ((k < mx)%nat -> (mn <= S k)%nat) /\ ((0 < mx)%nat -> (1 <= k)%nat).
Proof.
  intros P I0 E. unfold expand in E. destruct (iterate _ _ _ _ _ _ _) as [[lsm km]|] eqn:IT; [|discriminate]. injection E as <- <-.
  assert (F0 : Forall2 (fun l l' => scaled l l' 0) (map init_line ls) (map init_line ls)).
  { clear IT. induction ls as [|l ls IH]; [constructor|]. cbn [map]. constructor.
    - apply scaled_refl. destruct (init_opt l) as [E1 [E2 _]]. rewrite E1, E2. intros X. apply I0; simpl; auto.
    - apply IH. intros q Iq. apply I0. simpl. auto. }
  apply (iterate_scaled optimize diff_ge mn P mx 1 true (map init_line ls)) in IT; [|lia|exact F0].
  destruct IT as [F [B1 [B2 B3]]]. split; [|split; [lia|split; [intros; apply B2; lia|auto]]].
  clear B1 B2 B3 F0. revert lsm F. induction ls as [|l ls IH]; intros lsm F; inversion F as [|? l' ? lsm' S F' E1 E2]; subst; [constructor|]. cbn [map]. constructor; [|apply IH; [intros q Iq; apply I0; simpl; auto|exact F']].
  destruct (finish_plain th fr l') as [X [R [PR [SD O]]]]. destruct (init_opt l) as [I1 [I2 [I3 [I4 [I5 SDI]]]]].
  destruct S as [S [SX [SR [SX0 [SR0 [SP [SO SN]]]]]]]. set (f := finish None th fr l') in *. set (i := init_line l) in *.
  assert (OF : l_ext l = true -> l_opt f = l_opt l').
  { intros E. destruct S as [S1 _]. rewrite O, S1, I2, E. reflexivity. }
  unfold same_data in *. split; [unfold same_data; intuition congruence|]. destruct SDI as [D1 [D2 [D3 [D4 [D5 [D6 [D7 D8]]]]]]].
  unfold product_kept in *. clearbody i f. rewrite D1, D2, D3, I1, I4 in SX. rewrite D1, D2, D4, I1, I5 in SR. rewrite D1, D2, D3, I4 in SX0. rewrite D1, D2, D4, I5 in SR0. rewrite D1, D2, D6 in SP. rewrite D1 in SO. rewrite D1, D7 in SN. rewrite D1, D7 in S.
  split; [intros A B C q Q; destruct (SX A B C q Q) as [q' [Q1 Q2]]; exists q'; rewrite X, (OF A); auto|]. split; [intros A B C q Q; destruct (SR A B C q Q) as [q' [Q1 Q2]]; exists q'; rewrite R, (OF A); auto|]. split; [rewrite X; auto|]. split; [rewrite R; auto|]. split; [intros A B C K; destruct (SP A B C K) as [q' [Q1 Q2]]; exists q'; rewrite PR, (OF A); auto|]. split; [intros A; rewrite (OF A); auto|].
  intros A K. destruct S as [S1 [_ [_ [_ [_ [_ [S7 _]]]]]]]. rewrite O, S1, A, S7. reflexivity.
Qed.

Lemma finish_restores us th fr l : l_ext l = true -> l_nom (finish us th fr l) = l_nom l /\ l_ext (finish us th fr l) = true.
Proof. intros E. unfold finish. rewrite E. cbn. auto. Qed.
(* the final capacities of extendable lines are the discretised ones *)
Lemma finish_opt us th fr l : l_ext l = true ->
  l_opt (finish us th fr l) = match us with Some u => discretized_capacity (l_opt l) (l_max l) u th fr | None => l_opt l end.
Proof. intros E. unfold finish, fix_line. rewrite E. destruct us; reflexivity. Qed.
