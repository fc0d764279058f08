From Coq Require Import List String Bool QArith ZArith Arith Lqa Lia.
From Verif Require Import LinModel LinProofs StorageModel StorageSpec StorageProofs RollingModel RollingSpec.
Import ListNotations.
Open Scope string_scope.
Open Scope list_scope.

(* windows *)
Section W.
Variable len : nat.
Variables horizon overlap : Z.
Hypothesis Ov : (0 <= overlap < horizon)%Z.
Let H := Z.to_nat horizon.
Let step := Z.to_nat (horizon - overlap).
Let ws := map (fun k => (k * step, stop len horizon (k * step)))%nat (seq 0 (n_starts len step)).

Lemma step_pos : (1 <= step)%nat. Proof. unfold step. lia. Qed.
Lemma step_le : (step <= H)%nat. Proof. unfold step, H. lia. Qed.
Lemma overlap_is : (H - step = Z.to_nat overlap)%nat. Proof. unfold step, H. lia. Qed.
Lemma stop_min s : stop len horizon s = Nat.min len (s + H).
Proof.
  unfold stop. assert (E : (Z.min (Z.of_nat len) (Z.of_nat s + horizon) = Z.of_nat (Nat.min len (s + H)))%Z).
  { rewrite Nat2Z.inj_min, Nat2Z.inj_add. unfold H. rewrite Z2Nat.id by lia. reflexivity. }
  rewrite E. destruct (Z.ltb_spec (Z.of_nat (Nat.min len (s + H))) 0); [lia|]. now rewrite Nat2Z.id.
Qed.
Lemma start_lt k : (k < n_starts len step)%nat <-> (k * step < len)%nat.
Proof.
  pose proof step_pos as P. unfold n_starts. split; intros L.
  - pose proof (Nat.div_mod (len + step - 1) step ltac:(lia)) as D. pose proof (Nat.mod_upper_bound (len + step - 1) step ltac:(lia)).
    set (q := ((len + step - 1) / step)%nat) in *. assert ((S k) * step <= q * step)%nat by (apply Nat.mul_le_mono_r; lia). nia.
  - apply Nat.div_le_lower_bound; nia.
Qed.
Lemma ws_in w : In w ws <-> exists k, (k * step < len)%nat /\ w = (k * step, Nat.min len (k * step + H))%nat.
Proof.
  unfold ws. rewrite in_map_iff. split.
  - intros [k [<- I]]. apply in_seq in I. exists k. rewrite stop_min. split; auto. apply start_lt. lia.
  - intros [k [L ->]]. exists k. rewrite stop_min. split; auto. apply in_seq. apply start_lt in L. lia.
Qed.
Lemma windows_eq : windows len horizon overlap = Windows ws.
Proof.
  unfold windows. destruct (Z.leb_spec horizon overlap); [lia|]. fold step. fold ws.
  replace (forallb _ ws) with true; [reflexivity|]. symmetry. apply forallb_forall. intros w I. apply ws_in in I.
  destruct I as [k [L ->]]. cbn [fst snd]. apply Nat.ltb_lt. pose proof step_pos. pose proof step_le. lia.
Qed.
Lemma ws_nth i d : (i * step < len)%nat -> nth i ws d = (i * step, Nat.min len (i * step + H))%nat.
Proof.
  intros L. apply start_lt in L. unfold ws. set (f := fun k => (k * step, stop len horizon (k * step))%nat).
  rewrite (nth_indep _ d (f 0%nat)) by (rewrite map_length, seq_length; auto). rewrite (map_nth f), seq_nth by auto. unfold f. now rewrite stop_min.
Qed.
Lemma ws_len i : (i < List.length ws)%nat <-> (i * step < len)%nat.
Proof. unfold ws. rewrite map_length, seq_length. apply start_lt. Qed.

Lemma windows_good : exists l, windows len horizon overlap = Windows l /\
  (forall t, covers l t <-> (t < len)%nat) /\
  (forall a b, In (a, b) l -> (a < b <= len)%nat /\ (Z.of_nat b - Z.of_nat a <= horizon)%Z /\ (b = len \/ (Z.of_nat b - Z.of_nat a = horizon)%Z)) /\
  (forall d, (0 < len)%nat -> fst (nth 0 l d) = 0%nat) /\
  (forall i d, (S i < List.length l)%nat -> let w := nth i l d in let w' := nth (S i) l d in
     (Z.of_nat (fst w') = Z.of_nat (fst w) + (horizon - overlap))%Z /\
     ((Z.of_nat (snd w) - Z.of_nat (fst w') = overlap)%Z \/ snd w = len)).
Proof.
  exists ws. split; [apply windows_eq|]. pose proof step_pos as SP. pose proof step_le as SL. pose proof overlap_is as OI.
  split; [|split; [|split]].
  - intros t. split.
    + intros [w [I L]]. apply ws_in in I. destruct I as [k [K ->]]. cbn [fst snd] in L. lia.
    + intros L. exists (t / step * step, Nat.min len (t / step * step + H))%nat.
      pose proof (Nat.div_mod t step ltac:(lia)) as D. pose proof (Nat.mod_upper_bound t step ltac:(lia)) as M.
      assert (E : (t / step * step = step * (t / step))%nat) by lia. split.
      * apply ws_in. exists (t / step)%nat. split; auto. lia.
      * cbn [fst snd]. lia.
  - intros a b I. apply ws_in in I. destruct I as [k [K E]]. injection E as -> ->. unfold H in *. lia.
  - intros d L. rewrite ws_nth by lia. reflexivity.
  - intros i d L. apply ws_len in L. cbn zeta. rewrite !ws_nth by lia. cbn [fst snd]. unfold step, H in *. lia.
Qed.

(* each window starts within what has been covered *)
Fixpoint chain (lo E : nat) (l : list (nat * nat)) : Prop :=
  match l with [] => True | w :: r => (lo <= fst w <= E)%nat /\ (fst w < snd w)%nat /\ (E <= snd w)%nat /\ chain (S (fst w)) (snd w) r end.
Definition reach (E : nat) (l : list (nat * nat)) : nat := fold_left (fun _ w => snd w) l E.
Lemma ws_chain : chain 0 0 ws /\ ((0 < len)%nat -> reach 0 ws = len).
Proof.
  pose proof step_pos as SP. pose proof step_le as SL.
  assert (G : forall m k lo E, (k + m = n_starts len step)%nat -> (lo <= k * step)%nat ->
      (forall s, (k * step < len -> s = k * step -> s <= E <= Nat.min len (s + H))%nat) ->
      let l := map (fun k => (k * step, stop len horizon (k * step)))%nat (seq k m) in
      chain lo E l /\ ((0 < m)%nat -> reach E l = len)).
  { induction m as [|m IH]; intros k lo E Q L B; cbn [seq map chain]; [split; [exact I|lia]|].
    assert (K : (k * step < len)%nat) by (apply start_lt; lia). destruct (B _ K eq_refl) as [B1 B2]. rewrite stop_min. cbn [fst snd].
    destruct (IH (S k) (S (k * step)) (Nat.min len (k * step + H))) as [C R].
    - lia.
    - nia.
    - intros s Ls ->. split; [|]; nia.
    - split; [repeat split; auto; lia|]. intros _. unfold reach in *. cbn [fold_left snd]. destruct m as [|m].
      + cbn [seq map fold_left]. assert (N : ~ (S k * step < len)%nat) by (rewrite <- start_lt; lia). nia.
      + apply R. lia. }
  destruct (G (n_starts len step) 0%nat 0%nat 0%nat) as [C R]; [lia|lia|intros s Ls ->; lia|]. fold ws in C, R. split; auto.
  intros L. apply R. apply start_lt. lia.
Qed.
End W.

Lemma windows_rejected len horizon overlap : windows len horizon overlap = ValueError <-> (horizon <= overlap)%Z.
Proof.
  unfold windows. destruct (Z.leb_spec horizon overlap); split; intros; auto; try lia. destruct (forallb _ _); discriminate.
Qed.

Open Scope Q_scope.
Section Run.
Variable a : storage.
Variable lv : string.
Variable gain : sol -> nat -> Q.                    (* over the whole horizon *)
Variable wgain : sol -> nat -> nat -> Q.            (* window start, position in the window *)
Variable ini : net -> Q.
Variable optimize : nat -> nat * nat -> net -> option sol.
Hypothesis ini_hand : forall s n, ini (hand_over s n) = res n (lv, (s - 1)%nat, s_name a).
Hypothesis ini_assign : forall w x n, ini (assign w x n) = ini n.
Hypothesis gain_local : forall y y' t, (forall v, y (v, t, s_name a) = y' (v, t, s_name a)) -> gain y t == gain y' t.
Hypothesis gain_window : forall x y s i, (forall v, y (v, (s + i)%nat, s_name a) = x (v, i, s_name a)) -> wgain x s i == gain y (s + i)%nat.
Variable ws0 : list (nat * nat).
Hypothesis solved : forall i w n, In w ws0 -> exists x, optimize i w n = Some x /\
  forall j, (fst w + j < snd w)%nat ->
    x (lv, j, s_name a) == match j with O => ini n | S k => s_stand a (fst w + j)%nat * x (lv, k, s_name a) end + wgain x (fst w) j.

Let L (n : net) (t : nat) : Q := res n (lv, t, s_name a).
Variable init0 : Q.
Definition inv (E : nat) (st : list nat) (n : net) : Prop := forall t, (t < E)%nat ->
  L n t == match t with O => init0 | S k => (if existsb (Nat.eqb t) st then 1 else s_stand a t) * L n k end + gain (res n) t.

Lemma assign_in w x n v j : (fst w + j < snd w)%nat -> res (assign w x n) (v, (fst w + j)%nat, s_name a) = x (v, j, s_name a).
Proof.
  intros B. unfold assign. cbn [res]. destruct (Nat.leb_spec (fst w) (fst w + j)); [|lia]. destruct (Nat.ltb_spec (fst w + j) (snd w)); [|lia]. cbn [andb].
  now replace (fst w + j - fst w)%nat with j by lia.
Qed.
Lemma assign_below w x n v t : (t < fst w)%nat -> res (assign w x n) (v, t, s_name a) = res n (v, t, s_name a).
Proof. intros B. unfold assign. cbn [res]. destruct (Nat.leb_spec (fst w) t); [lia|]. reflexivity. Qed.

Lemma existsb_not t st : (forall s, In s st -> (s < t)%nat) -> existsb (Nat.eqb t) st = false.
Proof.
  intros B. destruct (existsb (Nat.eqb t) st) eqn:E; auto. apply existsb_exists in E. destruct E as [s [I Q]]. apply Nat.eqb_eq in Q. specialize (B s I). lia.
Qed.
Lemma existsb_app_old t st b : t <> b -> existsb (Nat.eqb t) (st ++ [b]) = existsb (Nat.eqb t) st.
Proof. intros D. rewrite existsb_app. cbn [existsb]. destruct (Nat.eqb_spec t b); [contradiction|]. now rewrite !orb_false_r. Qed.

Lemma one_window w x n E st :
  (fst w <= E)%nat -> (fst w < snd w)%nat -> (E <= snd w)%nat -> (forall s, In s st -> (s < fst w)%nat) ->
  (ini n == match fst w with O => init0 | S k => L n k end) ->
  (forall j, (fst w + j < snd w)%nat ->
    x (lv, j, s_name a) == match j with O => ini n | S k => s_stand a (fst w + j)%nat * x (lv, k, s_name a) end + wgain x (fst w) j) ->
  inv E st n -> inv (snd w) (st ++ [fst w]) (assign w x n).
Proof.
  intros B1 B2 B3 HS In X V t Lt. destruct (Nat.lt_trichotomy t (fst w)) as [D|[D|D]].
  - rewrite existsb_app_old by lia. specialize (V t ltac:(lia)). unfold L in *. rewrite (assign_below w x n lv t D).
    rewrite (gain_local (res (assign w x n)) (res n) t) by (intros v; now apply assign_below). destruct t as [|k]; auto. rewrite (assign_below w x n lv k) by lia. exact V.
  - subst t. specialize (X 0%nat ltac:(lia)). unfold L in *.
    assert (A0 : forall v, res (assign w x n) (v, (fst w + 0)%nat, s_name a) = x (v, 0%nat, s_name a)) by (intros v; apply assign_in; lia).
    rewrite (gain_window x (res (assign w x n)) (fst w) 0 A0) in X. pose proof (A0 lv) as A1. rewrite Nat.add_0_r in *. rewrite A1, X, In.
    destruct (fst w) as [|k] eqn:F; [reflexivity|]. rewrite existsb_app. cbn [existsb]. rewrite Nat.eqb_refl. cbn [orb]. rewrite orb_true_r.
    rewrite (assign_below w x n lv k) by lia. ring.
  - assert (EX : exists j, t = (fst w + S j)%nat) by (exists (t - fst w - 1)%nat; lia). destruct EX as [j ->].
    rewrite existsb_app_old by lia. rewrite existsb_not by (intros s I; specialize (HS s I); lia).
    specialize (X (S j) ltac:(lia)). unfold L.
    assert (A0 : forall v, res (assign w x n) (v, (fst w + S j)%nat, s_name a) = x (v, S j, s_name a)) by (intros v; apply assign_in; lia).
    rewrite (gain_window x (res (assign w x n)) (fst w) _ A0) in X. rewrite (A0 lv), X. rewrite Nat.add_succ_r.
    rewrite (assign_in w x n lv j) by lia. reflexivity.
Qed.

Lemma loop_inv ws i n E lo st : (forall w, In w ws -> In w ws0) -> chain lo E ws -> (forall s, In s st -> (s < lo)%nat) ->
  match i with O => E = 0%nat /\ ini n == init0 | S _ => (0 < lo)%nat end ->
  inv E st n -> inv (reach E ws) (st ++ starts ws) (loop optimize i ws n).
Proof.
  revert i n E lo st. induction ws as [|w r IH]; intros i n E lo st W C S I0 V.
  - cbn [reach starts map fold_left loop]. rewrite app_nil_r. exact V.
  - destruct C as [[C0 C1] [C2 [C3 C4]]]. cbn [loop]. set (n1 := match i with O => n | Datatypes.S _ => hand_over (fst w) n end).
    assert (V1 : inv E st n1) by (unfold n1; destruct i; exact V).
    assert (R : res n1 = res n) by (unfold n1; destruct i; reflexivity).
    assert (N1 : ini n1 == match fst w with O => init0 | Datatypes.S k => L n1 k end).
    { unfold n1. destruct i as [|i].
      - destruct I0 as [-> I0]. assert (Z : fst w = 0%nat) by lia. rewrite Z. exact I0.
      - rewrite ini_hand. destruct (fst w) as [|k] eqn:F; [lia|]. replace (Datatypes.S k - 1)%nat with k by lia. reflexivity. }
    destruct (solved i w n1 (W w (or_introl eq_refl))) as [x [O X]]. rewrite O.
    assert (V2 : inv (snd w) (st ++ [fst w]) (assign w x n1)).
    { apply (one_window w x n1 E st); auto. intros s I. specialize (S s I). lia. }
    change (reach E (w :: r)) with (reach (snd w) r).
    replace (st ++ starts (w :: r)) with ((st ++ [fst w]) ++ starts r) by (rewrite <- app_assoc; reflexivity).
    apply (IH (Datatypes.S i) (assign w x n1) (snd w) (Datatypes.S (fst w)) (st ++ [fst w])); auto.
    + intros v I. apply W. simpl. auto.
    + intros s I. apply in_app_or in I. destruct I as [I|[<-|[]]]; [specialize (S s I)|]; lia.
    + lia.
Qed.
End Run.

(* the level in a window follows the recursion *)
Lemma follows_window T a lvl gain : follows T None a lvl gain -> s_cyclic a = false -> (forall t, s_active a t = true) ->
  forall j, (j < T)%nat -> lvl j == match j with O => s_init a | S k => s_stand a j * lvl k end + gain j.
Proof.
  intros F C A j L. destruct j as [|k].
  - apply (F 0%nat Initial L (A _)). split; auto. intros r R. lia.
  - apply (F (S k) (From k) L (A _)). left. repeat split; auto. intros r R. lia.
Qed.

Lemma value_x x a v t : (forall t, s_active a t = true) -> value x a v t = x (v, t, s_name a).
Proof. intros A. unfold value. now rewrite A. Qed.

Lemma store_assembled len horizon overlap a hours optimize n ws :
  (0 <= overlap < horizon)%Z -> windows len horizon overlap = Windows ws -> s_cyclic a = false -> (forall t, s_active a t = true) ->
  solves_store a hours optimize ws ->
  let r := res (loop optimize 0 ws n) in
  assembled len (starts ws) a (e_initial n (s_name a)) (value r a "Store-e") (store_gain r a hours).
Proof.
  intros O W C A S r. rewrite (windows_eq len horizon overlap O) in W. injection W as W.
  destruct (ws_chain len horizon overlap O) as [CH RE]. rewrite W in CH, RE. intros t L.
  assert (V : inv a "Store-e" (fun y t => store_gain y a hours t) (e_initial n (s_name a)) (reach 0 ws) ([] ++ starts ws) (loop optimize 0 ws n)).
  { apply (loop_inv a "Store-e" (fun y t => store_gain y a hours t) (fun x s i => store_gain x (in_window a s 0) (fun t => hours (s + t)%nat) i)
      (fun n => e_initial n (s_name a)) optimize) with (ws0 := ws) (lo := 0%nat); auto.
    - intros y y' u E. unfold store_gain. rewrite !value_x by auto. now rewrite (E "Store-p").
    - intros x y s i E. unfold store_gain. rewrite !value_x by (auto; intros; apply A). cbn [s_name in_window]. now rewrite (E "Store-p").
    - intros i w m I. destruct (S i w m I) as [x [O1 X]]. exists x. split; auto. intros j J. apply store_iff in X; [|exact Logic.I].
      pose proof (follows_window _ _ _ _ X C (fun t => A _) j ltac:(lia)) as F. rewrite !value_x in F by (intros; apply A). cbn [s_name in_window s_init s_stand] in F.
      rewrite F. unfold store_gain. rewrite !value_x by (intros; apply A). cbn [s_name in_window]. destruct j as [|k]; [reflexivity|].
      rewrite value_x by (intros; apply A). reflexivity.
    - intros s [].
    - split; reflexivity.
    - intros u Lu. lia. }
  rewrite RE in V by lia. specialize (V t L). cbn [app] in V. rewrite !value_x by auto. unfold r. rewrite V.
  destruct t as [|k]; [reflexivity|]. rewrite value_x by auto. reflexivity.
Qed.

Lemma unit_assembled len horizon overlap a d optimize n ws :
  (0 <= overlap < horizon)%Z -> windows len horizon overlap = Windows ws -> s_cyclic a = false -> (forall t, s_active a t = true) ->
  solves_unit a d optimize ws ->
  let r := res (loop optimize 0 ws n) in
  assembled len (starts ws) a (soc_initial n (s_name a)) (value r a "StorageUnit-state_of_charge") (unit_gain r a d).
Proof.
  intros O W C A S r. rewrite (windows_eq len horizon overlap O) in W. injection W as W.
  destruct (ws_chain len horizon overlap O) as [CH RE]. rewrite W in CH, RE. intros t L.
  assert (SP : forall b dd y u, (forall t, s_active b t = true) -> val y (spill_label b dd u) = if negb (Qle_bool (inflow dd u) 0) then y ("StorageUnit-spill", u, s_name b) else 0).
  { intros b dd y u B. unfold spill_label, var_of. rewrite B. now destruct (negb _). }
  assert (V : inv a "StorageUnit-state_of_charge" (fun y t => unit_gain y a d t) (soc_initial n (s_name a)) (reach 0 ws) ([] ++ starts ws) (loop optimize 0 ws n)).
  { apply (loop_inv a "StorageUnit-state_of_charge" (fun y t => unit_gain y a d t) (fun x s i => unit_gain x (in_window a s 0) (unit_in_window d s) i)
      (fun n => soc_initial n (s_name a)) optimize) with (ws0 := ws) (lo := 0%nat); auto.
    - intros y y' u E. unfold unit_gain. rewrite !SP, !value_x by auto. now rewrite !E.
    - intros x y s i E. unfold unit_gain. rewrite !SP, !value_x by (auto; intros; apply A). cbn [s_name in_window unit_in_window eh eff_store eff_dispatch inflow]. now rewrite !E.
    - intros i w m I. destruct (S i w m I) as [x [O1 X]]. exists x. split; auto. intros j J. apply unit_iff in X; [|exact Logic.I].
      pose proof (follows_window _ _ _ _ X C (fun t => A _) j ltac:(lia)) as F. rewrite !value_x in F by (intros; apply A). cbn [s_name in_window s_init s_stand] in F.
      rewrite F. unfold unit_gain. rewrite !SP, !value_x by (intros; apply A). cbn [s_name in_window]. destruct j as [|k]; [reflexivity|].
      rewrite value_x by (intros; apply A). reflexivity.
    - intros s [].
    - split; reflexivity.
    - intros u Lu. lia. }
  rewrite RE in V by lia. specialize (V t L). cbn [app] in V. rewrite !value_x by auto. unfold r. rewrite V.
  destruct t as [|k]; [reflexivity|]. rewrite value_x by auto. reflexivity.
Qed.

(* without standing losses at the window starts the result meets the balance of the whole horizon *)
Definition with_initial (a : storage) (init : Q) : storage :=
  {| s_name := s_name a; s_active := s_active a; s_stand := s_stand a; s_init := init; s_cyclic := s_cyclic a; s_cyclic_pp := s_cyclic_pp a; s_init_pp := s_init_pp a |}.
Lemma assembled_follows len st a init lvl gain : assembled len st a init lvl gain -> s_cyclic a = false -> (forall t, s_active a t = true) ->
  (forall t, In t st -> t <> 0%nat -> s_stand a t == 1) -> follows len None (with_initial a init) lvl gain.
Proof.
  intros H C A B t src L _ CF. rewrite (H t L). destruct src as [|s]; cbn [comes_from separate_periods with_initial s_cyclic s_init s_stand] in *.
  - destruct CF as [_ I]. destruct t as [|k]; [reflexivity|]. specialize (I 0%nat ltac:(lia)). cbn [with_initial s_active] in I. rewrite A in I. discriminate.
  - destruct CF as [[L1 [_ N]]|[C' _]]; [|cbn in C'; congruence]. destruct t as [|k]; [lia|].
    assert (s = k). { destruct (Nat.eq_dec s k); auto. specialize (N k ltac:(lia)). cbn [with_initial s_active] in N. rewrite A in N. discriminate. }
    subst s. destruct (existsb (Nat.eqb (S k)) st) eqn:E; [|reflexivity]. apply existsb_exists in E. destruct E as [u [I Q]]. apply Nat.eqb_eq in Q. subst u.
    rewrite (B (S k) I) by lia. reflexivity.
Qed.

(* concrete runs: a store of 8 MWh, two windows of one snapshot *)
Definition st_half : storage := ex_s (fun _ => 1 # 2) 8 false true false.
Definition keep : nat -> nat * nat -> net -> option sol :=
  fun _ _ n => Some (sol3 (fun w _ => if String.eqb w "Store-e" then e_initial n "s" else 0)).
Definition empty_it : nat -> nat * nat -> net -> option sol :=
  fun _ _ n => Some (sol3 (fun w _ => if String.eqb w "Store-p" then e_initial n "s" else 0)).
Definition n0 : net := {| res := fun _ => 0; e_initial := fun _ => 8; soc_initial := fun _ => 0 |}.
Lemma one_step x a hours w : s_cyclic a = false -> s_active a (fst w) = true -> snd w = S (fst w) -> forall i,
  x ("Store-e", 0%nat, s_name a) == i - hours (fst w) * x ("Store-p", 0%nat, s_name a) ->
  sat x (store_balance (snd w - fst w) None (in_window a (fst w) i) (fun t => hours (fst w + t)%nat)).
Proof.
  intros C A E i H. apply store_iff; [exact I|]. replace (snd w - fst w)%nat with 1%nat by lia. intros t src L Ac CF. assert (t = 0%nat) by lia. subst t.
  assert (AA : s_active (in_window a (fst w) i) 0%nat = true) by (cbn; now rewrite Nat.add_0_r).
  destruct src as [|s].
  - unfold store_gain, value. rewrite AA. cbn [in_window s_name s_init]. rewrite Nat.add_0_r. lra.
  - destruct CF as [[L1 _]|[C' _]]; [lia|cbn in C'; congruence].
Qed.
Lemma two_windows : windows 2 1 0 = Windows [(0, 1); (1, 2)]%nat.
Proof. reflexivity. Qed.
Lemma standing_loss_skipped : windows 2 1 0 = Windows [(0, 1); (1, 2)]%nat /\ solves_store st_half (fun _ => 1) keep [(0, 1); (1, 2)]%nat /\
  let r := res (loop keep 0 [(0, 1); (1, 2)]%nat n0) in
  value r st_half "Store-e" 1 == 8 /\ ~ sat r (store_balance 2 None st_half (fun _ => 1)).
Proof.
  split; [reflexivity|]. split; [|split; [reflexivity|]].
  - intros i w n I. eexists. split; [reflexivity|]. apply (one_step _ st_half (fun _ => 1) w); auto.
    + destruct I as [<-|[<-|[]]]; reflexivity.
    + cbn [sol3 String.eqb]. cbn. ring.
  - intros H. apply satb_iff in H. vm_compute in H. discriminate.
Qed.
Lemma initial_changed : solves_store st_half (fun _ => 1) empty_it [(0, 1); (1, 2)]%nat /\
  e_initial n0 "s" == 8 /\ e_initial (loop empty_it 0 [(0, 1); (1, 2)]%nat n0) "s" == 0.
Proof.
  split; [|split; reflexivity]. intros i w n I. eexists. split; [reflexivity|]. apply (one_step _ st_half (fun _ => 1) w); auto.
  - destruct I as [<-|[<-|[]]]; reflexivity.
  - cbn. ring.
Qed.
