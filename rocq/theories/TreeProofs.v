From Coq Require Import List Bool ZArith QArith Arith Lia.
From Verif Require Import CyclesModel CyclesSpec CyclesProofs TreeModel TreeSpec.
Import ListNotations.
Open Scope list_scope.

(* ---------- sums ---------- *)
Section Sums.
Open Scope Q_scope.
Lemma qsum_plus f g n : qsum (fun i => f i + g i) n == qsum f n + qsum g n.
Proof. induction n as [|n IH]; cbn [qsum]; [ring|]. rewrite IH. ring. Qed.
Lemma qsum_mul c f n : qsum (fun i => c * f i) n == c * qsum f n.
Proof. induction n as [|n IH]; cbn [qsum]; [ring|]. rewrite IH. ring. Qed.
Lemma qsum_zero f n : (forall i, (i < n)%nat -> f i == 0) -> qsum f n == 0.
Proof. induction n as [|n IH]; intros H; cbn [qsum]; [reflexivity|]. rewrite IH by (intros; apply H; lia). rewrite H by lia. ring. Qed.
Lemma qsum_swap (f : nat -> nat -> Q) n m : qsum (fun i => qsum (fun j => f i j) m) n == qsum (fun j => qsum (fun i => f i j) n) m.
Proof.
  induction n as [|n IH]; cbn [qsum]; [symmetry; now apply qsum_zero|]. rewrite IH. rewrite <- qsum_plus. reflexivity.
Qed.
Lemma qsum_z f n : qsum (fun i => inject_Z (f i)) n == inject_Z (zsum f n).
Proof. induction n as [|n IH]; cbn [qsum zsum]; [reflexivity|]. rewrite IH, inject_Z_plus. reflexivity. Qed.
Lemma qsum_pick (f : nat -> Q) k n : (k < n)%nat -> qsum (fun i => inject_Z (delta (Nat.eqb i k)) * f i) n == f k.
Proof.
  induction n as [|n IH]; intros H; [lia|]. cbn [qsum]. destruct (Nat.eqb_spec n k) as [->|N].
  - rewrite qsum_zero; [unfold delta; ring|]. intros i Hi. replace (Nat.eqb i k) with false by (symmetry; apply Nat.eqb_neq; lia). unfold delta. ring.
  - rewrite IH by lia. unfold delta. ring.
Qed.
End Sums.

(* ---------- the slack of the tree ---------- *)
Lemma max_degree_spec ds e : max_degree ds = Some e -> In e ds /\ forall d, In d ds -> (snd d <= snd e)%nat.
Proof.
  destruct ds as [|d ds]; [discriminate|]. cbn [max_degree]. intros H. injection H as <-. revert d. induction ds as [|c ds IH]; intros d; cbn [fold_left].
  - split; [now left|]. intros d' [<-|[]]. lia.
  - destruct (Nat.ltb_spec (snd d) (snd c)) as [L|L].
    + destruct (IH c) as [I M]. split; [now right|]. intros d' [<-|[<-|J]]; [pose proof (M c (or_introl eq_refl)); lia|apply M; now left|apply M; now right].
    + destruct (IH d) as [I M]. split; [destruct I; [now left|right; now right]|]. intros d' [<-|[<-|J]]; [apply M; now left|pose proof (M d (or_introl eq_refl)); lia|apply M; now right].
Qed.
Lemma slack_spec tree nb s : tree_slack tree nb = Some s -> (s < nb)%nat /\ forall v, (v < nb)%nat -> (degree tree v <= degree tree s)%nat.
Proof.
  unfold tree_slack. destruct (max_degree _) as [[v d]|] eqn:E; [|discriminate]. cbn [option_map fst]. intros H. injection H as <-. apply max_degree_spec in E. destruct E as [I M].
  apply in_map_iff in I. destruct I as (u & Eu & I). injection Eu as -> <-. apply in_seq in I. split; [lia|]. intros w W.
  specialize (M (w, degree tree w)). cbn [snd] in M. apply M. apply in_map_iff. exists w. split; [reflexivity|]. apply in_seq. lia.
Qed.
Lemma slack_exists tree nb : (0 < nb)%nat -> exists s, tree_slack tree nb = Some s.
Proof. intros H. unfold tree_slack. destruct nb as [|nb]; [lia|]. cbn [seq map max_degree option_map]. eauto. Qed.

(* ---------- assignments ---------- *)
Lemma assigned_from (col : list (nat * Z)) (l : nat) (z : Z) : ~ In l (map fst col) -> fold_left (fun z e => if Nat.eqb (fst e) l then snd e else z) col z = z.
Proof.
  revert z. induction col as [|[k w] col IH]; intros z H; [reflexivity|]. cbn [fold_left fst snd]. cbn [map fst In] in H.
  replace (Nat.eqb k l) with false by (symmetry; apply Nat.eqb_neq; tauto). apply IH. tauto.
Qed.
Lemma entry_none col l : ~ In l (map fst col) -> col_entry col l = 0%Z.
Proof.
  induction col as [|[k w] col IH]; intros H; [reflexivity|]. cbn [map fst In] in H. unfold col_entry in *. cbn [fold_right fst snd].
  replace (Nat.eqb k l) with false by (symmetry; apply Nat.eqb_neq; tauto). apply IH. tauto.
Qed.
Lemma assigned_entry col l : NoDup (map fst col) -> assigned col l = col_entry col l.
Proof.
  unfold assigned. induction col as [|[k w] col IH]; intros H; [reflexivity|]. cbn [map fst] in H. inversion H as [|? ? NI ND]; subst. cbn [fold_left fst snd].
  unfold col_entry. cbn [fold_right fst snd]. fold (col_entry col l). destruct (Nat.eqb_spec k l) as [->|N].
  - rewrite assigned_from by exact NI. rewrite (entry_none _ _ NI). lia.
  - now apply IH.
Qed.

(* ---------- one path ---------- *)
Lemma walks_head es a s p : walks es a s p -> exists r, p = a :: r.
Proof. intros H. destruct H; eauto. Qed.
Lemma inc_kept brs l x : inc (map kept brs) l x = inc brs l x.
Proof. unfold inc. rewrite nth_error_map. destruct (nth_error brs l); reflexivity. Qed.
Lemma steps_cons a b r : steps (a :: b :: r) = (a, b) :: steps (b :: r).
Proof. reflexivity. Qed.
Lemma walk_telescope es a s p x : walks es a s p ->
  fold_right (fun uv z => (delta (Nat.eqb (fst uv) x) - delta (Nat.eqb (snd uv) x) + z)%Z) 0%Z (steps p) = (delta (Nat.eqb a x) - delta (Nat.eqb s x))%Z.
Proof.
  induction 1 as [a|a b s p L W IH]; [cbn; lia|]. destruct (walks_head _ _ _ _ W) as [r ->]. rewrite steps_cons. cbn [fold_right fst snd]. rewrite IH. lia.
Qed.
Lemma walk_links es a s p u v : walks es a s p -> In (u, v) (steps p) -> linked es u v.
Proof.
  induction 1 as [a|a b s p L W IH]; [intros []|]. destruct (walks_head _ _ _ _ W) as [r ->]. rewrite steps_cons. intros [E|I]; [injection E as <- <-; exact L|now apply IH].
Qed.
Lemma column_exists brs a s p : walks brs a s p -> exists col, walk_column (map kept brs) (steps p) = Some col.
Proof.
  intros W. apply walk_total. intros u v I. destruct (walk_links _ _ _ _ _ _ W I) as (b & J & E). exists (kept b). split; [now apply in_map|]. split; [reflexivity|exact E].
Qed.
Lemma column_nodup E p col : NoDup p -> walk_column E (steps p) = Some col ->
  NoDup (map fst col) /\ forall l, In l (map fst col) -> exists b, nth_error E l = Some b /\ In (g0 b) p /\ In (g1 b) p.
Proof.
  revert col. induction p as [|a [|b r] IH]; intros col ND H.
  - injection H as <-. split; [constructor|intros l []].
  - injection H as <-. split; [constructor|intros l []].
  - rewrite steps_cons in H. cbn [walk_column] in H. destruct (keys E a b) as [|l ls] eqn:K; [discriminate|]. destruct (walk_column E (steps (b :: r))) as [c|] eqn:W; [|discriminate].
    inversion ND as [|? ? NI ND']; subst. destruct (IH c ND' eq_refl) as [N1 N2]. injection H as <-. cbn [map fst].
    assert (I : In l (keys E a b)) by (rewrite K; now left). apply keys_In in I. destruct I as (e & Ne & _ & Ee). split.
    + constructor; [|exact N1]. intros J. destruct (N2 l J) as (e' & Ne' & I0 & I1). rewrite Ne in Ne'. injection Ne' as <-. destruct Ee as [[<- _]|[_ <-]]; contradiction.
    + intros k [<-|J]; [exists e; split; [exact Ne|]; cbn; destruct Ee as [[<- <-]|[<- <-]]; auto|]. destruct (N2 k J) as (e' & Ne' & I0 & I1). exists e'. split; [exact Ne'|]. split; now right.
Qed.
Lemma links_sub es brs u v : (forall b, In b es -> In b brs) -> linked es u v -> linked brs u v.
Proof. intros H (b & I & E). exists b. split; [now apply H|exact E]. Qed.
Lemma walks_sub es brs a s p : (forall b, In b es -> In b brs) -> walks es a s p -> walks brs a s p.
Proof. intros H. induction 1 as [a|a b s p L W IH]; [constructor|]. econstructor; [eapply links_sub; eauto|exact IH]. Qed.

Lemma suffix es a s c p : walks es a s p -> NoDup p -> In c p -> exists q, simple_path es c s q /\ (forall v, In v q -> In v p) /\ (c <> a -> ~ In a q).
Proof.
  intros W. induction W as [a|a b s p L W IH]; intros ND I.
  - destruct I as [<-|[]]. exists [a]. split; [split; [constructor|exact ND]|]. split; [auto|]. intros H. now destruct H.
  - inversion ND as [|? ? NI ND']; subst. destruct I as [<-|I].
    + exists (a :: p). split; [split; [econstructor; eauto|exact ND]|]. split; [auto|]. intros H. now destruct H.
    + destruct (IH ND' I) as (q & Sq & Iq & _). exists q. split; [exact Sq|]. split; [intros v V; right; now apply Iq|]. intros _ V. apply NI. now apply Iq.
Qed.

(* ---------- the matrix ---------- *)
Section Tree.
Variables (brs tree : list gbranch) (nb s : nat) (path : nat -> nat -> list nat).
Hypothesis Sub : forall b, In b tree -> In b brs.
Hypothesis Slack : tree_slack tree nb = Some s.
Hypothesis Paths : forall j, (j < nb)%nat -> simple_path tree j s (path j s).

Lemma seq_some {A} (l : list (option A)) : (forall o, In o l -> exists a, o = Some a) -> exists r, sequence l = Some r.
Proof.
  induction l as [|o l IH]; intros H; [exists []; reflexivity|]. destruct (H o (or_introl eq_refl)) as [a ->]. destruct IH as [r E]; [intros o' J; apply H; now right|].
  exists (a :: r). cbn [sequence]. now rewrite E.
Qed.
Lemma sequence_nth {A} (l : list (option A)) r k o : sequence l = Some r -> nth_error l k = Some o -> exists a, o = Some a /\ nth_error r k = Some a.
Proof.
  revert r k. induction l as [|o' l IH]; intros r k E N; [destruct k; discriminate|]. cbn [sequence] in E. destruct o' as [a'|]; [|discriminate].
  destruct (sequence l) as [r'|]; [|discriminate]. injection E as <-. destruct k as [|k]; [injection N as <-; exists a'; split; reflexivity|]. exact (IH r' k eq_refl N).
Qed.
Lemma find_tree_total : exists cols, find_tree brs tree nb path = Some cols.
Proof.
  unfold find_tree. rewrite Slack. apply seq_some. intros o J. apply in_map_iff in J. destruct J as (j & <- & J). apply in_seq in J. destruct (Paths j) as [W _]; [lia|].
  exact (column_exists _ _ _ _ (walks_sub _ _ _ _ _ Sub W)).
Qed.
Variable cols : list (list (nat * Z)).
Hypothesis Found : find_tree brs tree nb path = Some cols.
Lemma column_of j : (j < nb)%nat -> exists col, walk_column (map kept brs) (steps (path j s)) = Some col /\ nth j cols [] = col /\ forall l, T_entry cols l j = col_entry col l.
Proof.
  intros J. unfold find_tree in Found. rewrite Slack in Found. destruct (sequence_nth _ _ j (walk_column (map kept brs) (steps (path j s))) Found) as (col & E & N).
  { rewrite nth_error_map. rewrite (nth_error_nth' _ 0%nat) by (rewrite seq_length; exact J). rewrite seq_nth by exact J. reflexivity. }
  exists col. split; [exact E|]. assert (G : nth j cols [] = col) by (now apply nth_error_nth). split; [exact G|]. intros l. unfold T_entry. rewrite G. apply assigned_entry.
  destruct (Paths j J) as [_ ND]. exact (proj1 (column_nodup _ _ _ ND E)).
Qed.
Lemma tree_column j x : (j < nb)%nat -> zsum (fun l => (inc brs l x * T_entry cols l j)%Z) (List.length brs) = (delta (Nat.eqb j x) - delta (Nat.eqb s x))%Z.
Proof.
  intros J. destruct (column_of j J) as (col & E & _ & G). destruct (Paths j J) as [W _].
  rewrite (zsum_ext _ (fun l => (inc (map kept brs) l x * col_entry col l)%Z)) by (intros l _; now rewrite inc_kept, G).
  rewrite <- (map_length kept brs), col_outflow_dense by (intros l z I; eapply walk_bound; eauto). rewrite (walk_outflow _ _ _ _ E). now apply (walk_telescope tree).
Qed.
Lemma tree_entry j l : (j < nb)%nat -> T_entry cols l j = 0%Z \/ T_entry cols l j = 1%Z \/ T_entry cols l j = (-1)%Z.
Proof.
  intros J. destruct (column_of j J) as (col & E & G & _). unfold T_entry. rewrite G. unfold assigned.
  assert (H : forall k z, In (k, z) col -> z = 1%Z \/ z = (-1)%Z).
  { clear G. revert col E. generalize (steps (path j s)). intros ps. induction ps as [|[u v] ps IH]; intros col E k z I; [injection E as <-; destruct I|]. cbn [walk_column] in E.
    destruct (keys _ u v) as [|l0 ls]; [discriminate|]. destruct (walk_column _ ps) as [c|]; [|discriminate]. injection E as <-. destruct I as [I|I]; [|exact (IH c eq_refl k z I)]. injection I as _ <-.
    destruct (g0_at _ _) as [w|]; [|auto]. destruct (Nat.eqb w u); auto. }
  assert (F : forall z, (z = 0 \/ z = 1 \/ z = -1)%Z -> let w := fold_left (fun z (e : nat * Z) => if Nat.eqb (fst e) l then snd e else z) col z in (w = 0 \/ w = 1 \/ w = -1)%Z); [|apply (F 0%Z); auto].
  clear E G. induction col as [|[k w] col IH]; intros z Z0; [exact Z0|]. cbn [fold_left fst snd].
  apply IH; [intros k' z' I; apply (H k' z'); now right|]. destruct (Nat.eqb k l); [|exact Z0]. right. apply (H k w). now left.
Qed.

Open Scope Q_scope.
Lemma tree_leaving p x : leaving brs (along (T_entry cols) nb p) x == qsum (fun j => (inject_Z (delta (Nat.eqb j x)) - inject_Z (delta (Nat.eqb s x))) * p j) nb.
Proof.
  unfold leaving, along.
  rewrite (qsum_ext _ (fun l => qsum (fun j => inject_Z (inc brs l x) * (inject_Z (T_entry cols l j) * p j)) nb)) by (intros l _; symmetry; apply qsum_mul).
  rewrite qsum_swap. apply qsum_ext. intros j J.
  rewrite (qsum_ext _ (fun l => p j * inject_Z (inc brs l x * T_entry cols l j)%Z)) by (intros l _; rewrite inject_Z_mult; ring).
  rewrite qsum_mul, qsum_z, (tree_column j x J). unfold Z.sub. rewrite inject_Z_plus, inject_Z_opp. ring.
Qed.
Lemma tree_serves p x : (x < nb)%nat -> leaving brs (along (T_entry cols) nb p) x == p x - (if Nat.eqb s x then qsum p nb else 0).
Proof.
  intros X. rewrite tree_leaving.
  rewrite (qsum_ext _ (fun j => inject_Z (delta (Nat.eqb j x)) * p j + - inject_Z (delta (Nat.eqb s x)) * p j)) by (intros j _; ring).
  rewrite qsum_plus, (qsum_pick p x nb X), qsum_mul. destruct (Nat.eqb s x); unfold delta; ring.
Qed.

(* ---------- networks without cycles ---------- *)
Hypothesis Rad : radial brs.
Hypothesis Ends : forall b, In b brs -> (g0 b < nb)%nat /\ (g1 b < nb)%nat.
Lemma first_key l b : nth_error brs l = Some b -> keys (map kept brs) (g0 b) (g1 b) = [l] /\ keys (map kept brs) (g1 b) (g0 b) = [l].
Proof.
  intros N. destruct Rad as (_ & Par & _).
  assert (G : forall u v, (u = g0 b /\ v = g1 b) \/ (u = g1 b /\ v = g0 b) -> keys (map kept brs) u v = [l]).
  { intros u v H. assert (I : In l (keys (map kept brs) u v)).
    { apply keys_In. exists (kept b). rewrite nth_error_map, N. split; [reflexivity|]. split; [reflexivity|]. cbn [kept g0 g1]. destruct H as [[-> ->]|[-> ->]]; auto. }
    assert (A : forall k, In k (keys (map kept brs) u v) -> k = l).
    { intros k K. apply keys_In in K. destruct K as (e & Ne & _ & Ee). rewrite nth_error_map in Ne. destruct (nth_error brs k) as [c|] eqn:Nc; [|discriminate]. injection Ne as <-. cbn [kept g0 g1] in Ee.
      symmetry. apply (Par l k b c N Nc). destruct H as [[-> ->]|[-> ->]]; tauto. }
    pose proof (keys_NoDup (map kept brs) u v) as ND. destruct (keys (map kept brs) u v) as [|k1 [|k2 r]]; [destruct I| |].
    - f_equal. apply A. now left.
    - exfalso. rewrite (A k1 (or_introl eq_refl)), (A k2 (or_intror (or_introl eq_refl))) in ND. inversion ND as [|? ? NI _]; subst. apply NI. now left. }
  split; apply G; auto.
Qed.
Lemma simple_up a p : simple_path tree a s p -> simple_path brs a s p.
Proof. intros [W ND]. split; [now apply (walks_sub tree)|exact ND]. Qed.
Lemma tree_step l b k : nth_error brs l = Some b -> T_entry cols k (g0 b) = (T_entry cols k (g1 b) + delta (Nat.eqb l k))%Z.
Proof.
  intros N. assert (I := nth_error_In _ _ N). destruct (Ends b I) as [B0 B1]. destruct Rad as (Loop & _ & Uniq). specialize (Loop b I). destruct (first_key l b N) as [K0 K1].
  destruct (column_of _ B0) as (c0 & E0 & _ & G0). destruct (column_of _ B1) as (c1 & E1 & _ & G1). rewrite G0, G1.
  pose proof (simple_up _ _ (Paths _ B0)) as [W0 N0]. pose proof (simple_up _ _ (Paths _ B1)) as [W1 N1].
  assert (At : g0_at (map kept brs) l = Some (g0 b)) by (unfold g0_at; now rewrite nth_error_map, N).
  assert (L01 : linked brs (g0 b) (g1 b)) by (exists b; auto). assert (L10 : linked brs (g1 b) (g0 b)) by (exists b; auto).
  destruct (in_dec Nat.eq_dec (g0 b) (path (g1 b) s)) as [J|J].
  - destruct (suffix _ _ _ _ _ W1 N1 J) as (q & [Wq Nq] & _ & Av). assert (Eq : q = path (g0 b) s) by (apply (Uniq (g0 b) s); split; assumption). subst q.
    assert (P1 : path (g1 b) s = g1 b :: path (g0 b) s). { apply (Uniq (g1 b) s); [split; assumption|]. split; [econstructor; eauto|]. constructor; [now apply Av|exact Nq]. }
    rewrite P1 in E1. destruct (walks_head _ _ _ _ W0) as [r R]. rewrite R in *. rewrite steps_cons in E1. cbn [walk_column] in E1. rewrite K1, E0, At in E1. injection E1 as <-.
    replace (Nat.eqb (g0 b) (g1 b)) with false by (symmetry; now apply Nat.eqb_neq). unfold col_entry. cbn [fold_right fst snd]. unfold delta. destruct (Nat.eqb l k); lia.
  - assert (P0 : path (g0 b) s = g0 b :: path (g1 b) s). { apply (Uniq (g0 b) s); [split; assumption|]. split; [econstructor; eauto|]. now constructor. }
    rewrite P0 in E0. destruct (walks_head _ _ _ _ W1) as [r R]. rewrite R in *. rewrite steps_cons in E0. cbn [walk_column] in E0. rewrite K0, E1, At in E0. injection E0 as <-.
    rewrite Nat.eqb_refl. unfold col_entry. cbn [fold_right fst snd]. unfold delta. destruct (Nat.eqb l k); lia.
Qed.
Lemma row_sum k l b : nth_error brs l = Some b -> qsum (fun x => inject_Z (T_entry cols k x) * inject_Z (inc brs l x)) nb == inject_Z (delta (Nat.eqb l k)).
Proof.
  intros N. assert (I := nth_error_In _ _ N). destruct (Ends b I) as [B0 B1].
  rewrite (qsum_ext _ (fun x => inject_Z (delta (Nat.eqb x (g0 b))) * inject_Z (T_entry cols k x) + -(1) * (inject_Z (delta (Nat.eqb x (g1 b))) * inject_Z (T_entry cols k x)))).
  - rewrite qsum_plus, qsum_mul, (qsum_pick (fun x => inject_Z (T_entry cols k x)) _ _ B0), (qsum_pick (fun x => inject_Z (T_entry cols k x)) _ _ B1), (tree_step l b k N), inject_Z_plus. ring.
  - intros x _. unfold inc. rewrite N. unfold Z.sub. rewrite inject_Z_plus, inject_Z_opp, (Nat.eqb_sym (g0 b)), (Nat.eqb_sym (g1 b)). ring.
Qed.
Lemma tree_unique f p : (forall x, (x < nb)%nat -> leaving brs f x == p x) -> forall k, (k < List.length brs)%nat -> f k == along (T_entry cols) nb p k.
Proof.
  intros H k Kl. unfold along. rewrite (qsum_ext _ (fun x => qsum (fun l => inject_Z (T_entry cols k x) * (inject_Z (inc brs l x) * f l)) (List.length brs))) by
    (intros x X; rewrite <- (H x X); unfold leaving; symmetry; apply qsum_mul).
  rewrite qsum_swap. rewrite (qsum_ext _ (fun l => inject_Z (delta (Nat.eqb l k)) * f l)); [symmetry; now apply qsum_pick|].
  intros l Ll. destruct (nth_error brs l) as [b|] eqn:N; [|apply nth_error_None in N; lia].
  rewrite (qsum_ext _ (fun x => f l * (inject_Z (T_entry cols k x) * inject_Z (inc brs l x)))) by (intros x _; ring). rewrite qsum_mul, (row_sum k l b N). ring.
Qed.
End Tree.

(* ---------- with circulations ---------- *)
Section Cycles.
Open Scope Q_scope.
Lemma leaving_plus brs f g x : leaving brs (fun l => f l + g l) x == leaving brs f x + leaving brs g x.
Proof. unfold leaving. rewrite <- qsum_plus. apply qsum_ext. intros l _. ring. Qed.
Lemma circulation_leaves brs cycles ccols (k : nat -> Q) x : find_cycles brs cycles = Some ccols ->
  leaving brs (fun l => qsum (fun c => k c * inject_Z (col_entry (nth c ccols []) l)) (List.length ccols)) x == 0.
Proof.
  intros F. unfold leaving. rewrite (qsum_ext _ (fun l => qsum (fun c => inject_Z (inc brs l x) * (k c * inject_Z (col_entry (nth c ccols []) l))) (List.length ccols))) by (intros l _; symmetry; apply qsum_mul).
  rewrite qsum_swap. apply qsum_zero. intros c C.
  rewrite (qsum_ext _ (fun l => k c * inject_Z (inc brs l x * col_entry (nth c ccols []) l)%Z)) by (intros l _; rewrite inject_Z_mult; ring).
  rewrite qsum_mul, qsum_z, (find_cycles_dense brs cycles ccols _ x F (nth_In _ _ C)). ring.
Qed.
End Cycles.

Lemma tree_found brs tree nb s path : (forall b, In b tree -> In b brs) -> tree_slack tree nb = Some s -> (forall j, (j < nb)%nat -> simple_path tree j s (path j s)) ->
  exists cols, find_tree brs tree nb path = Some cols.
Proof. intros A B C. eapply find_tree_total; eauto. Qed.
Lemma tree_serves_balanced brs tree nb s path cols (p : nat -> Q) x : tree_slack tree nb = Some s -> (forall j, (j < nb)%nat -> simple_path tree j s (path j s)) ->
  find_tree brs tree nb path = Some cols -> (qsum p nb == 0)%Q -> (x < nb)%nat -> (leaving brs (along (T_entry cols) nb p) x == p x)%Q.
Proof. intros B C F Z X. rewrite (tree_serves brs tree nb s path B C cols F p x X). destruct (Nat.eqb s x); [rewrite Z|]; ring. Qed.
Lemma tree_and_cycles brs tree nb s path cols cycles ccols (k p : nat -> Q) x : tree_slack tree nb = Some s -> (forall j, (j < nb)%nat -> simple_path tree j s (path j s)) ->
  find_tree brs tree nb path = Some cols -> find_cycles brs cycles = Some ccols -> (qsum p nb == 0)%Q -> (x < nb)%nat ->
  (leaving brs (fun l => along (T_entry cols) nb p l + qsum (fun c => k c * inject_Z (col_entry (nth c ccols []) l)) (List.length ccols)) x == p x)%Q.
Proof. intros B C F G Z X. rewrite leaving_plus, (tree_serves_balanced brs tree nb s path cols p x B C F Z X), (circulation_leaves brs cycles ccols k x G). ring. Qed.
