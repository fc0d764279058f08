From Coq Require Import List Bool QArith Qabs Qfield Arith Lia Lqa.
From Verif Require Import CorridorModel CorridorSpec.
Import ListNotations.
Open Scope list_scope.
Open Scope nat_scope.

Definition many (g : list edge) (p : nat * nat) : bool := 1 <? length (adj_keys g (fst p) (snd p)).
Definition at_pair (g : list edge) (n : list line) (p : nat * nat) : out :=
  match loc n (map snd (adj_keys g (fst p) (snd p))) with
  | None => Raise KeyError n
  | Some ls => match remove_all n (map snd (tl (adj_keys g (fst p) (snd p)))) with Done n' => Raise AttributeError n' | e => e end
  end.
Lemma over_first g n es : over_edges g es [] n = match find (many g) es with None => Done n | Some p => at_pair g n p end.
Proof.
  induction es as [|[u v] r IH]; [reflexivity|]. cbn [over_edges existsb find]. unfold many at 1. cbn [fst snd].
  unfold at_pair. destruct (adj_keys g u v) as [|k [|k' ks]] eqn:E; cbn [length Nat.ltb Nat.leb]; [exact IH|exact IH|]. cbn [fst snd]. rewrite E. cbn [tl].
  destruct (loc n (map snd (k :: k' :: ks))) as [ls|]; [|reflexivity]. destruct (remove_all n (map snd (k' :: ks))) as [n'|]; reflexivity.
Qed.

Lemma nbrs_keep (u o : nat) g : forall acc, In o acc -> In o (fold_left (fun acc e => let o := if Nat.eqb (eu e) u then Some (ev e) else if Nat.eqb (ev e) u then Some (eu e) else None in
    match o with Some v => if existsb (Nat.eqb v) acc then acc else acc ++ [v] | None => acc end) g acc).
Proof.
  induction g as [|e g IH]; intros acc H; [exact H|]. cbn [fold_left]. apply IH. cbv zeta.
  destruct (if Nat.eqb (eu e) u then Some (ev e) else if Nat.eqb (ev e) u then Some (eu e) else None) as [w|]; [|exact H].
  destruct (existsb (Nat.eqb w) acc); [exact H|]. apply in_or_app. left. exact H.
Qed.
Lemma nbrs_in (u o : nat) e g : In e g -> joins u o e = true -> In o (nbrs g u).
Proof.
  intros I J. unfold nbrs. match goal with |- In o (fold_left ?f g []) => enough (G : forall acc, In o (fold_left f g acc)) by apply G end. induction g as [|a g IH]; intros acc; [destruct I|]. cbn [fold_left]. destruct I as [->|I]; [|apply IH; exact I].
  apply nbrs_keep. cbv zeta.
  assert (P : forall w, w = o -> In o (if existsb (Nat.eqb w) acc then acc else acc ++ [w])).
  { intros w ->. destruct (existsb (Nat.eqb o) acc) eqn:X; [|apply in_or_app; right; left; reflexivity]. apply existsb_exists in X as (y & Y & Z). apply Nat.eqb_eq in Z. subst. exact Y. }
  unfold joins in J. apply orb_true_iff in J as [J|J]; apply andb_true_iff in J as [J1 J2]; apply Nat.eqb_eq in J1, J2.
  - rewrite J1, Nat.eqb_refl. apply P. exact J2.
  - rewrite J2, Nat.eqb_refl. destruct (Nat.eqb (eu e) u) eqn:Q; [|apply P; exact J1]. apply Nat.eqb_eq in Q. apply P. congruence.
Qed.
Lemma joins_self e : joins (eu e) (ev e) e = true /\ joins (ev e) (eu e) e = true.
Proof. unfold joins. rewrite !Nat.eqb_refl. cbn. rewrite orb_true_r. split; reflexivity. Qed.
Lemma not_seen x l : ~ In x l -> existsb (Nat.eqb x) l = false.
Proof. intros N. destruct (existsb (Nat.eqb x) l) eqn:E; [|reflexivity]. exfalso. apply N. apply existsb_exists in E as (y & Y & Z). apply Nat.eqb_eq in Z. subst. exact Y. Qed.
Lemma edge_listed g e : In e g -> forall nodes seen, In (eu e) nodes -> In (ev e) nodes -> ~ In (eu e) seen -> ~ In (ev e) seen ->
  exists p, In p (edges_from g seen nodes) /\ joins (fst p) (snd p) e = true.
Proof.
  intros I. induction nodes as [|x r IH]; intros seen A B C D; [destruct A|]. cbn [edges_from].
  assert (K : forall o, joins x o e = true -> ~ In o seen -> In (x, o) (flat_map (fun v => if existsb (Nat.eqb v) seen then [] else repeat (x, v) (length (adj_keys g x v))) (nbrs g x))).
  { intros o J N. apply in_flat_map. exists o. split; [eapply nbrs_in; eauto|]. rewrite (not_seen _ _ N).
    assert (L : In (ecls e, ename e) (adj_keys g x o)) by (unfold adj_keys; apply in_map_iff; exists e; split; [reflexivity|apply filter_In; split; assumption]).
    destruct (adj_keys g x o) as [|k ks]; [destruct L|]. left. reflexivity. }
  destruct (Nat.eq_dec (eu e) x) as [E|E]; [exists (x, ev e); split; [apply in_or_app; left; apply K; [rewrite <- E; apply joins_self|exact D]|cbn [fst snd]; rewrite <- E; apply joins_self]|].
  destruct (Nat.eq_dec (ev e) x) as [F|F]; [exists (x, eu e); split; [apply in_or_app; left; apply K; [rewrite <- F; apply joins_self|exact C]|cbn [fst snd]; rewrite <- F; apply joins_self]|].
  destruct A as [A|A]; [congruence|]. destruct B as [B|B]; [congruence|].
  destruct (IH (x :: seen) A B) as (p & P & J); [intros [H|H]; [congruence|exact (C H)]|intros [H|H]; [congruence|exact (D H)]|].
  exists p. split; [apply in_or_app; right; exact P|exact J].
Qed.
Lemma joins_same u v e e' : same_ends e e' -> joins u v e = true -> joins u v e' = true.
Proof.
  unfold same_ends, joins. intros S J. apply orb_true_iff in J as [J|J]; apply andb_true_iff in J as [J1 J2]; apply Nat.eqb_eq in J1, J2;
  destruct S as [[S1 S2]|[S1 S2]]; rewrite <- S1, <- S2, ?J1, ?J2, !Nat.eqb_refl; cbn; rewrite ?orb_true_r; reflexivity.
Qed.
Lemma joins_two u v e e' : joins u v e = true -> joins u v e' = true -> same_ends e e'.
Proof.
  unfold joins, same_ends. intros J K. apply orb_true_iff in J as [J|J]; apply andb_true_iff in J as [J1 J2]; apply Nat.eqb_eq in J1, J2;
  apply orb_true_iff in K as [K|K]; apply andb_true_iff in K as [K1 K2]; apply Nat.eqb_eq in K1, K2; subst; auto.
Qed.
Lemma many_parallel g p : many g p = true -> parallel g.
Proof.
  destruct p as [u v]. unfold many, adj_keys. cbn [fst snd]. rewrite map_length. intros H. apply Nat.ltb_lt in H.
  assert (T : forall (f : edge -> bool) (l : list edge), 0 < length (filter f l) -> exists a e b, l = a ++ e :: b /\ f e = true /\ filter f l = e :: filter f b).
  { intros f l. induction l as [|x l IH]; cbn; [lia|]. destruct (f x) eqn:F; [intros _; exists [], x, l; rewrite ?F; auto|]. intros L. destruct (IH L) as (a & e & b & -> & P & Q). exists (x :: a), e, b. auto. }
  destruct (T (joins u v) g) as (a & e & b & -> & F & Q); [lia|]. rewrite Q in H. cbn [length] in H.
  destruct (T (joins u v) b) as (b1 & e' & c & -> & F' & _); [lia|]. exists a, e, b1, e', c. split; [reflexivity|]. eapply joins_two; eauto.
Qed.
Lemma parallel_listed nodes g : ends_in nodes g -> parallel g -> exists p, In p (edges g nodes) /\ many g p = true.
Proof.
  intros W (a & e & b & e' & c & -> & S).
  assert (I : In e (a ++ e :: b ++ e' :: c)) by (apply in_or_app; right; left; reflexivity). destruct (W e I) as [A B].
  destruct (edge_listed _ e I nodes [] A B) as (p & P & J); [intros []|intros []|]. exists p. split; [exact P|]. destruct p as [u v]. cbn [fst snd] in *.
  unfold many, adj_keys. cbn [fst snd]. rewrite map_length, filter_app. cbn [filter]. rewrite J, filter_app. cbn [filter]. rewrite (joins_same u v e e' S J).
  rewrite app_length. cbn [length]. rewrite app_length. cbn [length]. apply Nat.ltb_lt. lia.
Qed.

Theorem quiet nodes g n : ~ parallel g -> aggregate_multi_graph nodes g n = Done n.
Proof. intros N. unfold aggregate_multi_graph. rewrite over_first. destruct (find (many g) (edges g nodes)) eqn:F; [|reflexivity]. apply find_some in F as [_ F]. destruct N. eapply many_parallel; eauto. Qed.

Lemma first_pair nodes g n : ends_in nodes g -> parallel g -> exists p, In p (edges g nodes) /\ many g p = true /\ aggregate_multi_graph nodes g n = at_pair g n p.
Proof.
  intros W P. unfold aggregate_multi_graph. rewrite over_first. destruct (find (many g) (edges g nodes)) as [p|] eqn:F.
  - apply find_some in F as [A B]. exists p. auto.
  - destruct (parallel_listed nodes g W P) as (p & A & B). apply (find_none _ _ F) in A. congruence.
Qed.
Lemma remove_raise n xs : match remove_all n xs with Done n' => True | Raise e _ => e = KeyError end.
Proof. revert n. induction xs as [|x r IH]; intros n; cbn; [exact I|]. destruct (find_line n x); [apply IH|reflexivity]. Qed.
Theorem raises nodes g n : ends_in nodes g -> parallel g -> exists e n', aggregate_multi_graph nodes g n = Raise e n'.
Proof.
  intros W P. destruct (first_pair nodes g n W P) as (p & _ & _ & ->). unfold at_pair. destruct (loc _ _); [|eauto]. destruct (remove_all _ _); eauto.
Qed.

Definition lost (xs : list nat) (l : line) : bool := existsb (Nat.eqb (lname l)) xs.
Lemma find_line_keep n x y : x <> y -> find_line n y <> None -> find_line (remove_line n x) y <> None.
Proof.
  intros N. unfold find_line, remove_line. induction n as [|l n IH]; cbn; [auto|]. destruct (Nat.eqb (lname l) y) eqn:E.
  - intros _. apply Nat.eqb_eq in E. destruct (Nat.eqb_spec (lname l) x); [congruence|]. cbn. rewrite E, Nat.eqb_refl. discriminate.
  - intros H. destruct (negb (Nat.eqb (lname l) x)); cbn; [rewrite E|]; auto.
Qed.
Lemma filter_filter {A} (f h : A -> bool) l : filter f (filter h l) = filter (fun a => h a && f a) l.
Proof. induction l as [|a l IH]; cbn; [reflexivity|]. destruct (h a); cbn; rewrite IH; reflexivity. Qed.
Lemma remove_done xs : forall n, NoDup xs -> (forall x, In x xs -> find_line n x <> None) -> remove_all n xs = Done (filter (fun l => negb (lost xs l)) n).
Proof.
  induction xs as [|x r IH]; intros n D H; cbn [remove_all].
  - f_equal. induction n as [|l n IHn]; cbn; [reflexivity|]. f_equal. apply IHn. intros ? [].
  - inversion D; subst. destruct (find_line n x) as [l0|] eqn:F; [|exfalso; apply (H x); [left; reflexivity|exact F]].
    rewrite IH; [|assumption|intros y Y; apply find_line_keep; [intros ->; contradiction|apply H; right; exact Y]].
    f_equal. unfold remove_line. rewrite filter_filter. apply filter_ext. intros l. unfold lost. cbn [existsb]. rewrite negb_orb. reflexivity.
Qed.
Lemma loc_some n xs : (forall x, In x xs -> find_line n x <> None) -> exists ls, loc n xs = Some ls.
Proof.
  induction xs as [|x r IH]; intros H; cbn; [eauto|]. destruct (find_line n x) eqn:F; [|exfalso; apply (H x); [left; reflexivity|exact F]].
  destruct IH as [ls ->]; [intros y Y; apply H; right; exact Y|]. eauto.
Qed.
Lemma nodup_filter_map {A B} (h : A -> B) f l : NoDup (map h l) -> NoDup (map h (filter f l)).
Proof.
  induction l as [|a l IH]; cbn; intros D; [constructor|]. inversion D; subst. destruct (f a); [|auto]. cbn. constructor; [|auto].
  intros I. apply H1. apply in_map_iff in I as (b & <- & Hb). apply filter_In in Hb as [Hb _]. apply in_map. exact Hb.
Qed.
(* what is lost when every branch is a line *)
Theorem loses nodes g n : ends_in nodes g -> parallel g -> NoDup (map ename g) -> (forall e, In e g -> find_line n (ename e) <> None) ->
  exists e0 rest, In e0 g /\ rest <> [] /\ (forall e, In e (e0 :: rest) <-> In e g /\ same_ends e0 e) /\ ~ In (ename e0) (map ename rest) /\
  aggregate_multi_graph nodes g n = Raise AttributeError (filter (fun l => negb (lost (map ename rest) l)) n).
Proof.
  intros W P D H. destruct (first_pair nodes g n W P) as ([u v] & _ & M & ->). unfold many, at_pair, adj_keys in *. cbn [fst snd] in *. rewrite map_length in M. apply Nat.ltb_lt in M.
  pose proof (nodup_filter_map ename (joins u v) g D) as D'.
  assert (I : forall e, In e (filter (joins u v) g) <-> In e g /\ joins u v e = true) by (intros e; apply filter_In).
  destruct (filter (joins u v) g) as [|e0 rest] eqn:F; [cbn in M; lia|]. destruct (proj1 (I e0) (or_introl eq_refl)) as [I0 J0].
  exists e0, rest. split; [exact I0|]. split; [intros ->; cbn in M; lia|]. split.
  { intros e. rewrite I. split; intros [A B]; (split; [exact A|]); [eapply joins_two; eauto|eapply joins_same; eauto]. }
  cbn [map] in D'. inversion D'; subst. split; [assumption|].
  assert (MM : forall l : list edge, map snd (map (fun e => (ecls e, ename e)) l) = map ename l) by (intros l; rewrite map_map; reflexivity).
  cbn [map tl snd]. rewrite MM.
  assert (Z : forall x, In x (map ename (e0 :: rest)) -> find_line n x <> None) by (intros x X; apply in_map_iff in X as (e & <- & E); apply H, I, E).
  destruct (loc_some n (map ename (e0 :: rest)) Z) as [ls L]. cbn [map] in L. rewrite L.
  rewrite remove_done; [reflexivity|assumption|]. intros x X. apply Z. right. exact X.
Qed.

(* the values *)
Open Scope Q_scope.
Lemma esum_fin (a : attr) (f : line -> Q) ls : vals a f ls -> exists s, esum (map (fun l => lval l a) ls) = Fin s /\ s == sumq f ls.
Proof.
  induction ls as [|l ls IH]; intros V; [exists 0; split; reflexivity|]. destruct IH as (s & E & S); [intros y Y; apply V; right; exact Y|].
  unfold esum in *. cbn [map fold_right]. rewrite E, (V l (or_introl eq_refl)). cbn [eadd]. eexists. split; [reflexivity|]. cbn [sumq fold_right]. fold (sumq f ls). rewrite S. reflexivity.
Qed.
Lemma esum_inv (a : attr) (f : line -> Q) ls : vals a f ls -> (forall l, In l ls -> ~ f l == 0) -> exists s, esum (map (fun l => einv (lval l a)) ls) = Fin s /\ s == sumq (fun l => / f l) ls.
Proof.
  induction ls as [|l ls IH]; intros V N; [exists 0; split; reflexivity|]. destruct IH as (s & E & S); [intros y Y; apply V; right; exact Y|intros y Y; apply N; right; exact Y|].
  unfold esum in *. cbn [map fold_right]. rewrite E, (V l (or_introl eq_refl)). cbn [einv]. destruct (Qeq_bool (f l) 0) eqn:B; [exfalso; apply (N l (or_introl eq_refl)), Qeq_bool_eq, B|].
  cbn [eadd]. eexists. split; [reflexivity|]. cbn [sumq fold_right]. fold (sumq (fun l => / f l) ls). rewrite S. reflexivity.
Qed.
Lemma in_inv a v ls : a = Ax \/ a = Ar -> In (a, v) (aggregated ls) -> v = einv (esum (map (fun l => einv (lval l a)) ls)).
Proof. intros A I. unfold aggregated, attr_inv, attr_sum, attr_mean in I. cbn [map app In] in I. destruct A as [->| ->]; repeat (destruct I as [I|I]; [inversion I; subst; try reflexivity|]); destruct I. Qed.
Lemma in_sum v ls : In (As_nom, v) (aggregated ls) -> v = esum (map (fun l => lval l As_nom) ls).
Proof. intros I. unfold aggregated, attr_inv, attr_sum, attr_mean in I. cbn [map app In] in I. repeat (destruct I as [I|I]; [inversion I; subst; try reflexivity|]); destruct I. Qed.
Lemma in_cost v ls : In (Acapital_cost, v) (aggregated ls) -> v = emean (map (fun l => lval l Acapital_cost) ls).
Proof. intros I. unfold aggregated, attr_inv, attr_sum, attr_mean in I. cbn [map app In] in I. repeat (destruct I as [I|I]; [inversion I; subst; try reflexivity|]); destruct I. Qed.
Lemma inv_value a f ls v : a = Ax \/ a = Ar -> vals a f ls -> (forall l, In l ls -> ~ f l == 0) -> In (a, Fin v) (aggregated ls) -> ~ v == 0 /\ / v == sumq (fun l => / f l) ls.
Proof.
  intros A V N I. apply (in_inv a _ ls A) in I. destruct (esum_inv a f ls V N) as (s & E & S). rewrite E in I. cbn [einv] in I. destruct (Qeq_bool s 0) eqn:B; [discriminate|]. injection I as ->.
  assert (Z : ~ s == 0) by (intros Z; apply Qeq_eq_bool in Z; congruence). split; [|rewrite <- S; apply Qinv_involutive].
  intros Y. apply Z. rewrite <- (Qinv_involutive s), Y. reflexivity.
Qed.
Lemma sumq_ext {A} (f h : A -> Q) l : (forall a, In a l -> f a == h a) -> sumq f l == sumq h l.
Proof. induction l as [|a l IH]; intros H; cbn [sumq fold_right]; [reflexivity|]. fold (sumq f l) (sumq h l). rewrite (H a (or_introl eq_refl)), IH; [reflexivity|intros y Y; apply H; right; exact Y]. Qed.
Lemma sumq_scale {A} c (f : A -> Q) l : sumq (fun a => c * f a) l == c * sumq f l.
Proof. induction l as [|a l IH]; cbn [sumq fold_right]; [ring|]. fold (sumq (fun a => c * f a) l) (sumq f l). rewrite IH. ring. Qed.
Theorem flows ls x xa d : vals Ax x ls -> (forall l, In l ls -> ~ x l == 0) -> In (Ax, Fin xa) (aggregated ls) -> flow d xa == sumq (fun l => flow d (x l)) ls.
Proof. intros V N I. destruct (inv_value Ax x ls xa (or_introl eq_refl) V N I) as [_ E]. unfold flow, Qdiv. rewrite E. symmetry. apply sumq_scale. Qed.
Lemma sum_pos ls (x : line -> Q) : ls <> [] -> (forall l, In l ls -> 0 < x l) -> 0 < sumq (fun l => / x l) ls.
Proof.
  intros N P. assert (G : forall l, (forall y, In y l -> 0 < x y) -> 0 <= sumq (fun l => / x l) l).
  { induction l as [|a l IH]; intros H; cbn [sumq fold_right]; [apply Qle_refl|]. fold (sumq (fun l => / x l) l). pose proof (Qinv_lt_0_compat _ (H a (or_introl eq_refl))). specialize (IH (fun y Y => H y (or_intror Y))). lra. }
  destruct ls as [|a l]; [congruence|]. cbn [sumq fold_right]. fold (sumq (fun l => / x l) l). pose proof (Qinv_lt_0_compat _ (P a (or_introl eq_refl))). specialize (G l (fun y Y => P y (or_intror Y))). lra.
Qed.
Lemma x_found ls x : ls <> [] -> vals Ax x ls -> (forall l, In l ls -> 0 < x l) -> exists xa, In (Ax, Fin xa) (aggregated ls) /\ 0 < xa /\ / xa == sumq (fun l => / x l) ls.
Proof.
  intros N V P. assert (NZ : forall l, In l ls -> ~ x l == 0) by (intros l L E; specialize (P l L); lra).
  destruct (esum_inv Ax x ls V NZ) as (s & E & S). pose proof (sum_pos ls x N P) as G. rewrite <- S in G.
  exists (/ s). split; [|split; [apply Qinv_lt_0_compat; exact G|rewrite Qinv_involutive; exact S]].
  unfold aggregated. apply in_or_app. left. left. rewrite E. cbn [einv]. destruct (Qeq_bool s 0) eqn:B; [apply Qeq_bool_eq in B; lra|reflexivity].
Qed.
Lemma r_value ls x r k xa : ls <> [] -> vals Ax x ls -> vals Ar r ls -> (forall l, In l ls -> 0 < x l) -> (forall l, In l ls -> r l == k * x l) -> 0 < xa -> / xa == sumq (fun l => / x l) ls ->
  exists ra, In (Ar, Fin ra) (aggregated ls) /\ ra == k * xa.
Proof.
  intros N V R P K XP XA. assert (M : forall v, einv (esum (map (fun l => einv (lval l Ar)) ls)) = v -> In (Ar, v) (aggregated ls)) by (intros v <-; unfold aggregated; apply in_or_app; left; right; left; reflexivity).
  destruct (Qeq_dec k 0) as [Z|Z].
  - exists 0. split; [|rewrite Z; ring]. apply M. destruct ls as [|l ls]; [congruence|]. cbn [map]. rewrite (R l (or_introl eq_refl)). cbn [einv].
    assert (B : Qeq_bool (r l) 0 = true) by (apply Qeq_eq_bool; rewrite (K l (or_introl eq_refl)), Z; ring). rewrite B. reflexivity.
  - assert (NZ : forall l, In l ls -> ~ r l == 0) by (intros l L E; rewrite (K l L) in E; apply Qmult_integral in E as [E|E]; [exact (Z E)|specialize (P l L); lra]).
    destruct (esum_inv Ar r ls R NZ) as (s & E & S).
    assert (T : s == / k * / xa).
    { rewrite S, XA, <- sumq_scale. apply sumq_ext. intros l L. rewrite (K l L). apply Qinv_mult_distr. }
    exists (/ s). split; [|rewrite T, Qinv_mult_distr, !Qinv_involutive; reflexivity].
    apply M. rewrite E. cbn [einv]. destruct (Qeq_bool s 0) eqn:B; [|reflexivity]. apply Qeq_bool_eq in B. exfalso. rewrite T in B. apply Qmult_integral in B as [B|B].
    + apply Z. rewrite <- (Qinv_involutive k), B. reflexivity.
    + pose proof (Qinv_lt_0_compat _ XP). lra.
Qed.
Lemma square_pos k : 0 < k * k + 1.
Proof. nra. Qed.
Lemma cond_ratio k r x : 0 < x -> r == k * x -> conductance r x == (k / (k * k + 1)) * / x /\ susceptance r x == (- (1 / (k * k + 1))) * / x.
Proof.
  intros P E. pose proof (square_pos k) as S. unfold conductance, susceptance. assert (A : ~ x == 0) by lra. assert (B : ~ k * k + 1 == 0) by lra.
  assert (D : r * r + x * x == (k * k + 1) * (x * x)) by (rewrite E; ring). rewrite D, E. split; field; auto.
Qed.
Theorem admittances ls x r k : ls <> [] -> vals Ax x ls -> vals Ar r ls -> (forall l, In l ls -> 0 < x l) -> (forall l, In l ls -> r l == k * x l) ->
  exists xa ra, In (Ax, Fin xa) (aggregated ls) /\ In (Ar, Fin ra) (aggregated ls) /\
  conductance ra xa == sumq (fun l => conductance (r l) (x l)) ls /\ susceptance ra xa == sumq (fun l => susceptance (r l) (x l)) ls.
Proof.
  intros N V R P K. destruct (x_found ls x N V P) as (xa & I & XP & XA). destruct (r_value ls x r k xa N V R P K XP XA) as (ra & J & RA).
  exists xa, ra. split; [exact I|]. split; [exact J|]. destruct (cond_ratio k ra xa XP RA) as [C1 C2]. rewrite C1, C2, XA. rewrite <- !sumq_scale.
  split; apply sumq_ext; intros l L; symmetry; apply (cond_ratio k (r l) (x l) (P l L) (K l L)).
Qed.
Lemma flow_limit d x c s : 0 < x -> s * x == c -> (within (flow d x) s <-> Qabs d <= c).
Proof.
  intros P E. unfold within, flow, Qdiv. rewrite Qabs_Qmult. rewrite (Qabs_pos (/ x)) by (apply Qlt_le_weak, Qinv_lt_0_compat, P). rewrite <- E. symmetry.
  split; intros H; [apply Qle_shift_div_r; assumption|].
  apply (Qmult_le_compat_r _ _ x) in H; [|apply Qlt_le_weak, P]. setoid_replace (Qabs d * / x * x) with (Qabs d) in H by (field; lra). exact H.
Qed.
Theorem limits ls x s c xa sa : ls <> [] -> vals Ax x ls -> vals As_nom s ls -> (forall l, In l ls -> 0 < x l) -> (forall l, In l ls -> s l * x l == c) ->
  In (Ax, Fin xa) (aggregated ls) -> In (As_nom, Fin sa) (aggregated ls) -> forall d, within (flow d xa) sa <-> (forall l, In l ls -> within (flow d (x l)) (s l)).
Proof.
  intros N V S P C I J d. assert (NZ : forall l, In l ls -> ~ x l == 0) by (intros l L E; specialize (P l L); lra).
  destruct (inv_value Ax x ls xa (or_introl eq_refl) V NZ I) as [Z XA]. pose proof (sum_pos ls x N P) as G. rewrite <- XA in G.
  assert (XP : 0 < xa) by (rewrite <- (Qinv_involutive xa); apply Qinv_lt_0_compat; exact G).
  apply in_sum in J. destruct (esum_fin As_nom s ls S) as (t & E & T). rewrite E in J. injection J as ->.
  assert (SC : t * xa == c).
  { rewrite T. rewrite (sumq_ext s (fun l => c * / x l)); [rewrite sumq_scale, <- XA; field; exact Z|]. intros l L. rewrite <- (C l L). field. auto. }
  rewrite (flow_limit d xa c t XP SC). destruct ls as [|l0 ls]; [congruence|]. split.
  - intros H l L. apply (flow_limit d (x l) c (s l) (P l L) (C l L)). exact H.
  - intros H. apply (flow_limit d (x l0) c (s l0) (P l0 (or_introl eq_refl)) (C l0 (or_introl eq_refl))). apply H. left. reflexivity.
Qed.
Lemma sum_abs {A} (f s : A -> Q) l : (forall a, In a l -> Qabs (f a) <= s a) -> Qabs (sumq f l) <= sumq s l.
Proof.
  induction l as [|a l IH]; intros H; cbn [sumq fold_right]; [apply Qle_refl|]. fold (sumq f l) (sumq s l). eapply Qle_trans; [apply Qabs_triangle|]. apply Qplus_le_compat; [apply H; left; reflexivity|apply IH; intros y Y; apply H; right; exact Y].
Qed.
Theorem relaxed ls x s xa sa d : vals Ax x ls -> vals As_nom s ls -> (forall l, In l ls -> ~ x l == 0) -> In (Ax, Fin xa) (aggregated ls) -> In (As_nom, Fin sa) (aggregated ls) ->
  (forall l, In l ls -> within (flow d (x l)) (s l)) -> within (flow d xa) sa.
Proof.
  intros V S N I J H. apply in_sum in J. destruct (esum_fin As_nom s ls S) as (t & E & T). rewrite E in J. injection J as ->.
  unfold within. rewrite (flows ls x xa d V N I), T. apply sum_abs. exact H.
Qed.
Lemma sum_const {A} (f : A -> Q) c l : (forall a, In a l -> f a == c) -> sumq f l == c * inject_Z (Z.of_nat (length l)).
Proof.
  induction l as [|a l IH]; intros H; cbn [sumq fold_right length]; [ring|]. fold (sumq f l). rewrite (H a (or_introl eq_refl)), IH by (intros y Y; apply H; right; exact Y).
  rewrite Nat2Z.inj_succ. unfold Z.succ. rewrite inject_Z_plus. ring.
Qed.
Theorem costs ls c s k ca sa : ls <> [] -> vals Acapital_cost c ls -> vals As_nom s ls -> (forall l, In l ls -> c l == k) -> In (Acapital_cost, Fin ca) (aggregated ls) -> In (As_nom, Fin sa) (aggregated ls) ->
  ca * sa == sumq (fun l => c l * s l) ls.
Proof.
  intros N C S K I J. apply in_cost in I. apply in_sum in J. destruct (esum_fin As_nom s ls S) as (t & E & T). rewrite E in J. injection J as ->.
  destruct (esum_fin Acapital_cost c ls C) as (u & F & U). unfold emean in I. rewrite F, map_length in I. injection I as ->. rewrite U, T, (sum_const c k ls K).
  rewrite (sumq_ext (fun l => c l * s l) (fun l => k * s l)) by (intros l L; rewrite (K l L); reflexivity). rewrite sumq_scale. field.
  destruct ls as [|l ls]; [congruence|]. cbn [length]. rewrite Nat2Z.inj_succ. unfold Z.succ. rewrite inject_Z_plus. change (inject_Z 1) with 1. assert (0 <= inject_Z (Z.of_nat (length ls))) by (change 0 with (inject_Z 0); rewrite <- Zle_Qle; lia). lra.
Qed.
