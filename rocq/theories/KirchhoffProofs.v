From Coq Require Import List String Bool ZArith QArith Qabs Lqa Lia Arith.
From Verif Require Import LinModel CyclesModel WholeModel TurnSpec KirchhoffModel.
From Verif Require CapModel NamingProofs TurnProofs.
Import ListNotations.
Open Scope string_scope.
Open Scope list_scope.

(* branches turned by signs *)
Definition flipped (f : bool) (b b' : gbranch) : Prop :=
  gfin b' = gfin b /\ g0 b' = (if f then g1 b else g0 b) /\ g1 b' = (if f then g0 b else g1 b).
Section Flip.
Variable B B' : list gbranch.
Variable s : nat -> bool.
Hypothesis L : List.length B' = List.length B.
Hypothesis N : forall i b, nth_error B i = Some b -> exists b', nth_error B' i = Some b' /\ flipped (s i) b b'.
Hypothesis NL : forall b, In b B -> g0 b <> g1 b.
Definition fs (i : nat) : Z := if s i then -1 else 1.

Lemma between_flip u v f b b' : flipped f b b' -> between u v b' = between u v b.
Proof. intros (E1 & E2 & E3). unfold between. rewrite E1, E2, E3. destruct f; [|reflexivity]. f_equal. rewrite orb_comm. f_equal; apply andb_comm. Qed.
Lemma between_sym u v b : between u v b = between v u b.
Proof. unfold between. f_equal. apply orb_comm. Qed.
Lemma keys_gen u v (X X' : list gbranch) k : List.length X' = List.length X ->
  (forall i b, nth_error X i = Some b -> exists b', nth_error X' i = Some b' /\ exists f, flipped f b b') ->
  map fst (filter (fun lb => between u v (snd lb)) (combine (seq k (List.length X')) X')) =
  map fst (filter (fun lb => between u v (snd lb)) (combine (seq k (List.length X)) X)).
Proof.
  revert X' k. induction X as [|b X IH]; intros [|b' X'] k E H; try discriminate; [reflexivity|]. cbn [List.length seq combine filter snd].
  destruct (H O b eq_refl) as (b2 & E2 & f & G). injection E2 as <-. rewrite (between_flip u v f b b' G).
  assert (I : map fst (filter (fun lb => between u v (snd lb)) (combine (seq (S k) (List.length X')) X')) =
    map fst (filter (fun lb => between u v (snd lb)) (combine (seq (S k) (List.length X)) X))).
  { apply IH; [now injection E|]. intros i c Hc. exact (H (S i) c Hc). }
  destruct (between u v b); cbn [map fst]; now rewrite I.
Qed.
Lemma keys_flip u v : keys B' u v = keys B u v.
Proof. apply keys_gen; [exact L|]. intros i b Hb. destruct (N i b Hb) as (b' & E & G). eauto. Qed.
Lemma keys_sym u v : keys B u v = keys B v u.
Proof. unfold keys. f_equal. apply filter_ext. intros a. apply between_sym. Qed.
Lemma in_numbered {A} (X : list A) i b k : In (i, b) (combine (seq k (List.length X)) X) -> exists j, i = (k + j)%nat /\ nth_error X j = Some b.
Proof.
  revert k. induction X as [|a X IH]; intros k; cbn [List.length seq combine]; intros J; [destruct J|]. destruct J as [J|J].
  - injection J as <- <-. exists O. split; [lia|reflexivity].
  - destruct (IH _ J) as (j & -> & E). exists (S j). split; [lia|exact E].
Qed.
Lemma key_edge u v i : In i (keys B u v) -> exists b, nth_error B i = Some b /\ between u v b = true.
Proof.
  unfold keys. intros J. apply in_map_iff in J. destruct J as ([i' b] & E & J). cbn [fst] in E. subst i'. apply filter_In in J. destruct J as [J G].
  destruct (in_numbered B i b O J) as (j & -> & E). exists b. split; [exact E|exact G].
Qed.
(* which end *)
Lemma end_flip u v i : In i (keys B u v) -> exists z z', g0_at B i = Some z /\ g0_at B' i = Some z' /\
  (z = u \/ z = v) /\ (Nat.eqb z' u = if s i then negb (Nat.eqb z u) else Nat.eqb z u) /\ u <> v /\ z' = (if s i then (if Nat.eqb z u then v else u) else z).
Proof.
  intros J. destruct (key_edge u v i J) as (b & E & G). destruct (N i b E) as (b' & E' & _ & F0 & _). exists (g0 b), (g0 b'). unfold g0_at. rewrite E, E'. split; [reflexivity|]. split; [reflexivity|].
  assert (D := NL b (nth_error_In _ _ E)). unfold between in G. apply andb_true_iff in G. destruct G as [_ G]. apply orb_true_iff in G.
  rewrite F0. destruct G as [G|G]; apply andb_true_iff in G; destruct G as [G1 G2]; apply Nat.eqb_eq in G1, G2; subst u v.
  - split; [now left|]. rewrite Nat.eqb_refl. split; [|split; [exact D|destruct (s i); reflexivity]]. destruct (s i); [|now rewrite Nat.eqb_refl]. cbn [negb]. apply Nat.eqb_neq. congruence.
  - split; [now right|]. assert (X : Nat.eqb (g0 b) (g1 b) = false) by now apply Nat.eqb_neq. rewrite X. split; [|split; [congruence|destruct (s i); reflexivity]].
    destruct (s i); [now rewrite Nat.eqb_refl|exact X].
Qed.

Definition turn_col (k : Z) (col : list (nat * Z)) : list (nat * Z) := map (fun e => (fst e, (k * fs (fst e) * snd e)%Z)) col.
Definition like (col col' : list (nat * Z)) : Prop := exists k, (k = 1 \/ k = -1)%Z /\ col' = turn_col k col.
Lemma walk_flip ps : walk_column B' ps = option_map (turn_col 1) (walk_column B ps).
Proof.
  induction ps as [|[u v] ps IH]; [reflexivity|]. cbn [walk_column]. rewrite keys_flip, IH. destruct (keys B u v) as [|i r] eqn:Ek; [reflexivity|].
  destruct (walk_column B ps) as [col|]; [|reflexivity]. cbn [option_map turn_col map fst snd]. repeat f_equal.
  destruct (end_flip u v i) as (z & z' & -> & -> & _ & E & _); [rewrite Ek; now left|]. rewrite E. unfold fs. destruct (s i), (Nat.eqb z u); reflexivity.
Qed.
Lemma flat_gen {X Y} (R : Y -> Y -> Prop) (f f' : nat * X -> list Y) (A A' : list X) k : List.length A' = List.length A ->
  (forall i b b', nth_error A i = Some b -> nth_error A' i = Some b' -> Forall2 R (f ((k + i)%nat, b)) (f' ((k + i)%nat, b'))) ->
  Forall2 R (flat_map f (combine (seq k (List.length A)) A)) (flat_map f' (combine (seq k (List.length A')) A')).
Proof.
  revert A' k. induction A as [|b A IH]; intros [|b' A'] k E H; try discriminate; [constructor|]. cbn [List.length seq combine flat_map]. apply Forall2_app.
  - specialize (H O b b' eq_refl eq_refl). now rewrite Nat.add_0_r in H.
  - apply IH; [now injection E|]. intros i c c' Hc Hc'. specialize (H (S i) c c' Hc Hc'). now rewrite Nat.add_succ_r in H.
Qed.
Lemma multi_flip : Forall2 like (multi_columns B) (multi_columns B').
Proof.
  unfold multi_columns, numbered. apply flat_gen; [exact L|]. intros i b b' E E'. cbn [Nat.add]. destruct (N i b E) as (b2 & E2 & F1 & F2 & F3). rewrite E' in E2. injection E2 as <-.
  assert (Kk : keys B' (g0 b') (g1 b') = keys B (g0 b) (g1 b)).
  { rewrite keys_flip, F2, F3. destruct (s i); [apply keys_sym|reflexivity]. }
  rewrite Kk, F1. destruct (keys B (g0 b) (g1 b)) as [|i0 others] eqn:Ek; [constructor|]. destruct (gfin b); [|constructor]. cbn [andb]. destruct (Nat.eqb_spec i0 i) as [->|_]; [|constructor].
  assert (O : forall o, In o others -> In o (keys B (g0 b) (g1 b))) by (intros o J; rewrite Ek; now right). clear Ek Kk. induction others as [|o os IHo]; [constructor|]. cbn [map]. constructor.
  - destruct (end_flip (g0 b) (g1 b) o (O o (or_introl eq_refl))) as (z & z' & -> & -> & Z1 & Z2 & Z3 & Z4). exists (fs i). split; [unfold fs; destruct (s i); auto|].
    unfold turn_col. cbn [map fst snd]. rewrite F2. subst z'. f_equal; [unfold fs; destruct (s i); reflexivity|]. f_equal. f_equal. clear Z2.
    assert (Y : Nat.eqb (g1 b) (g0 b) = false) by (apply Nat.eqb_neq; congruence). assert (Y' : Nat.eqb (g0 b) (g1 b) = false) by (apply Nat.eqb_neq; congruence).
    unfold fs. destruct Z1 as [-> | ->]; destruct (s i), (s o); rewrite ?Nat.eqb_refl, ?Y, ?Y', ?Nat.eqb_refl, ?Y, ?Y'; reflexivity.
  - apply IHo. intros o' J. apply O. now right.
Qed.
Lemma find_flip cycles : match find_cycles B cycles, find_cycles B' cycles with
  | Some c, Some c' => Forall2 like c c' | None, None => True | _, _ => False end.
Proof.
  unfold find_cycles.
  assert (H : match sequence (map (fun c => walk_column B (cyclic_pairs c)) cycles), sequence (map (fun c => walk_column B' (cyclic_pairs c)) cycles) with
    | Some c, Some c' => Forall2 like c c' | None, None => True | _, _ => False end).
  { induction cycles as [|c cs IH]; [constructor|]. cbn [map sequence]. rewrite walk_flip. destruct (walk_column B (cyclic_pairs c)) as [col|]; [|exact I]. cbn [option_map].
    destruct (sequence (map (fun c => walk_column B (cyclic_pairs c)) cs)), (sequence (map (fun c => walk_column B' (cyclic_pairs c)) cs)); try contradiction; [|exact I].
    cbn [option_map]. constructor; [|exact IH]. exists 1%Z. split; [now left|reflexivity]. }
  destruct (sequence (map (fun c => walk_column B (cyclic_pairs c)) cycles)), (sequence (map (fun c => walk_column B' (cyclic_pairs c)) cycles)); try contradiction; [|exact I].
  cbn [option_map]. apply Forall2_app; [exact H|apply multi_flip].
Qed.
Lemma entry_turn k col i : col_entry (turn_col k col) i = (k * fs i * col_entry col i)%Z.
Proof.
  clear L N NL. unfold col_entry, turn_col. rewrite NamingProofs.fold_right_map. cbn [fst snd]. induction col as [|[j z] col IH]; cbn [fold_right fst snd]; [lia|].
  rewrite IH. destruct (Nat.eqb_spec j i) as [->|_]; lia.
Qed.
End Flip.

Section Follow.
Variable d : choice.
Variable place : string -> nat.
Variable fin : asset -> bool.
Variable weight : asset -> Q.
Variable basis : list gbranch -> list (list nat).
Variable T : nat.
Hypothesis U : undirected basis.
Hypothesis W : forall a, weight (reverse a) = weight a.
Hypothesis Fi : forall a, fin (reverse a) = fin a.
Variable l : list asset.
Hypothesis P : forall a, In a l -> passive a = true.
Hypothesis NL : forall a, In a l -> place (bus0 a) <> place (bus1 a).
Notation B := (map (edge place fin) l).
Notation B' := (map (edge place fin) (map (turn d) l)).
Definition s_of (i : nat) : bool := match nth_error l i with Some a => d (cls a) (nm a) | None => false end.

Lemma w_turn a : weight (turn d a) = weight a.
Proof. unfold turn. destruct (_ && _)%bool; [apply W|reflexivity]. Qed.
Lemma nth_turn i b : nth_error B i = Some b -> exists b', nth_error B' i = Some b' /\ flipped (s_of i) b b'.
Proof.
  rewrite !nth_error_map. unfold s_of. destruct (nth_error l i) as [a|] eqn:E; [|discriminate]. cbn [option_map]. intros H. injection H as <-. eexists. split; [reflexivity|].
  assert (Pa := P a (nth_error_In _ _ E)). unfold flipped, edge, turn. rewrite Pa. cbn [andb g0 g1 gfin]. destruct (d (cls a) (nm a)); cbn [reverse bus0 bus1]; repeat split. apply Fi.
Qed.
Lemma same_graph : Forall2 same_edge B B'.
Proof.
  clear NL P. induction l as [|a m IH]; cbn [map]; constructor; [|exact IH]. unfold same_edge, edge, turn. cbn [g0 g1 gfin].
  destruct (_ && _)%bool; cbn [reverse bus0 bus1]; [|auto]. rewrite Fi. auto.
Qed.
Open Scope Q_scope.
Definition qs (a : asset) : Q := if d (cls a) (nm a) then -(1) else 1.
Lemma row_like x col col' t : like s_of col col' ->
  exists q : Q, (q == 1 \/ q == -(1)) /\ eval x (entries_of weight (map (turn d) l) col' t) == q * eval (against d x) (entries_of weight l col t) /\
  existsb (fun t => match snd t with Some _ => true | None => false end) (entries_of weight (map (turn d) l) col' t) =
  existsb (fun t => match snd t with Some _ => true | None => false end) (entries_of weight l col t).
Proof.
  intros (k & Hk & ->). exists (inject_Z k). split; [destruct Hk as [-> | ->]; [left|right]; reflexivity|].
  unfold entries_of, numbered. rewrite map_length.
  assert (G : forall m j, (forall i a, nth_error m i = Some a -> nth_error l (j + i) = Some a) ->
    eval x (flat_map (fun la : nat * asset => let (i, a) := la in if Z.eqb (col_entry (turn_col s_of k col) i) 0 then []
      else [(100000 * weight a * inject_Z (col_entry (turn_col s_of k col) i), if on a t then Some ((cls a ++ "-s")%string, t, nm a) else None)]) (combine (seq j (List.length m)) (map (turn d) m))) ==
    inject_Z k * eval (against d x) (flat_map (fun la : nat * asset => let (i, a) := la in if Z.eqb (col_entry col i) 0 then []
      else [(100000 * weight a * inject_Z (col_entry col i), if on a t then Some ((cls a ++ "-s")%string, t, nm a) else None)]) (combine (seq j (List.length m)) m)) /\
    existsb (fun t => match snd t with Some _ => true | None => false end) (flat_map (fun la : nat * asset => let (i, a) := la in if Z.eqb (col_entry (turn_col s_of k col) i) 0 then []
      else [(100000 * weight a * inject_Z (col_entry (turn_col s_of k col) i), if on a t then Some ((cls a ++ "-s")%string, t, nm a) else None)]) (combine (seq j (List.length m)) (map (turn d) m))) =
    existsb (fun t => match snd t with Some _ => true | None => false end) (flat_map (fun la : nat * asset => let (i, a) := la in if Z.eqb (col_entry col i) 0 then []
      else [(100000 * weight a * inject_Z (col_entry col i), if on a t then Some ((cls a ++ "-s")%string, t, nm a) else None)]) (combine (seq j (List.length m)) m))).
  { induction m as [|a m IH]; intros j H; [split; [cbn; ring|reflexivity]|]. cbn [List.length seq combine map flat_map].
    destruct (IH (S j)) as [I1 I2]; [intros i c Hc; rewrite <- (H (S i) c Hc); f_equal; lia|].
    assert (Ea : nth_error l j = Some a) by (rewrite <- (H O a eq_refl); f_equal; lia).
    assert (Pa := P a (nth_error_In _ _ Ea)).
    rewrite entry_turn. rewrite TurnProofs.F_cls, w_turn. destruct (TurnProofs.ends d a) as (-> & -> & _).
    assert (Sj : fs s_of j = (if d (cls a) (nm a) then -1 else 1)%Z) by (unfold fs, s_of; now rewrite Ea).
    assert (Zj : Z.eqb (k * fs s_of j * col_entry col j) 0 = Z.eqb (col_entry col j) 0).
    { rewrite Sj. destruct (Z.eqb_spec (col_entry col j) 0) as [->|Nz]; [apply Z.eqb_eq; lia|]. apply Z.eqb_neq. destruct Hk as [-> | ->], (d (cls a) (nm a)); lia. }
    rewrite Zj. destruct (Z.eqb (col_entry col j) 0); [now cbn [app]|]. cbn [app eval existsb snd]. rewrite I1, I2. split; [|destruct (on a t); reflexivity].
    assert (V : val (against d x) (if on a t then Some ((cls a ++ "-s")%string, t, nm a) else None) == inject_Z (fs s_of j) * val x (if on a t then Some ((cls a ++ "-s")%string, t, nm a) else None)).
    { destruct (on a t); cbn [val]; [|ring]. rewrite Sj.
      assert (Hc : cls a = "Line" \/ cls a = "Transformer") by (unfold passive in Pa; apply orb_true_iff in Pa; destruct Pa as [Pa|Pa]; apply String.eqb_eq in Pa; auto).
      rewrite (TurnProofs.ag_flow d x (cls a) t (nm a) Hc). unfold TurnProofs.sgn_of. destruct (d (cls a) (nm a)); reflexivity. }
    rewrite V, !inject_Z_mult. generalize (inject_Z k) (inject_Z (fs s_of j)) (inject_Z (col_entry col j)). intros. set (e1 := eval _ _). set (e2 := val _ _). clearbody e1 e2. generalize (weight a). intros. ring. }
  exact (G l O (fun i a H => H)).
Qed.
Lemma kirchhoff_follows : kvl_follows d (kirchhoff place fin weight basis T) l.
Proof.
  intros x. unfold kirchhoff.
  assert (Fl := find_flip B B' s_of ltac:(now rewrite !map_length) nth_turn
    ltac:(intros b J; apply in_map_iff in J; destruct J as (a & <- & J); cbn [edge g0 g1]; now apply NL) (basis B)).
  rewrite <- (U B B' same_graph).
  destruct (find_cycles B (basis B)) as [cols|], (find_cycles B' (basis B)) as [cols'|]; try contradiction; [|split; intros _ b []].
  induction (seq 0 T) as [|t ts IH]; [split; intros _ b []|]. cbn [flat_map]. rewrite !NamingProofs.sat_problem_app, IH.
  assert (Hh : sat x (CapModel.problem (map (fun col => {| lhs := entries_of weight (map (turn d) l) col t; sns := Eq; rhs := 0 |}) cols')) <->
    sat (against d x) (CapModel.problem (map (fun col => {| lhs := entries_of weight l col t; sns := Eq; rhs := 0 |}) cols))).
  { clear IH. induction Fl as [|c c' cs cs' Hc Hr IH]; [split; intros _ b []|]. cbn [map].
    change (?a :: ?r) with ([a] ++ r). rewrite !NamingProofs.sat_problem_app, IH.
    assert (R : sat x (CapModel.problem [{| lhs := entries_of weight (map (turn d) l) c' t; sns := Eq; rhs := 0 |}]) <->
      sat (against d x) (CapModel.problem [{| lhs := entries_of weight l c t; sns := Eq; rhs := 0 |}])).
    { destruct (row_like x c c' t Hc) as (q & Hq & E & X). unfold CapModel.problem. cbn [filter].
      assert (Y : CapModel.has_term {| lhs := entries_of weight (map (turn d) l) c' t; sns := Eq; rhs := 0 |} = CapModel.has_term {| lhs := entries_of weight l c t; sns := Eq; rhs := 0 |}) by exact X.
      rewrite Y. clear X Y. destruct (CapModel.has_term {| lhs := entries_of weight l c t; sns := Eq; rhs := 0 |}); [|split; intros _ b []].
      assert (Z1 : eval x (entries_of weight (map (turn d) l) c' t) == 0 <-> eval (against d x) (entries_of weight l c t) == 0).
      { rewrite E. destruct Hq as [-> | ->]; split; intros; lra. }
      split; intros S' b [<-|[]]; apply Z1; exact (S' _ (or_introl eq_refl)). }
    rewrite R. reflexivity. }
  rewrite Hh. reflexivity.
Qed.
End Follow.
