From Coq Require Import List String Bool QArith Arith Lqa Lia DecimalString DecimalNat.
From Verif Require Import LinModel LinProofs ClusterModel ClusterProofs CoarseModel CoarseSpec.
From Verif Require BalanceModel BalanceSpec BalanceProofs DispatchModel.
Import ListNotations.
Open Scope string_scope.
Open Scope list_scope.
Open Scope Q_scope.
Import BalanceProofs.

Lemma nth_numbered {A} (l : list A) i j : nth_error (numbered i l) j = option_map (fun a => ((i + j)%nat, a)) (nth_error l j).
Proof.
  revert i j. induction l as [|a l IH]; intros i [|j]; cbn [numbered nth_error option_map]; auto; [now rewrite Nat.add_0_r|].
  rewrite IH. destruct (nth_error l j); cbn; auto. do 2 f_equal. lia.
Qed.
Lemma numbered_map {A B} (f : A -> B) (l : list A) i : numbered i (map f l) = map (fun ia => (fst ia, f (snd ia))) (numbered i l).
Proof. revert i. induction l as [|a l IH]; intros i; cbn [map numbered fst snd]; auto. now rewrite IH. Qed.
Lemma numbered_in {A} (l : list A) i a : In (i, a) (numbered 0 l) -> nth_error l i = Some a.
Proof.
  intros I. apply In_nth_error in I. destruct I as [j E]. rewrite nth_numbered in E. destruct (nth_error l j) eqn:F; [|discriminate]. cbn in E. injection E as <- <-. auto.
Qed.
Lemma numbered_fst {A} (l : list A) i : map fst (numbered i l) = seq i (List.length l).
Proof. revert i. induction l as [|a l IH]; intros i; cbn; auto. now rewrite IH. Qed.
Lemma flat_map_single {A B} (F : A -> list B) (G : A -> B) l : (forall a, In a l -> F a = [G a]) -> flat_map F l = map G l.
Proof. induction l as [|a l IH]; intros H; cbn; auto. rewrite H by (simpl; auto). cbn. f_equal. apply IH. intros; apply H; simpl; auto. Qed.
Lemma Forall2_numbered {A B D} (P : B -> D -> Prop) (G : nat * A -> B) (M : A -> D) l :
  (forall i a, nth_error l i = Some a -> P (G (i, a)) (M a)) -> Forall2 P (map G (numbered 0 l)) (map M l).
Proof.
  intros H. assert (K : forall l i0, (forall i a, nth_error l i = Some a -> P (G ((i0 + i)%nat, a)) (M a)) -> Forall2 P (map G (numbered i0 l)) (map M l)).
  { clear. induction l as [|a l IH]; intros i0 H; cbn; constructor; [specialize (H 0%nat a eq_refl); now rewrite Nat.add_0_r in H|].
    apply IH. intros i b E. specialize (H (S i) b E). now rewrite Nat.add_succ_r in H. }
  apply K. intros i a E. apply H. auto.
Qed.
Lemma all_some_nth {A} (l : list (option A)) r : all_some l = Some r -> forall i o, nth_error l i = Some o -> exists a, o = Some a /\ nth_error r i = Some a.
Proof.
  revert r. induction l as [|[a|] l IH]; intros r E [|i] o N; cbn in *; try discriminate.
  - injection N as <-. destruct (all_some l); [|discriminate]. cbn in E. injection E as <-. exists a. auto.
  - destruct (all_some l) as [r'|]; [|discriminate]. cbn in E. injection E as <-. cbn. eapply IH; eauto.
Qed.
Lemma total_perm_filter {A} (f : A -> Q) (g : A -> bool) l : total f (filter g l) + total f (filter (fun a => negb (g a)) l) == total f l.
Proof. rewrite !total_filter, <- total_plus. apply total_ext. intros a _. destruct (g a); cbn [negb]; ring. Qed.

(* strategies over a mapped list *)
Lemma dot_map {A B} (h : A -> B) f l w : dot f (map h l) w = dot (fun a => f (h a)) l w.
Proof. revert w. induction l as [|a l IH]; intros [|q w]; cbn; auto. now rewrite IH. Qed.
Lemma sum_of_map {A B} (h : A -> B) f l : sum_of f (map h l) = sum_of (fun a => f (h a)) l.
Proof. unfold sum_of. induction l as [|a l IH]; cbn; auto. now rewrite IH. Qed.
Lemma sum_of_total {A} (f : A -> Q) l : sum_of f l = total f l.
Proof. reflexivity. Qed.

Lemma str_inj i j : str i = str j -> i = j.
Proof.
  unfold str. intros E. apply (f_equal NilEmpty.uint_of_string) in E. rewrite !NilEmpty.usu in E. injection E as E.
  rewrite <- (Unsigned.of_to i), <- (Unsigned.of_to j). now rewrite E.
Qed.

Section One.
Variable busmap : string -> option string.
Variable T : nat.
Variables (cap : string) (strat : string -> strategy) (cols : list string) (sel : string -> string -> bool) (ds : list dev).
Definition dsel (d : dev) : bool := sel (d_bus d) (d_carrier d).
Definition dkey (d : dev) : option (string * string) := option_map (fun b => (b, d_carrier d)) (busmap (d_bus d)).
Definition dgroup (k : string * string) : list dev := filter (fun d => match dkey d with Some k' => key_eqb k k' | None => false end) (filter dsel ds).
Definition dkeys : list (string * string) := nodupk (flat_map (fun d => match dkey d with Some k => [k] | None => [] end) (filter dsel ds)).
Definition drest : list dev := filter (fun d => negb (dsel d)) ds.
Inductive part := All (k : string * string) | Only (d : dev).
Definition parts : list part := map All dkeys ++ map Only drest.
Definition members (p : part) : list dev := match p with All k => dgroup k | Only d => [d] end.
Definition row (p : dev -> oneport) (q : part) : out :=
  match q with
  | All k => {| u_name := flat_name (fst k) (snd k); u_bus := Some (fst k); u_carrier := snd k;
                u_num := fun c => combine (strat c) (fun r => o_num r cap) (fun r => o_num r c) (map p (dgroup k)) |}
  | Only d => {| u_name := o_name (p d); u_bus := busmap (o_bus (p d)); u_carrier := o_carrier (p d); u_num := fun c => Some (o_num (p d) c) |}
  end.
Definition same (p : dev -> oneport) : Prop := forall d, o_bus (p d) = d_bus d /\ o_carrier (p d) = d_carrier d /\ o_name (p d) = d_name d.
Lemma filter_map {A B} (f : A -> B) (g : B -> bool) l : filter g (map f l) = map f (filter (fun a => g (f a)) l).
Proof. induction l as [|a l IH]; cbn; auto. destruct (g (f a)); cbn; now rewrite IH. Qed.
Lemma filter_ext' {A} (f g : A -> bool) l : (forall a, f a = g a) -> filter f l = filter g l.
Proof. intros H. induction l as [|a l IH]; cbn; auto. rewrite H, IH. reflexivity. Qed.
Lemma group_map p k : same p -> group busmap k (filter (fun r => sel (o_bus r) (o_carrier r)) (map p ds)) = map p (dgroup k).
Proof.
  intros S. unfold group, dgroup. rewrite !filter_map. f_equal. 
  rewrite (filter_ext' (fun a => sel (o_bus (p a)) (o_carrier (p a))) dsel) by (intros d; unfold dsel; destruct (S d) as [-> [-> _]]; auto).
  apply filter_ext'. intros d. unfold key, dkey. destruct (S d) as [-> [-> _]]. reflexivity.
Qed.
Lemma keys_map p : same p -> keys busmap (filter (fun r => sel (o_bus r) (o_carrier r)) (map p ds)) = dkeys.
Proof.
  intros S. unfold keys, dkeys. f_equal. rewrite filter_map.
  rewrite (filter_ext' (fun a => sel (o_bus (p a)) (o_carrier (p a))) dsel) by (intros d; unfold dsel; destruct (S d) as [-> [-> _]]; auto).
  induction (filter dsel ds) as [|d l IH]; cbn; auto. rewrite IH. unfold key, dkey. destruct (S d) as [-> [-> _]]. reflexivity.
Qed.
Lemma agg_rows p us : same p -> aggregateoneport busmap cap strat cols (fun r => sel (o_bus r) (o_carrier r)) (map p ds) = Some us ->
  us = map (row p) parts /\ forall k c, In k dkeys -> In c cols -> combine (strat c) (fun r => o_num r cap) (fun r => o_num r c) (map p (dgroup k)) <> None.
Proof.
  intros S. unfold aggregateoneport. rewrite (keys_map p S). destruct (forallb _ _) eqn:FB; [|discriminate]. intros E. injection E as <-. split.
  - unfold parts. rewrite map_app, !map_map. f_equal.
    + apply map_ext. intros k. unfold row. rewrite (group_map p k S). reflexivity.
    + rewrite filter_map, map_map. unfold drest.
      rewrite (filter_ext' (fun a => negb (sel (o_bus (p a)) (o_carrier (p a)))) (fun d => negb (dsel d))) by (intros d; unfold dsel; destruct (S d) as [-> [-> _]]; auto). reflexivity.
  - intros k c K I. rewrite forallb_forall in FB. specialize (FB k K). rewrite forallb_forall in FB. specialize (FB c I). rewrite (group_map p k S) in FB. intros H. rewrite H in FB. discriminate.
Qed.
Lemma same_port : same port. Proof. intros d. auto. Qed.
Lemma same_at t : same (port_at cap t). Proof. intros d. auto. Qed.

(* what the rows of the aggregated table are *)
Definition num (p : dev -> oneport) (q : part) (a : string) : Q := value (u_num (row p q) a).
Definition row_dev (q : part) (r : dev) : Prop := exists b, u_bus (row port q) = Some b /\
  d_name r = u_name (row port q) /\ d_bus r = b /\ d_carrier r = u_carrier (row port q) /\ (forall a, d_static r a = num port q a) /\
  forall a, (forall t, (t < T)%nat -> d_at r a t == num (port_at cap t) q a \/ (forall d, In d ds -> d_series d a = None) /\ d_at r a t == num port q a) /\
    (forall f, d_series r a = Some f -> (forall t, (t < T)%nat -> f t == num (port_at cap t) q a) /\ exists t, (t < T)%nat /\ ~ f t == num port q a).
Lemma aggregated_rows rs : (forall d, In d ds -> busmap (d_bus d) <> None) -> aggregateoneport_t busmap T cap strat cols sel ds = Some rs ->
  Forall2 (fun r q => row_dev q r /\ forall c t, In c cols -> (t < T)%nat -> match q with All k => u_num (row port q) c <> None /\ u_num (row (port_at cap t) q) c <> None | Only _ => True end) rs parts.
Proof.
  intros M. unfold aggregateoneport_t. destruct (aggregateoneport busmap cap strat cols _ (map port ds)) as [us|] eqn:E; [|discriminate].
  destruct (all_some _) as [uss|] eqn:ES; [|discriminate]. destruct (agg_rows port us same_port E) as [-> DEF]. intros R.
  assert (TT : forall t, (t < T)%nat -> nth_error uss t = Some (map (row (port_at cap t)) parts) /\ forall k c, In k dkeys -> In c cols -> combine (strat c) (fun r => o_num r cap) (fun r => o_num r c) (map (port_at cap t) (dgroup k)) <> None).
  { intros t L. destruct (all_some_nth _ _ ES t (aggregateoneport busmap cap strat cols (fun r => sel (o_bus r) (o_carrier r)) (map (port_at cap t) ds))) as [a [Ea N]].
    - rewrite nth_error_map. rewrite (nth_error_nth' _ 0%nat) by (rewrite seq_length; auto). rewrite seq_nth by auto. reflexivity.
    - destruct (agg_rows _ _ (same_at t) Ea) as [-> D]. split; auto. }
  assert (BS : forall q, In q parts -> exists b, u_bus (row port q) = Some b).
  { intros q I. apply in_app_or in I. destruct I as [I|I]; apply in_map_iff in I; destruct I as [k [<- I]]; cbn [row u_bus]; eauto.
    cbn [port o_bus]. apply filter_In in I. destruct (busmap (d_bus k)) eqn:B; eauto. destruct (M k (proj1 I) B). }
  rewrite numbered_map, flat_map_concat_map, map_map, <- flat_map_concat_map in R.
  rewrite (flat_map_single _ (fun ia => Dev (u_name (row port (snd ia))) (match u_bus (row port (snd ia)) with Some b => b | None => "" end) (u_carrier (row port (snd ia)))
     (fun a => value (u_num (row port (snd ia)) a)) (fun a => series_kept T (existsb (fun d => is_some (d_series d a)) ds) (value (u_num (row port (snd ia)) a))
               (fun t => match nth_error uss t with
                         | Some vs => match nth_error vs (fst ia) with Some u => value (u_num u a) | None => 0 end
                         | None => 0
                         end)))) in R.
  2:{ intros [i q] I. cbn [fst snd]. apply numbered_in in I. apply nth_error_In in I. destruct (BS q I) as [b ->]. reflexivity. }
  injection R as <-. assert (ID : parts = map (fun q => q) parts) by now rewrite map_id. rewrite ID at 2. apply Forall2_numbered. intros i q N. cbn [fst snd].
  pose proof (nth_error_In _ _ N) as I. destruct (BS q I) as [b B].
  assert (V : forall t a, (t < T)%nat -> match nth_error uss t with
                         | Some vs => match nth_error vs i with Some u => value (u_num u a) | None => 0 end
                         | None => 0 end = num (port_at cap t) q a).
  { intros t a L. destruct (TT t L) as [-> _]. rewrite nth_error_map, N. reflexivity. }
  split.
  - exists b. cbn [d_name d_bus d_carrier d_static d_series]. rewrite B. do 5 (split; [reflexivity|]). intros a.
    unfold d_at, dense, series_kept. cbn [d_static d_series]. set (h := existsb _ ds).
    destruct (forallb (fun t => Qeq_bool _ _) (seq 0 T)) eqn:FB; cbn [negb].
    + rewrite andb_false_r. split; [|discriminate]. intros t L. left. rewrite forallb_forall in FB. specialize (FB t). rewrite in_seq in FB. specialize (FB ltac:(lia)). apply Qeq_bool_iff in FB. rewrite V in FB by auto. now rewrite FB.
    + rewrite andb_true_r. destruct h eqn:H; subst h.
      * split; [intros t L; left; now rewrite V|]. intros f Ef. injection Ef as <-. split; [intros t L; now rewrite V|].
        assert (X : exists t, In t (seq 0 T) /\ Qeq_bool (match nth_error uss t with
                         | Some vs => match nth_error vs i with Some u => value (u_num u a) | None => 0 end
                         | None => 0 end) (value (u_num (row port q) a)) = false).
        { clear - FB. induction (seq 0 T) as [|t l IH]; cbn in FB; [discriminate|]. destruct (Qeq_bool _ _) eqn:Q1 in FB; [|exists t; split; simpl; auto].
          cbn in FB. destruct (IH FB) as [t' [I' E']]. exists t'. split; simpl; auto. }
        destruct X as [t [It Et]]. exists t. apply in_seq in It. split; [lia|]. intros C. apply Qeq_bool_neq in Et. now apply Et.
      * split; [|discriminate]. intros t L. right. split; [|reflexivity]. intros d J. destruct (d_series d a) eqn:Sd; auto.
        assert (existsb (fun d => is_some (d_series d a)) ds = true); [|congruence]. apply existsb_exists. exists d. split; auto. now rewrite Sd.
  - intros c t IC L. destruct q as [k|d]; auto. assert (K : In k dkeys).
    { apply in_app_or in I. destruct I as [I|I]; apply in_map_iff in I; destruct I as [k' [E' I]]; [injection E' as ->; auto|discriminate]. }
    split; [exact (DEF k c K IC)|]. destruct (TT t L) as [_ D]. exact (D k c K IC).
Qed.
Lemma parts_total (f : dev -> Q) : (forall d, In d ds -> busmap (d_bus d) <> None) -> total (fun q => total f (members q)) parts == total f ds.
Proof.
  intros M. unfold parts. rewrite total_app, !total_map. cbn [members]. rewrite <- (total_perm_filter f dsel ds). apply Qplus_comp.
  - unfold dgroup. rewrite (total_ext _ (fun k => total (fun d => if match dkey d with Some k' => key_eqb k k' | None => false end then f d else 0) (filter dsel ds))) by (intros k _; apply total_filter).
    rewrite total_swap. apply total_ext. intros d I. pose proof I as I0. apply filter_In in I. unfold dkey. destruct (busmap (d_bus d)) as [b|] eqn:B; [|destruct (M d (proj1 I) B)]. cbn [option_map].
    rewrite (pick_key (fun _ => f d) (b, d_carrier d) dkeys); [reflexivity|apply nodupk_NoDup|]. left. apply nodupk_In. apply in_flat_map. exists d. split; auto. unfold dkey. rewrite B. simpl. auto.
  - apply total_ext. intros d _. cbn. ring.
Qed.
Lemma members_in q d : In q parts -> In d (members q) -> In d ds /\ busmap (d_bus d) = u_bus (row port q) /\ d_carrier d = u_carrier (row port q).
Proof.
  intros I J. destruct q as [k|e]; cbn [members row u_bus u_carrier] in *.
  - unfold dgroup in J. apply filter_In in J. destruct J as [J K]. apply filter_In in J. destruct J as [J _]. split; auto. unfold dkey in K. destruct (busmap (d_bus d)); [|discriminate]. cbn in K. apply key_eqb_eq in K. subst. auto.
  - destruct J as [<-|[]]. cbn. split; auto. apply in_app_or in I. destruct I as [I|I]; apply in_map_iff in I; destruct I as [k' [E' I]]; [discriminate|]. injection E' as ->. apply filter_In in I. tauto.
Qed.
End One.

Section Vals.
Variable busmap : string -> option string.
Variable T : nat.
Variables (cap : string) (strat : string -> strategy) (cols : list string) (sel : string -> string -> bool) (ds : list dev).
Notation parts := (parts busmap sel ds).
Notation members := (members busmap sel ds).
Notation num := (num busmap cap strat sel ds).
Notation row := (row busmap cap strat sel ds).
Lemma members_ne q : In q parts -> members q <> [].
Proof.
  intros I. destruct q as [k|d]; cbn; [|discriminate]. apply in_app_or in I. destruct I as [I|I]; apply in_map_iff in I; destruct I as [k' [E I]]; [|discriminate]. injection E as ->.
  unfold dkeys in I. rewrite nodupk_In, in_flat_map in I. destruct I as [d [I J]]. destruct (dkey busmap d) as [k'|] eqn:K; [|destruct J]. destruct J as [->|[]].
  assert (H : In d (dgroup busmap sel ds k)); [|intros N; now rewrite N in H]. unfold dgroup. apply filter_In. split; auto. rewrite K. now apply key_eqb_eq.
Qed.
Lemma num_sum p q a : strat a = Sum -> num p q a == total (fun d => o_num (p d) a) (members q).
Proof.
  intros S. unfold CoarseProofs.num. destruct q as [k|d]; cbn [CoarseProofs.row u_num CoarseProofs.members]; [rewrite S; cbn [combine value]; now rewrite sum_of_map, sum_of_total|].
  cbn. ring.
Qed.
Lemma num_avg p q a : strat a = CapacityAverage -> (forall d, In d (members q) -> 0 <= o_num (p d) cap) ->
  total (fun d => o_num (p d) cap) (members q) * num p q a == total (fun d => o_num (p d) cap * o_num (p d) a) (members q).
Proof.
  intros S N. unfold CoarseProofs.num. destruct q as [k|d]; cbn [CoarseProofs.row u_num CoarseProofs.members] in *; [|cbn; ring].
  rewrite S. destruct (average_weighted (fun r => o_num r cap) (fun r => o_num r a) (map p (dgroup busmap sel ds k))) as [v [E V]].
  - intros r I. apply in_map_iff in I. destruct I as [d [<- I]]. auto.
  - rewrite E. cbn [value]. now rewrite !total_map in V.
Qed.
Lemma num_range p q a lo hi : In q parts -> strat a = CapacityAverage -> (forall d, In d (members q) -> 0 <= o_num (p d) cap) -> (forall d, In d (members q) -> lo <= o_num (p d) a <= hi) -> lo <= num p q a <= hi.
Proof.
  intros I S N B. pose proof (members_ne q I) as NE. unfold CoarseProofs.num. destruct q as [k|d]; cbn [CoarseProofs.row u_num CoarseProofs.members value] in *; [|apply B; simpl; auto].
  rewrite S. destruct (average_between (fun r => o_num r cap) (fun r => o_num r a) lo hi (map p (dgroup busmap sel ds k))) as [v [E V]].
  - intros M. apply map_eq_nil in M. auto.
  - intros r J. apply in_map_iff in J. destruct J as [d [<- J]]. auto.
  - intros r J. apply in_map_iff in J. destruct J as [d [<- J]]. auto.
  - now rewrite E.
Qed.
Lemma num_agree p q a : strat a = Consense -> (match q with All _ => u_num (row p q) a <> None | Only _ => True end) -> forall d, In d (members q) -> o_num (p d) a == num p q a.
Proof.
  intros S D d I. unfold CoarseProofs.num. destruct q as [k|e]; cbn [CoarseProofs.row u_num CoarseProofs.members value] in *; [|destruct I as [<-|[]]; reflexivity].
  rewrite S in *. destruct (dgroup busmap sel ds k) as [|e r]; [destruct I|]. cbn [map combine] in *. destruct (forallb _ _) eqn:F; [|congruence]. cbn [value].
  destruct I as [<-|I]; [reflexivity|]. rewrite forallb_forall in F. specialize (F (p d) (in_map p _ _ I)). now apply Qeq_bool_iff in F.
Qed.
End Vals.

(* rows of a clustered table and the components they stand for *)
Definition stands (busmap : string -> option string) (T : nat) (ds : list dev) (r : dev) (m : list dev) : Prop :=
  m <> [] /\ (forall d, In d m -> In d ds /\ busmap (d_bus d) = Some (d_bus r) /\ d_carrier d = d_carrier r) /\
  d_static r "p_nom" == total (fun d => d_static d "p_nom") m /\
  (forall d, In d m -> d_static d "sign" == d_static r "sign") /\
  ((forall d, In d m -> d_series d "p_set" = None) -> d_series r "p_set" = None) /\
  forall t, (t < T)%nat -> d_at r "p_set" t == total (fun d => d_at d "p_set" t) m /\
   ((forall d, In d m -> 0 <= d_static d "p_nom") ->
    (forall a, In a ["p_min_pu"; "p_max_pu"] -> d_static r "p_nom" * d_at r a t == total (fun d => d_static d "p_nom" * d_at d a t) m) /\
    (forall q, (forall d, In d m -> d_at d "marginal_cost" t == q) -> d_at r "marginal_cost" t == q)).
Definition gathered busmap T ds rs ms : Prop := Forall2 (stands busmap T ds) rs ms /\ forall f : dev -> Q, total (total f) ms == total f ds.

Section Gather.
Variable busmap : string -> option string.
Variable T : nat.
Variables (cols : list string) (sel : string -> string -> bool) (ds : list dev).
Hypothesis mapped : forall d, In d ds -> busmap (d_bus d) <> None.
Notation parts := (parts busmap sel ds).
Notation members := (members busmap sel ds).
Notation num := (num busmap "p_nom" default_strategy sel ds).
Lemma row_at r q a t : row_dev busmap T "p_nom" default_strategy sel ds q r -> (t < T)%nat -> a <> "p_nom" ->
  exists p, d_at r a t == num p q a /\ (forall d, In d ds -> o_num (p d) a == d_at d a t) /\ (forall d, o_num (p d) "p_nom" = d_static d "p_nom") /\ (p = port \/ p = port_at "p_nom" t).
Proof.
  intros [b [_ [_ [_ [_ [_ H]]]]]] L N. destruct (H a) as [A _]. destruct (A t L) as [E|[Z E]].
  - exists (port_at "p_nom" t). split; auto. split; [|split; [intros d; reflexivity|auto]]. intros d _. cbn [port_at o_num]. destruct (String.eqb_spec a "p_nom"); [contradiction|reflexivity].
  - exists port. split; auto. split; [|split; [intros d; reflexivity|auto]]. intros d I. cbn [port o_num]. unfold d_at, dense. now rewrite (Z d I).
Qed.
Lemma gather rs : In "sign" cols -> aggregateoneport_t busmap T "p_nom" default_strategy cols sel ds = Some rs -> gathered busmap T ds rs (map members parts).
Proof.
  intros SC E. pose proof (aggregated_rows busmap T _ _ _ sel ds rs mapped E) as F. split.
  - assert (K : forall l l', (forall q, In q l' -> In q parts) -> Forall2 (fun r q => row_dev busmap T "p_nom" default_strategy sel ds q r /\ forall c t, In c cols -> (t < T)%nat ->
        match q with All k => u_num (row busmap "p_nom" default_strategy sel ds port q) c <> None /\ u_num (row busmap "p_nom" default_strategy sel ds (port_at "p_nom" t) q) c <> None | Only _ => True end) l l' ->
        Forall2 (stands busmap T ds) l (map members l')); [|apply K; auto].
    intros l l' SUB F'. revert SUB. induction F' as [|r q l l' [R D] _ IH]; intros SUB; cbn [map]; constructor; [|apply IH; intros; apply SUB; simpl; auto].
    pose proof (SUB q (or_introl eq_refl)) as Iq. pose proof R as [b [B [_ [Bb [Cc [St Se]]]]]].
    assert (MB : forall d, In d (members q) -> In d ds /\ busmap (d_bus d) = Some (d_bus r) /\ d_carrier d = d_carrier r).
    { intros d I. destruct (members_in busmap "p_nom" default_strategy sel ds q d Iq I) as [M1 [M2 M3]]. rewrite Bb, Cc, <- B. auto. }
    split; [now apply members_ne|]. split; auto.
    split; [rewrite St; rewrite num_sum by reflexivity; reflexivity|].
    split.
    { intros d I. rewrite St. apply (num_agree busmap "p_nom" default_strategy sel ds port q "sign"); auto.
      destruct T as [|T'] eqn:TT.
      - unfold aggregateoneport_t in E. destruct (aggregateoneport busmap "p_nom" default_strategy cols _ (map port ds)) as [us|] eqn:EU; [|discriminate].
        destruct (agg_rows busmap "p_nom" default_strategy cols sel ds port us (same_port) EU) as [_ DD]. destruct q as [k|e]; auto. cbn [row u_num]. apply DD; auto.
        apply in_app_or in Iq. destruct Iq as [J|J]; apply in_map_iff in J; destruct J as [k' [E' J]]; [injection E' as ->; auto|discriminate].
      - specialize (D "sign" 0%nat SC ltac:(lia)). destruct q; tauto. }
    split.
    { intros Z. destruct (d_series r "p_set") as [f|] eqn:Sf; auto. exfalso. destruct (Se "p_set") as [_ H]. destruct (H f Sf) as [H1 [t [L NE]]]. apply NE. rewrite H1 by auto.
      rewrite !num_sum by reflexivity. apply total_ext. intros d I. cbn [port_at port o_num]. rewrite (proj2 (String.eqb_neq _ _)) by discriminate. unfold d_at, dense. now rewrite (Z d I). }
    intros t L. split.
    { destruct (row_at r q "p_set" t R L ltac:(discriminate)) as [p [E1 [E2 [_ _]]]]. rewrite E1, num_sum by reflexivity. apply total_ext. intros d I. apply E2. now apply MB. }
    intros NN. split.
    + intros a Ia. destruct (row_at r q a t R L) as [p [E1 [E2 [E3 _]]]]; [intros ->; simpl in Ia; intuition discriminate|].
      rewrite E1, St. rewrite num_sum by reflexivity. rewrite <- (total_ext (fun d => o_num (p d) "p_nom") (fun d => o_num (port d) "p_nom")) by (intros; rewrite E3; reflexivity).
      rewrite num_avg; [|simpl in Ia; destruct Ia as [<-|[<-|[]]]; reflexivity|intros; rewrite E3; auto].
      apply total_ext. intros d I. rewrite E3, E2 by now apply MB. reflexivity.
    + intros v Hv. destruct (row_at r q "marginal_cost" t R L ltac:(discriminate)) as [p [E1 [E2 [E3 _]]]].
      assert (B2 : v <= num p q "marginal_cost" <= v); [|lra]. apply num_range; [auto|reflexivity|intros; rewrite E3; auto|]. intros d I. rewrite E2 by now apply MB. rewrite Hv by auto. lra.
  - intros f. rewrite total_map. apply parts_total. exact mapped.
Qed.
Lemma gather_moved : gathered busmap T ds (moved busmap ds) (map (fun d => [d]) ds).
Proof.
  split.
  - unfold moved. rewrite (flat_map_single _ (fun d => Dev (d_name d) (match busmap (d_bus d) with Some b => b | None => "" end) (d_carrier d) (d_static d) (d_series d))).
    + assert (K : forall l, (forall d, In d l -> In d ds) -> Forall2 (stands busmap T ds) (map (fun d => Dev (d_name d) (match busmap (d_bus d) with Some b => b | None => "" end) (d_carrier d) (d_static d) (d_series d)) l) (map (fun d => [d]) l)); [|apply K; auto].
      induction l as [|d l IH]; intros SUB; cbn [map]; constructor; [|apply IH; intros; apply SUB; simpl; auto]. pose proof (SUB d (or_introl eq_refl)) as I.
      split; [discriminate|]. cbn [d_bus d_carrier d_static d_series]. split.
      { intros e [<-|[]]. split; auto. destruct (busmap (d_bus d)) eqn:B; auto. destruct (mapped d I B). }
      unfold d_at at 1 3 5. cbn [d_static d_series BalanceSpec.total fold_right]. split; [ring|]. split; [intros e [<-|[]]; reflexivity|]. split; [intros H; apply H; simpl; auto|].
      intros t L. unfold d_at. cbn [d_static d_series]. split; [ring|]. intros _. split; [intros a _; ring|]. intros q H. apply H. simpl; auto.
    + intros d I. destruct (busmap (d_bus d)) eqn:B; auto. destruct (mapped d I B).
  - intros f. rewrite total_map. apply total_ext. intros d _. cbn. ring.
Qed.
End Gather.

Section Wires.
Variable busmap : string -> option string.
Variable T : nat.
Variable ws : list wire.
Hypothesis mapped : forall w, In w ws -> busmap (w_bus0 w) <> None /\ busmap (w_bus1 w) <> None.
Definition wb (w : wire) : bool := between busmap (strand w).
Definition wgroup (k : string * string) : list wire := filter (fun w => match ends busmap (strand w) with Some k' => key_eqb k k' | None => false end) (filter wb ws).
Definition wkeys : list (string * string) := nodupk (flat_map (fun w => match ends busmap (strand w) with Some k => [k] | None => [] end) (filter wb ws)).
Lemma filter_map' {A B} (f : A -> B) (g : B -> bool) l : filter g (map f l) = map f (filter (fun a => g (f a)) l).
Proof. induction l as [|a l IH]; cbn; auto. destruct (g (f a)); cbn; now rewrite IH. Qed.
Lemma line_rows p : (forall w, l_bus0 (p w) = w_bus0 w /\ l_bus1 (p w) = w_bus1 w) ->
  aggregatelines busmap (map p ws) = map (fun k => {| v_bus0 := fst k; v_bus1 := snd k; v_num := fun c => line_value c (map p (wgroup k)) |}) wkeys.
Proof.
  intros S. unfold aggregatelines.
  assert (B : filter (between busmap) (map p ws) = map p (filter wb ws)).
  { rewrite filter_map'. f_equal. apply filter_ext'. intros w. unfold wb, between. destruct (S w) as [-> ->]. reflexivity. }
  assert (En : forall w, ends busmap (p w) = ends busmap (strand w)) by (intros w; unfold ends; destruct (S w) as [-> ->]; reflexivity).
  assert (K : line_keys busmap (filter (between busmap) (map p ws)) = wkeys).
  { rewrite B. unfold line_keys, wkeys. f_equal. clear B. induction (filter wb ws) as [|w l IH]; cbn [map flat_map]; auto. rewrite IH, En. reflexivity. }
  rewrite K. apply map_ext. intros k.
  assert (G : line_group busmap k (filter (between busmap) (map p ws)) = map p (wgroup k)).
  { rewrite B. unfold line_group, wgroup. rewrite filter_map'. f_equal. apply filter_ext'. intros w. now rewrite En. }
  now rewrite G.
Qed.
Definition carries (r : wire) (m : list wire) : Prop :=
  w_bus0 r <> w_bus1 r /\
  (forall w, In w m -> In w ws /\ (busmap (w_bus0 w) = Some (w_bus0 r) /\ busmap (w_bus1 w) = Some (w_bus1 r) \/ busmap (w_bus0 w) = Some (w_bus1 r) /\ busmap (w_bus1 w) = Some (w_bus0 r))) /\
  w_static r "s_nom" == total (fun w => w_static w "s_nom") m /\
  forall t, (t < T)%nat -> (forall w, In w m -> 0 <= w_static w "s_nom") ->
    w_static r "s_nom" * w_at r "s_max_pu" t == total (fun w => w_static w "s_nom" * w_at w "s_max_pu" t) m.
Lemma line_avg p k : (forall w, In w (wgroup k) -> 0 <= l_num (p w) "s_nom") ->
  total (fun w => l_num (p w) "s_nom") (wgroup k) * line_value "s_max_pu" (map p (wgroup k)) == total (fun w => l_num (p w) "s_nom" * l_num (p w) "s_max_pu") (wgroup k).
Proof.
  intros N. unfold line_value. cbn [existsb String.eqb Ascii.eqb Bool.eqb orb].
  destruct (average_weighted (fun l => l_num l "s_nom") (fun l => l_num l "s_max_pu") (map p (wgroup k))) as [v [E V]].
  - intros l I. apply in_map_iff in I. destruct I as [w [<- I]]. auto.
  - cbn [combine] in E. injection E as E. change (existsb (String.eqb "s_max_pu") ["s_nom"; "s_nom_min"; "s_nom_max"; "num_parallel"]) with false. cbn [existsb].
    rewrite E. now rewrite !total_map in V.
Qed.
Lemma wkeys_in k : In k wkeys -> exists w, In w ws /\ wb w = true /\ ends busmap (strand w) = Some k.
Proof.
  unfold wkeys. rewrite nodupk_In, in_flat_map. intros [w [I J]]. apply filter_In in I. destruct (ends busmap (strand w)) as [k'|] eqn:E; [|destruct J]. destruct J as [->|[]]. exists w. tauto.
Qed.
Lemma gather_lines : Forall2 carries (aggregatelines_t busmap T ws) (map wgroup wkeys) /\
  (forall f : wire -> Q, total (total f) (map wgroup wkeys) == total (fun w => if wb w then f w else 0) ws) /\ NoDup (map w_name (aggregatelines_t busmap T ws)).
Proof.
  unfold aggregatelines_t. rewrite (line_rows strand) by (intros; auto). rewrite numbered_map, map_map. cbn [fst snd v_bus0 v_bus1]. split; [|split].
  - apply Forall2_numbered. intros i k N. pose proof (nth_error_In _ _ N) as I. destruct (wkeys_in k I) as [w [Iw [Bw Ew]]].
    destruct (ends_ordered busmap (strand w) k Ew Bw) as [_ NE].
    split; [exact NE|]. cbn [w_bus0 w_bus1 w_static w_series fst snd v_num]. split; [|split].
    + intros v J. unfold wgroup in J. apply filter_In in J. destruct J as [J K]. apply filter_In in J. split; [tauto|]. unfold ends in K. cbn [strand l_bus0 l_bus1] in K.
      destruct (busmap (w_bus0 v)) as [a|]; [|discriminate]. destruct (busmap (w_bus1 v)) as [b|]; [|discriminate]. apply key_eqb_eq in K. subst k. destruct (str_lt b a); cbn [fst snd]; auto.
    + change (line_value "s_nom" (map strand (wgroup k))) with (sum_of (fun l => l_num l "s_nom") (map strand (wgroup k))). rewrite sum_of_map, sum_of_total. reflexivity.
    + intros t L NN.
      assert (V : match nth_error (aggregatelines busmap (map (strand_at t) ws)) i with Some v => v_num v "s_max_pu" | None => 0 end = line_value "s_max_pu" (map (strand_at t) (wgroup k))).
      { rewrite (line_rows (strand_at t)) by (intros; auto). rewrite nth_error_map, N. reflexivity. }
      assert (S1 : line_value "s_nom" (map strand (wgroup k)) == total (fun w => l_num (strand_at t w) "s_nom") (wgroup k)).
      { change (line_value "s_nom" (map strand (wgroup k))) with (sum_of (fun l => l_num l "s_nom") (map strand (wgroup k))). rewrite sum_of_map, sum_of_total. reflexivity. }
      assert (GOAL : line_value "s_nom" (map strand (wgroup k)) * line_value "s_max_pu" (map (strand_at t) (wgroup k)) == total (fun w => w_static w "s_nom" * w_at w "s_max_pu" t) (wgroup k)).
      { rewrite S1, line_avg; [reflexivity|]. intros v J. cbn. now apply NN. }
      unfold w_at at 1, dense. cbn [w_static w_series]. unfold series_kept. destruct (forallb _ _) eqn:FB; cbn [negb].
      * rewrite andb_false_r. rewrite forallb_forall in FB. specialize (FB t). rewrite in_seq in FB. specialize (FB ltac:(lia)). apply Qeq_bool_iff in FB. rewrite V in FB. rewrite <- FB. exact GOAL.
      * rewrite andb_true_r. destruct (existsb (fun w => is_some (w_series w "s_max_pu")) ws) eqn:H; [rewrite V; exact GOAL|].
        assert (Z : forall w, In w ws -> w_series w "s_max_pu" = None).
        { intros v J. destruct (w_series v "s_max_pu") eqn:Sv; auto. assert (existsb (fun w => is_some (w_series w "s_max_pu")) ws = true); [|congruence]. apply existsb_exists. exists v. rewrite Sv. auto. }
        assert (S2 : line_value "s_nom" (map strand (wgroup k)) == total (fun w => l_num (strand w) "s_nom") (wgroup k)).
        { change (line_value "s_nom" (map strand (wgroup k))) with (sum_of (fun l => l_num l "s_nom") (map strand (wgroup k))). rewrite sum_of_map, sum_of_total. reflexivity. }
        rewrite S2, line_avg; [|intros v J; cbn; now apply NN]. apply total_ext. intros v J. cbn [strand l_num]. unfold w_at, dense. rewrite Z; [reflexivity|].
        unfold wgroup in J. apply filter_In in J. destruct J as [J _]. apply filter_In in J. tauto.
  - intros f. rewrite total_map. unfold wgroup. rewrite (total_ext _ (fun k => total (fun w => if match ends busmap (strand w) with Some k' => key_eqb k k' | None => false end then f w else 0) (filter wb ws))) by (intros; apply total_filter).
    rewrite total_swap. rewrite <- total_filter. apply total_ext. intros w I. pose proof I as I0. apply filter_In in I. destruct I as [I B]. destruct (mapped w I) as [M0 M1]. 
    destruct (ends busmap (strand w)) as [k|] eqn:E.
    + rewrite (pick_key (fun _ => f w) k wkeys); [reflexivity|apply nodupk_NoDup|]. left. unfold wkeys. rewrite nodupk_In, in_flat_map. exists w. rewrite E. simpl. auto.
    + unfold ends in E. cbn [strand l_bus0 l_bus1] in E. destruct (busmap (w_bus0 w)); [|congruence]. destruct (busmap (w_bus1 w)); [discriminate|congruence].
  - rewrite map_map. cbn [w_name]. rewrite <- (map_map fst str), numbered_fst. apply FinFun.Injective_map_NoDup; [exact str_inj|apply seq_NoDup].
Qed.
End Wires.

(* the problem in words *)
Import BalanceSpec.
Definition net_of (n : system) (x : sol) (t : nat) (b : string) : Q :=
  total (fun d => at_bus (d_bus d) b (d_static d "sign" * gen_x x t d)) (s_gens n) +
  total (fun w => at_bus (w_bus1 w) b (line_x x t w) - at_bus (w_bus0 w) b (line_x x t w)) (s_lines n) +
  total (fun w => at_bus (w_bus1 w) b (w_at w "efficiency" t * link_x x t w) - at_bus (w_bus0 w) b (link_x x t w)) (s_links n).
Definition dem_of (n : system) (t : nat) (b : string) : Q := total (fun d => at_bus (d_bus d) b (- (d_static d "sign" * d_at d "p_set" t))) (s_loads n).
Definition gen_ok (x : sol) (t : nat) (d : dev) : Prop :=
  d_at d "p_min_pu" t * d_static d "p_nom" <= gen_x x t d <= d_at d "p_max_pu" t * d_static d "p_nom" /\ forall f, d_series d "p_set" = Some f -> gen_x x t d == f t.
Definition line_ok (x : sol) (t : nat) (w : wire) : Prop := - w_at w "s_max_pu" t * w_static w "s_nom" <= line_x x t w <= w_at w "s_max_pu" t * w_static w "s_nom".
Definition link_ok (x : sol) (t : nat) (w : wire) : Prop :=
  w_at w "p_min_pu" t * w_static w "p_nom" <= link_x x t w <= w_at w "p_max_pu" t * w_static w "p_nom" /\ forall f, w_series w "p_set" = Some f -> link_x x t w == f t.

Lemma filter_none {A B} (g : A -> bool) (h : B -> A) l : (forall b, g (h b) = false) -> filter g (map h l) = [].
Proof. intros H. induction l as [|b l IH]; cbn; auto. now rewrite H. Qed.
Lemma filter_every {A B} (g : A -> bool) (h : B -> A) l : (forall b, g (h b) = true) -> filter g (map h l) = map h l.
Proof. intros H. induction l as [|b l IH]; cbn; auto. now rewrite H, IH. Qed.
Import DispatchModel.
Lemma bounds_iff {A} cls attr nattr k T (h : A -> asset) l x :
  (forall a, ext (h a) = false) -> (forall a, com (h a) = false) -> (forall a t, active (h a) t = true) ->
  sat x (all_constraints cls attr nattr k false T (map h l)) <->
  forall a t, In a l -> (t < T)%nat -> let v := x (vname cls attr, t, name (h a)) in
    fst (bounds_pu k (h a) t) * nom (h a) <= v <= snd (bounds_pu k (h a) t) * nom (h a) /\ forall u, fix_set (h a) t = Some u -> v == u.
Proof.
  intros E Co Ac. unfold all_constraints. rewrite !sat_app. unfold nominal, fixed_nominal, modular, extendables, committables, ext_assets, mod_assets, com_assets.
  rewrite !(filter_none _ h l) by (intros b; rewrite ?E, ?Co; reflexivity). unfold non_extendables, fixed_assets. rewrite (filter_every _ h l) by (intros b; rewrite E, Co; reflexivity).
  unfold fixed_operation. rewrite !sat_app, !sat_add. unfold loss_term, op. rewrite andb_false_r. split.
  - intros [_ [_ [_ [[H1 H2] [_ [_ H3]]]]]] a t I L. cbn zeta.
    assert (It : In t (snaps T)) by (apply in_seq; lia). assert (Ia : In (h a) (map h l)) by now apply in_map.
    specialize (H1 t (h a) It Ia (Ac a t)). specialize (H2 t (h a) It Ia (Ac a t)). unfold holds in H1, H2. cbn [mk lhs sns rhs eval app] in H1, H2. rewrite Ac in H1, H2. cbn [val] in H1, H2.
    split; [lra|]. intros u U. specialize (H3 t (h a) It Ia). rewrite U in H3. specialize (H3 (Ac a t)). unfold holds in H3. cbn [mk lhs sns rhs eval] in H3. rewrite Ac in H3. cbn [val] in H3. lra.
  - intros H. repeat split; try (intros t a _ []).
    + intros t a It Ia _. apply in_map_iff in Ia. destruct Ia as [b [<- Ib]]. apply in_seq in It. destruct (H b t Ib ltac:(lia)) as [B _]. unfold holds. cbn [mk lhs sns rhs eval app]. rewrite Ac. cbn [val]. lra.
    + intros t a It Ia _. apply in_map_iff in Ia. destruct Ia as [b [<- Ib]]. apply in_seq in It. destruct (H b t Ib ltac:(lia)) as [B _]. unfold holds. cbn [mk lhs sns rhs eval app]. rewrite Ac. cbn [val]. lra.
    + intros t a It Ia M. apply in_map_iff in Ia. destruct Ia as [b [<- Ib]]. apply in_seq in It. destruct (H b t Ib ltac:(lia)) as [_ F]. destruct (fix_set (h b) t) as [u|] eqn:U; [|discriminate].
      unfold holds. cbn [mk lhs sns rhs eval app]. rewrite Ac. cbn [val]. rewrite (F u eq_refl). ring.
Qed.
Lemma problem_iff T thr n cs x : wired n -> problem T thr n = Some cs ->
  (sat x cs <-> (forall b t, In b (s_buses n) -> (t < T)%nat -> net_of n x t b == dem_of n t b) /\
    (forall d t, In d (s_gens n) -> (t < T)%nat -> gen_ok x t d) /\ (forall w t, In w (s_lines n) -> (t < T)%nat -> line_ok x t w) /\ (forall w t, In w (s_links n) -> (t < T)%nat -> link_ok x t w)).
Proof.
  intros [ND [WD WW]]. unfold problem. destruct (BalanceModel.nodal_balance _ _ _ _ _) as [c|] eqn:E; [|discriminate]. cbn [option_map]. intros Ec. injection Ec as <-.
  rewrite sat_app. rewrite (nodal_iff (balance_net n) false x T _ _ c E).
  2:{ intros b I. unfold BalanceModel.meshed in I. apply filter_In in I. destruct I as [I _]. apply nodup_In in I. unfold bus_columns in I. cbn [balance_net BalanceModel.buses].
      repeat (apply in_app_or in I; destruct I as [I|I]); apply in_map_iff in I; destruct I as [d [<- I]]; try (apply WD; auto; fail); apply (WW d); auto. }
  unfold bounds. rewrite !sat_app. rewrite !bounds_iff by reflexivity.
  assert (NET : forall b t, net_power (balance_net n) false x t b == net_of n x t b).
  { intros b t. unfold net_power, net_of, balance_net. cbn [BalanceModel.gens BalanceModel.stores BalanceModel.units BalanceModel.lines BalanceModel.trafos BalanceModel.links]. rewrite !total_map.
    unfold gen_p, branch_at, flow, link_p, value, outputs. cbn [BalanceModel.c_bus BalanceModel.c_sign BalanceModel.c_active BalanceModel.c_name BalanceModel.b_bus0 BalanceModel.b_bus1 BalanceModel.b_active BalanceModel.b_name
      BalanceModel.l_bus0 BalanceModel.l_bus1 BalanceModel.l_eff1 BalanceModel.l_ports BalanceModel.l_active BalanceModel.l_name always map filter].
    change (total (fun c => at_bus (BalanceModel.c_bus c) b (store_p x t c)) []) with 0. change (total (fun c => at_bus (BalanceModel.c_bus c) b (unit_p x t c)) []) with 0.
    cbn [total fold_right fst snd]. fold (line_x x t). rewrite !Qplus_0_r.
    apply Qplus_comp; [apply Qplus_comp|]; apply total_ext; intros a _; unfold gen_x, line_x, link_x; ring. }
  assert (DEM : forall b t, demand (balance_net n) t b == dem_of n t b).
  { intros b t. unfold demand, dem_of, balance_net. cbn [BalanceModel.loads]. rewrite total_map. apply total_ext. intros d _. reflexivity. }
  split.
  - intros [H1 [H2 [H3 H4]]]. split; [|split; [|split]].
    + intros b t I L. rewrite <- NET, <- DEM. now apply H1.
    + intros d t I L. destruct (H2 d t I L) as [B F]. cbn [gen_asset asset_of bounds_pu fst snd min_pu max_pu nom name fix_set] in B, F. split; [exact B|]. intros f Ef. apply F. rewrite Ef. reflexivity.
    + intros d t I L. destruct (H3 d t I L) as [B F]. exact B.
    + intros d t I L. destruct (H4 d t I L) as [B F]. split; [exact B|]. intros f Ef. apply F. cbn. rewrite Ef. reflexivity.
  - intros [H1 [H2 [H3 H4]]]. split; [|split; [|split]].
    + intros b t I L. rewrite NET, DEM. now apply H1.
    + intros d t I L. destruct (H2 d t I L) as [B F]. split; [exact B|]. intros u U. cbn in U. destruct (d_series d "p_set") as [f|] eqn:Ef; [|discriminate]. cbn in U. injection U as <-. now apply F.
    + intros d t I L. split; [exact (H3 d t I L)|discriminate].
    + intros d t I L. destruct (H4 d t I L) as [B F]. split; [exact B|]. intros u U. cbn in U. destruct (w_series d "p_set") as [f|] eqn:Ef; [|discriminate]. cbn in U. injection U as <-. now apply F.
Qed.

(* looking up values by name *)
Fixpoint look (nm : string) (ns : list string) (vs : list Q) : Q :=
  match ns, vs with n :: ns', v :: vs' => if String.eqb nm n then v else look nm ns' vs' | _, _ => 0 end.
Lemma look_all {A B} (nm : A -> string) (P : A -> B -> Prop) (g : A -> B -> Q) rs ms : Forall2 P rs ms -> NoDup (map nm rs) ->
  Forall2 (fun r m => P r m /\ look (nm r) (map nm rs) (map (fun rm => g (fst rm) (snd rm)) (List.combine rs ms)) = g r m) rs ms.
Proof.
  induction 1 as [|r m rs ms H F IH]; intros ND; [constructor|]. cbn [map List.combine look fst snd] in *. inversion ND as [|? ? NI ND']; subst.
  constructor; [rewrite String.eqb_refl; auto|]. specialize (IH ND'). clear F ND' H ND.
  assert (K : forall rs0 ms0, (forall r', In r' rs0 -> In (nm r') (map nm rs)) ->
    Forall2 (fun r m => P r m /\ look (nm r) (map nm rs) (map (fun rm => g (fst rm) (snd rm)) (List.combine rs ms)) = g r m) rs0 ms0 ->
    Forall2 (fun r' m0 => P r' m0 /\ (if String.eqb (nm r') (nm r) then g r m else look (nm r') (map nm rs) (map (fun rm => g (fst rm) (snd rm)) (List.combine rs ms))) = g r' m0) rs0 ms0).
  { intros rs0 ms0 SUB F. induction F as [|r' m' rs' ms' [H1 H2] _ IHF]; constructor.
    - split; auto. destruct (String.eqb_spec (nm r') (nm r)) as [E|]; auto. destruct NI. rewrite <- E. apply SUB. simpl; auto.
    - apply IHF. intros; apply SUB; simpl; auto. }
  apply K; auto. intros; now apply in_map.
Qed.
Lemma total_two {A B} (P : A -> B -> Prop) (f : A -> Q) (g : B -> Q) rs ms : Forall2 P rs ms -> (forall r m, P r m -> f r == g m) -> total f rs == total g ms.
Proof. intros F H. induction F as [|r m rs ms Hr _ IH]; cbn; [reflexivity|]. now rewrite (H r m Hr), IH. Qed.
Lemma two_left {A B} (P : A -> B -> Prop) rs ms r : Forall2 P rs ms -> In r rs -> exists m, P r m.
Proof. induction 1; intros [].  - subst. eauto. - auto. Qed.
Lemma total_le {A} (f g : A -> Q) l : (forall a, In a l -> f a <= g a) -> total f l <= total g l.
Proof.
  induction l as [|a l IH]; intros H; [cbn; lra|]. pose proof (H a (or_introl eq_refl)). specialize (IH (fun b I => H b (or_intror I))).
  change (f a + total f l <= g a + total g l). lra.
Qed.
Lemma total_if {A} (b : bool) (f : A -> Q) l : total (fun a => if b then f a else 0) l == if b then total f l else 0.
Proof. destruct b; [reflexivity|]. apply total_zero. reflexivity. Qed.
Lemma total_neg {A} (f : A -> Q) l : total (fun a => - f a) l == - total f l.
Proof. induction l as [|a l IH]; [reflexivity|]. change (- f a + total (fun a => - f a) l == - (f a + total f l)). rewrite IH. ring. Qed.

Lemma total_if_q {A} (b : bool) (q : Q) (f : A -> Q) m : q == total f m -> total (fun a => if b then f a else 0) m == if b then q else 0.
Proof. intros E. rewrite total_if. destruct b; [now rewrite E|reflexivity]. Qed.
Lemma two_in {A B} (P : A -> B -> Prop) rs ms r : Forall2 P rs ms -> In r rs -> exists m, In m ms /\ P r m.
Proof. induction 1 as [|r0 m0 rs ms H _ IH]; intros I; [destruct I|]. destruct I as [->|I]; [exists m0; simpl; auto|]. destruct (IH I) as [m [Im Pm]]. exists m. simpl; auto. Qed.
Lemma total_two_in {A B} (P : A -> B -> Prop) (f : A -> Q) (g : B -> Q) rs ms : Forall2 P rs ms -> (forall r m, In r rs -> In m ms -> P r m -> f r == g m) -> total f rs == total g ms.
Proof.
  intros F. induction F as [|r m rs ms Hr _ IH]; intros H; [reflexivity|]. change (f r + total f rs == g m + total g ms). rewrite (H r m) by (simpl; auto). rewrite IH; [reflexivity|]. intros; apply H; simpl; auto.
Qed.

Section Relax.
Variable busmap : string -> option string.
Variable T : nat.
Variables (gens : option (string -> string -> bool)) (loads : bool) (gcols lcols : list string) (n n' : system).
Hypothesis W : wired n.
Hypothesis mapped : forall b, In b (s_buses n) -> busmap b <> None.
Hypothesis Sg : In "sign" gcols.
Hypothesis Sl : In "sign" lcols.
Hypothesis built : get_clustering_from_busmap busmap T gens loads gcols lcols n = Some n'.

Definition nodes (c : string) (q : string -> Q) : Q := total (fun b => if eqo (busmap b) c then q b else 0) (s_buses n).
Lemma nodes_at c b q : In b (s_buses n) -> nodes c (fun b' => at_bus b b' q) == if eqo (busmap b) c then q else 0.
Proof.
  intros I. unfold nodes. rewrite <- (total_at_In b (if eqo (busmap b) c then q else 0) (s_buses n)) by (auto; apply W). apply total_ext. intros b' _. unfold at_bus.
  destruct (String.eqb_spec b b') as [->|]; destruct (eqo (busmap b') c); reflexivity.
Qed.
Lemma nodes_total {A} c (h : A -> string -> Q) l : nodes c (fun b => total (fun a => h a b) l) == total (fun a => nodes c (h a)) l.
Proof. unfold nodes. rewrite <- total_swap. apply total_ext. intros b _. destruct (eqo _ _); [reflexivity|]. symmetry. apply total_zero. reflexivity. Qed.
Lemma nodes_plus c f g : nodes c (fun b => f b + g b) == nodes c f + nodes c g.
Proof. unfold nodes. rewrite <- total_plus. apply total_ext. intros b _. destruct (eqo _ _); ring. Qed.
Lemma nodes_minus c f g : nodes c (fun b => f b - g b) == nodes c f - nodes c g.
Proof. unfold nodes. rewrite <- total_minus. apply total_ext. intros b _. destruct (eqo _ _); ring. Qed.
Lemma nodes_eq c f g : (forall b, In b (s_buses n) -> f b == g b) -> nodes c f == nodes c g.
Proof. intros H. unfold nodes. apply total_ext. intros b I. destruct (eqo _ _); [auto|reflexivity]. Qed.

Definition on (o : option string) (c : string) (q : Q) : Q := if eqo o c then q else 0.
Lemma nodes_net c x t : nodes c (net_of n x t) ==
  total (fun d => on (busmap (d_bus d)) c (d_static d "sign" * gen_x x t d)) (s_gens n) +
  total (fun w => on (busmap (w_bus1 w)) c (line_x x t w) - on (busmap (w_bus0 w)) c (line_x x t w)) (s_lines n) +
  total (fun w => on (busmap (w_bus1 w)) c (w_at w "efficiency" t * link_x x t w) - on (busmap (w_bus0 w)) c (link_x x t w)) (s_links n).
Proof.
  destruct W as [_ [WD WW]]. unfold net_of. rewrite !nodes_plus, !nodes_total. apply Qplus_comp; [apply Qplus_comp|]; apply total_ext; intros a I.
  - apply nodes_at. auto.
  - rewrite nodes_minus. destruct (WW a ltac:(auto)). now rewrite !nodes_at by auto.
  - rewrite nodes_minus. destruct (WW a ltac:(auto)). now rewrite !nodes_at by auto.
Qed.
Lemma nodes_dem c t : nodes c (dem_of n t) == total (fun d => on (busmap (d_bus d)) c (- (d_static d "sign" * d_at d "p_set" t))) (s_loads n).
Proof. destruct W as [_ [WD WW]]. unfold dem_of. rewrite nodes_total. apply total_ext; intros a I. apply nodes_at. auto. Qed.

Lemma parts_of : exists gms lms, gathered busmap T (s_gens n) (s_gens n') gms /\ gathered busmap T (s_loads n) (s_loads n') lms /\
  (gens = None -> map d_name (s_gens n') = map d_name (s_gens n) /\ forall m, In m gms -> exists d, m = [d]) /\
  s_buses n' = clustered_buses busmap (s_buses n) /\ s_lines n' = aggregatelines_t busmap T (s_lines n) /\ s_links n' = links_t busmap (s_links n).
Proof.
  destruct W as [_ [WD _]]. unfold get_clustering_from_busmap in built.
  destruct (match gens with Some sel => _ | None => _ end) as [gs|] eqn:EG; [|discriminate]. destruct (if loads then _ else _) as [ds|] eqn:EL; [|discriminate]. injection built as <-.
  cbn [s_buses s_gens s_loads s_lines s_links].
  assert (MG : forall d, In d (s_gens n) -> busmap (d_bus d) <> None) by auto. assert (ML : forall d, In d (s_loads n) -> busmap (d_bus d) <> None) by auto.
  assert (G : exists gms, gathered busmap T (s_gens n) gs gms /\ (gens = None -> map d_name gs = map d_name (s_gens n) /\ forall m, In m gms -> exists d, m = [d])).
  { destruct gens as [sel|].
    - eexists. split; [exact (gather busmap T gcols sel (s_gens n) MG gs Sg EG)|discriminate].
    - injection EG as <-. exists (map (fun d => [d]) (s_gens n)). split; [now apply gather_moved|]. intros _. split.
      + clear -MG. unfold moved. induction (s_gens n) as [|d l IH]; cbn [flat_map map]; auto. rewrite map_app, IH by (intros; apply MG; simpl; auto).
        destruct (busmap (d_bus d)) eqn:E; [reflexivity|]. destruct (MG d (or_introl eq_refl) E).
      + intros m I. apply in_map_iff in I. destruct I as [d [<- _]]. eauto. }
  assert (L : exists lms, gathered busmap T (s_loads n) ds lms).
  { destruct loads.
    - eexists. exact (gather busmap T lcols _ (s_loads n) ML ds Sl EL).
    - injection EL as <-. eexists. now apply gather_moved. }
  destruct G as [gms [G1 G2]]. destruct L as [lms L]. exists gms, lms. auto 10.
Qed.
Lemma clustered_in b c : In b (s_buses n) -> busmap b = Some c -> In c (clustered_buses busmap (s_buses n)).
Proof. intros I E. unfold clustered_buses. apply nodup_In, in_flat_map. exists b. rewrite E. simpl. auto. Qed.
Lemma lines_mapped : forall w, In w (s_lines n) -> busmap (w_bus0 w) <> None /\ busmap (w_bus1 w) <> None.
Proof. destruct W as [_ [_ WW]]. intros w I. destruct (WW w ltac:(auto)). auto. Qed.
Lemma WW' : forall w, In w (s_links n) -> busmap (w_bus0 w) <> None /\ busmap (w_bus1 w) <> None.
Proof. destruct W as [_ [_ WW]]. intros w I. destruct (WW w ltac:(auto)). auto. Qed.
Lemma links_in r : In r (links_t busmap (s_links n)) -> exists w, In w (s_links n) /\ busmap (w_bus0 w) = Some (w_bus0 r) /\ busmap (w_bus1 w) = Some (w_bus1 r) /\
  w_name r = w_name w /\ w_static r = w_static w /\ w_series r = w_series w.
Proof.
  unfold links_t. intros I. apply in_flat_map in I. destruct I as [w [I J]]. exists w. destruct (busmap (w_bus0 w)) as [a|]; [|destruct J]. destruct (busmap (w_bus1 w)) as [b|]; [|destruct J].
  destruct (String.eqb a b); [destruct J|]. destruct J as [<-|[]]. cbn. auto 10.
Qed.
Lemma wired' : wired n'.
Proof.
  destruct parts_of as [gms [lms [[G _] [[L _] [_ [EB [EL EK]]]]]]]. pose proof W as [_ [WD WW]]. split; [|split].
  - rewrite EB. apply NoDup_nodup.
  - assert (K : forall ds rs ms r, Forall2 (stands busmap T ds) rs ms -> (forall d, In d ds -> In (d_bus d) (s_buses n)) -> In r rs -> In (d_bus r) (s_buses n')).
    { intros ds rs ms r F H I. destruct (two_left _ _ _ r F I) as [m [NE [M _]]]. destruct m as [|d m]; [contradiction|]. destruct (M d (or_introl eq_refl)) as [M1 [M2 _]].
      rewrite EB. eapply clustered_in; eauto. }
    intros d [I|I]; [apply (K _ _ _ d G)|apply (K _ _ _ d L)]; auto.
  - intros w [I|I].
    + rewrite EL in I. destruct (gather_lines busmap T (s_lines n) lines_mapped) as [F [_ _]].
      assert (X : exists w0, In w0 (s_lines n) /\ (busmap (w_bus0 w0) = Some (w_bus0 w) /\ busmap (w_bus1 w0) = Some (w_bus1 w) \/ busmap (w_bus0 w0) = Some (w_bus1 w) /\ busmap (w_bus1 w0) = Some (w_bus0 w))).
      { unfold aggregatelines_t in I. rewrite (line_rows busmap (s_lines n) strand) in I by (intros; auto). rewrite numbered_map, map_map in I. apply in_map_iff in I. destruct I as [[i k] [<- I]].
        apply numbered_in, nth_error_In in I. destruct (wkeys_in busmap (s_lines n) k I) as [w0 [I0 [_ E0]]]. exists w0. split; auto. unfold ends in E0. cbn [strand l_bus0 l_bus1] in E0. cbn [fst snd w_bus0 w_bus1 v_bus0 v_bus1].
        destruct (busmap (w_bus0 w0)) as [a|]; [|discriminate]. destruct (busmap (w_bus1 w0)) as [b|]; [|discriminate]. injection E0 as <-. destruct (str_lt b a); auto. }
      destruct X as [w0 [I0 X]]. destruct (WW w0 ltac:(auto)) as [W0 W1]. rewrite EB. destruct X as [[X0 X1]|[X0 X1]]; split; (eapply clustered_in; [|first [exact X0|exact X1]]); auto.
    + rewrite EK in I. destruct (links_in w I) as [w0 [I0 [E0 [E1 _]]]]. destruct (WW w0 ltac:(auto)) as [W0 W1]. rewrite EB. split; [apply (clustered_in (w_bus0 w0))|apply (clustered_in (w_bus1 w0))]; auto.
Qed.

(* a link of the system, or nothing if it is inside a cluster *)
Lemma links_total (f g : wire -> Q) : (forall w a b, In w (s_links n) -> busmap (w_bus0 w) = Some a -> busmap (w_bus1 w) = Some b -> a <> b -> f (Wire (w_name w) a b (w_static w) (w_series w) 1 1) == g w) ->
  total f (links_t busmap (s_links n)) == total (fun w => match busmap (w_bus0 w), busmap (w_bus1 w) with Some a, Some b => if String.eqb a b then 0 else g w | _, _ => 0 end) (s_links n).
Proof.
  intros H. unfold links_t. rewrite total_flat. apply total_ext. intros w I. specialize (H w). destruct (busmap (w_bus0 w)) as [a|]; [|reflexivity]. destruct (busmap (w_bus1 w)) as [b|]; [|reflexivity].
  destruct (String.eqb_spec a b); [reflexivity|]. cbn. rewrite (H a b) by auto. ring.
Qed.

Section Sol.
Variable x : sol.
Variables gms : list (list dev).
Definition lms : list (list wire) := map (wgroup busmap (s_lines n)) (wkeys busmap (s_lines n)).
Definition turned (t : nat) (r w : wire) : Q := if eqo (busmap (w_bus0 w)) (w_bus0 r) then line_x x t w else - line_x x t w.
Definition coarse : sol := fun v => let '(c, t, nm) := v in
  if String.eqb c "Generator-p" then look nm (map d_name (s_gens n')) (map (fun rm => total (gen_x x t) (snd rm)) (List.combine (s_gens n') gms))
  else if String.eqb c "Line-s" then look nm (map w_name (s_lines n')) (map (fun rm => total (turned t (fst rm)) (snd rm)) (List.combine (s_lines n') lms))
  else x v.
Hypothesis Hg : gathered busmap T (s_gens n) (s_gens n') gms.
Hypothesis ND : NoDup (map d_name (s_gens n')).
Lemma gen_coarse t : Forall2 (fun r m => stands busmap T (s_gens n) r m /\ gen_x coarse t r = total (gen_x x t) m) (s_gens n') gms.
Proof. destruct Hg as [F _]. exact (look_all d_name _ (fun _ m => total (gen_x x t) m) _ _ F ND). Qed.
Lemma line_coarse t : Forall2 (fun r m => carries busmap T (s_lines n) r m /\ line_x coarse t r = total (turned t r) m) (s_lines n') lms.
Proof.
  destruct parts_of as [g [l [_ [_ [_ [_ [EL _]]]]]]]. destruct (gather_lines busmap T (s_lines n) lines_mapped) as [F [_ N]]. rewrite <- EL in F, N.
  exact (look_all w_name _ (fun r m => total (turned t r) m) _ _ F N).
Qed.
Lemma link_coarse t w : link_x coarse t w = link_x x t w. Proof. reflexivity. Qed.
Lemma lines_total (f g : wire -> Q) t :
  (forall r m, carries busmap T (s_lines n) r m -> line_x coarse t r = total (turned t r) m -> f r == total g m) ->
  total f (s_lines n') == total (fun w => if wb busmap w then g w else 0) (s_lines n).
Proof.
  intros H. destruct (gather_lines busmap T (s_lines n) lines_mapped) as [_ [S _]]. rewrite <- S. apply (total_two _ _ _ _ _ (line_coarse t)). intros r m [C E]. auto.
Qed.
Lemma gens_total (f g : dev -> Q) t : (forall r m, stands busmap T (s_gens n) r m -> gen_x coarse t r = total (gen_x x t) m -> f r == total g m) -> total f (s_gens n') == total g (s_gens n).
Proof. intros H. destruct Hg as [_ S]. rewrite <- S. apply (total_two _ _ _ _ _ (gen_coarse t)). intros r m [C E]. auto. Qed.

Lemma stands_on r m c (q : Q) (f : dev -> Q) : stands busmap T (s_gens n) r m -> q == total f m -> at_bus (d_bus r) c q == total (fun d => on (busmap (d_bus d)) c (f d)) m.
Proof.
  intros [_ [M _]] E. unfold at_bus. rewrite <- (total_if_q (String.eqb (d_bus r) c) q f m E). apply total_ext. intros d I. destruct (M d I) as [_ [B _]]. unfold on. rewrite B. reflexivity.
Qed.
Lemma turn_cases t r m w : carries busmap T (s_lines n) r m -> In w m ->
  busmap (w_bus0 w) = Some (w_bus0 r) /\ busmap (w_bus1 w) = Some (w_bus1 r) /\ turned t r w = line_x x t w \/
  busmap (w_bus0 w) = Some (w_bus1 r) /\ busmap (w_bus1 w) = Some (w_bus0 r) /\ turned t r w = - line_x x t w.
Proof.
  intros [NE [M _]] I. destruct (M w I) as [_ [[B0 B1]|[B0 B1]]]; [left|right]; unfold turned; rewrite B0; cbn [eqo]; repeat split; auto.
  - now rewrite String.eqb_refl.
  - destruct (String.eqb_spec (w_bus1 r) (w_bus0 r)); [congruence|reflexivity].
Qed.
Lemma wb_false w : In w (s_lines n) -> wb busmap w = false -> busmap (w_bus0 w) = busmap (w_bus1 w).
Proof.
  intros I. destruct (lines_mapped w I) as [M0 M1]. unfold wb, between. cbn [strand l_bus0 l_bus1]. destruct (busmap (w_bus0 w)) as [a|]; [|congruence]. destruct (busmap (w_bus1 w)) as [b|]; [|congruence].
  destruct (String.eqb_spec a b); [congruence|discriminate].
Qed.
Lemma net_coarse t c : (t < T)%nat -> (forall w, In w (s_links n) -> inside busmap w -> w_at w "efficiency" t == 1) -> net_of n' coarse t c == nodes c (net_of n x t).
Proof.
  intros L LL. rewrite nodes_net. unfold net_of. destruct parts_of as [g0 [l0 [_ [_ [_ [_ [EL EK]]]]]]]. apply Qplus_comp; [apply Qplus_comp|].
  - apply (gens_total _ _ t). intros r m St E. apply stands_on; auto. rewrite E. destruct St as [_ [_ [_ [Sn _]]]]. rewrite <- total_scale. apply total_ext. intros d I. now rewrite (Sn d I).
  - rewrite (lines_total _ (fun w => on (busmap (w_bus1 w)) c (line_x x t w) - on (busmap (w_bus0 w)) c (line_x x t w)) t).
    + apply total_ext. intros w I. destruct (wb busmap w) eqn:B; [reflexivity|]. rewrite (wb_false w I B). ring.
    + intros r m C E. rewrite E. unfold at_bus. rewrite <- !total_if, <- total_minus. apply total_ext. intros w I. unfold on.
      destruct (turn_cases t r m w C I) as [[-> [-> ->]]|[-> [-> ->]]]; cbn [eqo]; destruct (String.eqb (w_bus1 r) c), (String.eqb (w_bus0 r) c); ring.
  - rewrite EK. rewrite (links_total _ (fun w => on (busmap (w_bus1 w)) c (w_at w "efficiency" t * link_x x t w) - on (busmap (w_bus0 w)) c (link_x x t w))).
    + apply total_ext. intros w I. specialize (LL w I). unfold inside in LL. destruct (WW' w I) as [M0 M1]. destruct (busmap (w_bus0 w)) as [a|]; [|congruence]. destruct (busmap (w_bus1 w)) as [b|]; [|congruence].
      destruct (String.eqb_spec a b) as [->|]; [|reflexivity]. unfold on. cbn [eqo]. pose proof (LL eq_refl) as L1. destruct (String.eqb b c); [rewrite L1|]; ring.
    + intros w a b I -> -> _. cbn [w_bus0 w_bus1]. unfold at_bus, on, w_at. cbn [eqo w_static w_series]. reflexivity.
Qed.
Lemma dem_coarse t c : (t < T)%nat -> dem_of n' t c == nodes c (dem_of n t).
Proof.
  intros L. rewrite nodes_dem. unfold dem_of. destruct parts_of as [g0 [l0 [_ [[F S] _]]]]. rewrite <- S. apply (total_two _ _ _ _ _ F).
  intros r m [_ [M [_ [Sn [_ P]]]]]. destruct (P t L) as [Ps _]. unfold at_bus.
  assert (E : - (d_static r "sign" * d_at r "p_set" t) == total (fun d => - (d_static d "sign" * d_at d "p_set" t)) m).
  { rewrite Ps, total_neg, <- total_scale. apply Qopp_comp. apply total_ext. intros d I. now rewrite (Sn d I). }
  rewrite <- (total_if_q (String.eqb (d_bus r) c) _ _ m E). apply total_ext. intros d I. destruct (M d I) as [_ [B _]]. unfold on. now rewrite B.
Qed.
Lemma relaxed thr thr' cs cs' : problem T thr n = Some cs -> problem T thr' n' = Some cs' ->
  (forall d, In d (s_gens n) -> 0 <= d_static d "p_nom") -> (forall w, In w (s_lines n) -> 0 <= w_static w "s_nom") ->
  (forall w t, In w (s_links n) -> inside busmap w -> (t < T)%nat -> w_at w "efficiency" t == 1) ->
  (forall m d d', In m gms -> In d m -> In d' m -> d_series d "p_set" = None -> d_series d' "p_set" = None) ->
  sat x cs -> sat coarse cs'.
Proof.
  intros E E' NG NL LL FX Sx. apply (problem_iff T thr' n' cs' coarse (wired') E'). apply (problem_iff T thr n cs x W E) in Sx. destruct Sx as [S1 [S2 [S3 S4]]].
  split; [|split; [|split]].
  - intros c t _ L. rewrite net_coarse, dem_coarse by (auto; intros; apply LL; auto). apply nodes_eq. intros b I. now apply S1.
  - intros r t I L. destruct (two_in _ _ _ r (gen_coarse t) I) as [m [Im [St Ex]]]. unfold gen_ok. rewrite Ex. destruct St as [NE [M [P [_ [Z A]]]]]. destruct (A t L) as [Ps B].
    destruct B as [B _]; [intros d J; apply NG; now apply M|]. split.
    + rewrite (Qmult_comm (d_at r "p_min_pu" t)), (Qmult_comm (d_at r "p_max_pu" t)), !B by (simpl; auto).
      split; apply total_le; intros d J; destruct (M d J) as [J' _]; destruct (S2 d t J' L) as [S5 _]; lra.
    + intros f Ef.
      assert (V : f t == d_at r "p_set" t) by (unfold d_at, dense; rewrite Ef; reflexivity). rewrite V, Ps. apply total_ext. intros d J. destruct (M d J) as [J' _]. destruct (S2 d t J' L) as [_ S6].
      unfold d_at, dense. destruct (d_series d "p_set") as [g|] eqn:Eg; [now apply S6|]. exfalso. rewrite Z in Ef; [discriminate|]. intros d' J2. apply (FX m d d'); auto.
  - intros r t I L. destruct (two_in _ _ _ r (line_coarse t) I) as [m [Im [C Ex]]]. unfold line_ok. rewrite Ex. pose proof C as [_ [M [_ A]]]. 
    assert (B : w_at r "s_max_pu" t * w_static r "s_nom" == total (fun w => w_static w "s_nom" * w_at w "s_max_pu" t) m) by (rewrite Qmult_comm; apply A; auto; intros w J; apply NL; now apply M).
    assert (B' : - w_at r "s_max_pu" t * w_static r "s_nom" == total (fun w => - (w_static w "s_nom" * w_at w "s_max_pu" t)) m) by (rewrite total_neg, <- B; ring).
    rewrite B, B'. split; apply total_le; intros w J; destruct (M w J) as [J' _]; pose proof (S3 w t J' L) as S7; unfold line_ok in S7; destruct (turn_cases t r m w C J) as [[_ [_ ->]]|[_ [_ ->]]]; lra.
  - intros r t I L. destruct parts_of as [g0 [l0 [_ [_ [_ [_ [_ EK]]]]]]]. rewrite EK in I. destruct (links_in r I) as [w [Iw [_ [_ [E1 [E2 E3]]]]]]. specialize (S4 w t Iw L).
    unfold link_ok, w_at, link_x in *. rewrite E1, E2, E3. exact S4.
Qed.
Lemma production_kept t c k : production Some coarse t c k n' == production busmap x t c k n.
Proof.
  unfold production. apply (gens_total _ _ t). intros r m [_ [M _]] E. rewrite E. cbn [eqo]. rewrite <- total_if. apply total_ext. intros d I. destruct (M d I) as [_ [-> ->]]. reflexivity.
Qed.
Lemma transfer_kept t a b : a <> b -> transfer Some coarse t a b n' == transfer busmap x t a b n.
Proof.
  intros NE. unfold transfer. rewrite (lines_total _ (fun w => (if eqo (busmap (w_bus0 w)) a && eqo (busmap (w_bus1 w)) b then line_x x t w else 0) - (if eqo (busmap (w_bus0 w)) b && eqo (busmap (w_bus1 w)) a then line_x x t w else 0)) t).
  - apply total_ext. intros w I. destruct (wb busmap w) eqn:B; [reflexivity|]. rewrite (wb_false w I B). destruct (busmap (w_bus1 w)) as [c|]; cbn [eqo andb]; [|ring].
    destruct (String.eqb_spec c a), (String.eqb_spec c b); cbn [andb]; try ring; congruence.
  - intros r m C E. rewrite E. cbn [eqo]. rewrite <- !total_if, <- total_minus. apply total_ext. intros w I.
    destruct (turn_cases t r m w C I) as [[-> [-> ->]]|[-> [-> ->]]]; cbn [eqo]; destruct (String.eqb (w_bus1 r) b), (String.eqb (w_bus0 r) b), (String.eqb (w_bus1 r) a), (String.eqb (w_bus0 r) a); cbn [andb]; ring.
Qed.
Lemma cost_kept t : (t < T)%nat -> (forall d, In d (s_gens n) -> 0 <= d_static d "p_nom") ->
  (forall m d d', In m gms -> In d m -> In d' m -> d_at d "marginal_cost" t == d_at d' "marginal_cost" t) -> gen_cost coarse t n' == gen_cost x t n.
Proof.
  intros L NG MC. unfold gen_cost. destruct Hg as [_ S]. rewrite <- S. apply (total_two_in _ _ _ _ _ (gen_coarse t)). intros r m _ Im [St E]. rewrite E.
  destruct St as [NE [M [_ [_ [_ A]]]]]. destruct (A t L) as [_ B]. destruct B as [_ B]; [intros d J; apply NG; now apply M|]. destruct m as [|d0 m0]; [contradiction|]. remember (d0 :: m0) as m eqn:Em.
  assert (I0 : In d0 m) by (rewrite Em; simpl; auto). rewrite (B (d_at d0 "marginal_cost" t)) by (intros d J; apply (MC m); auto). rewrite <- total_scale. apply total_ext. intros d J. rewrite (MC m d0 d); auto. reflexivity.
Qed.
Lemma link_cost_below t : (forall w, In w (s_links n) -> inside busmap w -> 0 <= w_at w "marginal_cost" t * link_x x t w) -> link_cost coarse t n' <= link_cost x t n.
Proof.
  intros NN. unfold link_cost. destruct parts_of as [g0 [l0 [_ [_ [_ [_ [_ EK]]]]]]]. rewrite EK. rewrite (links_total _ (fun w => w_at w "marginal_cost" t * link_x x t w)) by (intros; reflexivity).
  apply total_le. intros w I. specialize (NN w I). unfold inside in NN. destruct (WW' w I) as [M0 M1]. destruct (busmap (w_bus0 w)) as [a|]; [|congruence]. destruct (busmap (w_bus1 w)) as [b|]; [|congruence].
  destruct (String.eqb_spec a b) as [->|]; [apply NN; reflexivity|lra].
Qed.
End Sol.
End Relax.

Lemma existsb_off {A} (f : A -> bool) l : existsb f l = false -> forall a, In a l -> f a = false.
Proof. intros H a I. destruct (f a) eqn:E; auto. rewrite (proj2 (existsb_exists f l)) in H; [discriminate|eauto]. Qed.
Section Main.
Variable busmap : string -> option string.
Variable T : nat.
Variables (gens : option (string -> string -> bool)) (loads : bool) (gcols lcols : list string) (n n' : system).
Hypothesis W : wired n.
Hypothesis mapped : forall b, In b (s_buses n) -> busmap b <> None.
Hypothesis Sg : In "sign" gcols.
Hypothesis Sl : In "sign" lcols.
Hypothesis built : get_clustering_from_busmap busmap T gens loads gcols lcols n = Some n'.
Hypothesis NG : forall d, In d (s_gens n) -> 0 <= d_static d "p_nom".
Hypothesis NL : forall w, In w (s_lines n) -> 0 <= w_static w "s_nom".
Hypothesis LL : forall w t, In w (s_links n) -> inside busmap w -> (t < T)%nat -> w_at w "efficiency" t == 1.
Hypothesis FX : gens <> None -> forall d d', In d (s_gens n) -> In d' (s_gens n) -> together busmap d d' -> d_series d "p_set" = None -> d_series d' "p_set" = None.
Hypothesis ND : NoDup (map d_name (s_gens n')).
Lemma two_right {A B} (P : A -> B -> Prop) rs ms m : Forall2 P rs ms -> In m ms -> exists r, P r m.
Proof. induction 1; intros []; [subst; eauto|auto]. Qed.
Lemma group_together gms m d d' : gathered busmap T (s_gens n) (s_gens n') gms -> In m gms -> In d m -> In d' m -> In d (s_gens n) /\ In d' (s_gens n) /\ together busmap d d'.
Proof.
  intros [F _] Im I I'. destruct (two_right _ _ _ m F Im) as [r [_ [M _]]]. destruct (M d I) as [H1 [H2 H3]]. destruct (M d' I') as [H4 [H5 H6]]. repeat split; auto; congruence.
Qed.
Lemma main thr thr' cs cs' x : problem T thr n = Some cs -> problem T thr' n' = Some cs' -> sat x cs ->
  exists x', sat x' cs' /\ (forall t c k, production Some x' t c k n' == production busmap x t c k n) /\ (forall t a b, a <> b -> transfer Some x' t a b n' == transfer busmap x t a b n) /\
   (forall t w, link_x x' t w = link_x x t w) /\
   (forall t, (t < T)%nat -> (gens <> None -> forall d d', In d (s_gens n) -> In d' (s_gens n) -> together busmap d d' -> d_at d "marginal_cost" t == d_at d' "marginal_cost" t) -> gen_cost x' t n' == gen_cost x t n) /\
   (forall t, (forall w, In w (s_links n) -> inside busmap w -> 0 <= w_at w "marginal_cost" t * link_x x t w) -> link_cost x' t n' <= link_cost x t n).
Proof.
  intros E E' Sx. destruct (parts_of busmap T gens loads gcols lcols n n' W mapped Sg Sl built) as [gms [lms [G [_ [One _]]]]].
  assert (Single : forall (P : dev -> dev -> Prop), (gens <> None -> forall d d', In d (s_gens n) -> In d' (s_gens n) -> together busmap d d' -> P d d') -> (forall d, P d d) -> forall m d d', In m gms -> In d m -> In d' m -> P d d').
  { intros P H R m d d' Im I I'. destruct gens as [sel|] eqn:EG.
    - destruct (group_together gms m d d' G Im I I') as [H1 [H2 H3]]. apply H; auto. discriminate.
    - destruct (One eq_refl) as [_ O1]. destruct (O1 m Im) as [e ->]. destruct I as [<-|[]]. destruct I' as [<-|[]]. apply R. }
  exists (coarse busmap n n' x gms). split; [|split; [|split; [|split; [|split]]]].
  - eapply (relaxed busmap T gens loads gcols lcols n n' W mapped Sg Sl built x gms G ND thr thr' cs cs' E E' NG NL LL); auto. intros m d d' Im I I' Z.
    apply (Single (fun d d' => d_series d "p_set" = None -> d_series d' "p_set" = None)) with m d; auto.
  - intros t c k. exact (production_kept busmap T n n' x gms G ND t c k).
  - intros t a b NE. exact (transfer_kept busmap T gens loads gcols lcols n n' W mapped Sg Sl built x gms t a b NE).
  - reflexivity.
  - intros t L MC. apply (cost_kept busmap T n n' x gms G ND t L NG). intros m d d' Im I I'. apply (Single (fun d d' => d_at d "marginal_cost" t == d_at d' "marginal_cost" t)) with m; auto. reflexivity.
  - intros t NN. exact (link_cost_below busmap T gens loads gcols lcols n n' W mapped Sg Sl built x gms t NN).
Qed.
Lemma bound thr thr' cs cs' wt v x : problem T thr n = Some cs -> problem T thr' n' = Some cs' ->
  (forall t, (t < T)%nat -> 0 <= wt t) ->
  (gens <> None -> forall t d d', (t < T)%nat -> In d (s_gens n) -> In d' (s_gens n) -> together busmap d d' -> d_at d "marginal_cost" t == d_at d' "marginal_cost" t) ->
  (forall t w, (t < T)%nat -> In w (s_links n) -> inside busmap w -> 0 <= w_at w "p_min_pu" t * w_static w "p_nom" /\ 0 <= w_at w "marginal_cost" t) ->
  (forall x', sat x' cs' -> v <= cost wt T x' n') -> sat x cs -> v <= cost wt T x n.
Proof.
  intros E E' WT MC LK B Sx. destruct (main thr thr' cs cs' x E E' Sx) as [x' [S' [_ [_ [_ [H1 H2]]]]]]. apply (Qle_trans _ (cost wt T x' n')); [auto|]. unfold cost. apply total_le.
  intros t I. apply in_seq in I. assert (L : (t < T)%nat) by lia. rewrite (H1 t L) by (intros; apply MC; auto).
  assert (K : link_cost x' t n' <= link_cost x t n).
  { apply H2. intros w Iw In_. destruct (LK t w L Iw In_) as [P1 P2]. apply (problem_iff T thr n cs x W E) in Sx. destruct Sx as [_ [_ [_ S4]]]. destruct (S4 w t Iw L) as [S5 _].
    apply Qmult_le_0_compat; auto. lra. }
  specialize (WT t L). assert (0 <= wt t * (link_cost x t n - link_cost x' t n')) by (apply Qmult_le_0_compat; auto; lra). lra.
Qed.
Lemma builds thr thr' cs x : problem T thr n = Some cs -> sat x cs -> s_gens n <> [] -> (forall b, (count_occ string_dec (bus_columns n') b <= thr')%nat) -> problem T thr' n' <> None.
Proof.
  intros E Sx GN CO. apply (problem_iff T thr n cs x W E) in Sx. destruct Sx as [S1 _]. pose proof (parts_of busmap T gens loads gcols lcols n n' W mapped Sg Sl built) as [gms [lms [G [_ [_ [EB _]]]]]].
  pose proof (wired' busmap T gens loads gcols lcols n n' W mapped Sg Sl built) as W'.
  assert (M : BalanceModel.meshed (bus_columns n') thr' = []).
  { unfold BalanceModel.meshed. induction (nodup string_dec (bus_columns n')) as [|b l IH]; cbn [filter]; auto. rewrite (proj2 (Nat.ltb_ge _ _) (CO b)), andb_false_r. exact IH. }
  unfold problem, BalanceModel.nodal_balance. rewrite M. cbn [BalanceModel.emptyb negb andb]. destruct (BalanceModel.balance (balance_net n') false (BalanceModel.buses (balance_net n')) T) eqn:B; [discriminate|]. exfalso. revert B.
  apply balance_builds; cbn [balance_net BalanceModel.buses].
  - destruct G as [F S]. assert (X : exists r, In r (s_gens n')).
    { destruct (s_gens n') as [|r rs]; [|exists r; simpl; auto]. inversion F; subst. exfalso. specialize (S (fun _ => 1)). cbn in S. clear -S GN. destruct (s_gens n) as [|d l]; [contradiction|].
      assert (K : 0 <= total (fun _ : dev => 1) l) by (rewrite <- (total_zero (fun _ => 0) l) by reflexivity; apply total_le; intros; lra).
      change (0 == 1 + total (fun _ : dev => 1) l) in S. lra. }
    destruct X as [r Ir]. exists (d_bus r). split; [destruct W' as [_ [WD _]]; auto|]. left. eexists. split; [apply in_or_app; left; apply in_map; exact Ir|]. auto.
  - intros c t Ic L. destruct (existsb (fun d => String.eqb (d_bus d) c) (s_gens n')) eqn:X1.
    { left. left. apply existsb_exists in X1. destruct X1 as [d [I X1]]. apply String.eqb_eq in X1. eexists. split; [apply in_or_app; left; apply in_map; exact I|]. auto. }
    destruct (existsb (fun w => String.eqb (w_bus0 w) c || String.eqb (w_bus1 w) c) (s_lines n')) eqn:X2.
    { left. right. left. apply existsb_exists in X2. destruct X2 as [w [I X2]]. apply orb_true_iff in X2. rewrite !String.eqb_eq in X2. eexists. split; [apply in_or_app; left; apply in_map; exact I|]. auto. }
    destruct (existsb (fun w => String.eqb (w_bus0 w) c || String.eqb (w_bus1 w) c) (s_links n')) eqn:X3.
    { left. right. right. apply existsb_exists in X3. destruct X3 as [w [I X3]]. apply orb_true_iff in X3. rewrite !String.eqb_eq in X3. eexists. split; [apply in_map; exact I|]. split; auto. cbn. tauto. }
    right. transitivity (dem_of n' t c); [unfold BalanceSpec.demand, dem_of, balance_net; cbn [BalanceModel.loads]; rewrite total_map; apply total_ext; reflexivity|].
    rewrite (dem_coarse busmap T gens loads gcols lcols n n' W mapped Sg Sl built t c L).
    rewrite <- (nodes_eq busmap n c (net_of n x t)) by auto. rewrite <- (net_coarse busmap T gens loads gcols lcols n n' W mapped Sg Sl built x gms G ND t c L) by auto.
    unfold net_of. rewrite !total_zero; [ring| | |].
    + intros w I. unfold at_bus. pose proof (existsb_off _ _ X3 w I) as Z. apply orb_false_iff in Z. destruct Z as [-> ->]. ring.
    + intros w I. unfold at_bus. pose proof (existsb_off _ _ X2 w I) as Z. apply orb_false_iff in Z. destruct Z as [-> ->]. ring.
    + intros d I. unfold at_bus. now rewrite (existsb_off _ _ X1 d I).
Qed.
End Main.

(* examples *)
Definition at_table (l : list (string * Q)) (a : string) : Q := match find (fun e => String.eqb (fst e) a) l with Some e => snd e | None => 0 end.
Definition no_series (_ : string) : option (nat -> Q) := None.
Definition ex_gen (nm b : string) (cap cost lo : Q) (ps : option Q) : dev :=
  Dev nm b "g" (at_table [("p_nom", cap); ("marginal_cost", cost); ("p_min_pu", lo); ("p_max_pu", 1); ("sign", 1)]) (fun a => if String.eqb a "p_set" then option_map (fun q _ => q) ps else None).
Definition ex_load (b : string) (p : Q) : dev := Dev "l" b "" (at_table [("p_set", p); ("sign", -1)]) no_series.
Definition ex_line (nm a b : string) (s : Q) : wire := Wire nm a b (at_table [("s_nom", s); ("s_max_pu", 1); ("x", 1)]) no_series 1 1.
Definition ex_link (nm a b : string) (p e : Q) : wire := Wire nm a b (at_table [("p_nom", p); ("p_max_pu", 1); ("efficiency", e)]) no_series 1 1.
Definition to_A (l : list string) (b : string) : option string := if existsb (String.eqb b) l then Some "A" else Some b.
Definition clustered (l : list string) (n : system) : system :=
  match get_clustering_from_busmap (to_A l) 1 (Some (fun _ _ => true)) false ["sign"; "p_nom"] ["sign"] n with Some n' => n' | None => n end.
Definition list_of (o : option (list con)) : list con := match o with Some l => l | None => [] end.
Definition at0 (l : list (string * string * Q)) : sol := fun v => let '(c, t, nm) := v in match find (fun e => String.eqb (fst (fst e)) c && String.eqb (snd (fst e)) nm) l with Some e => snd e | None => 0 end.
Lemma sat_check x cs : forallb (fun c => match sns c with Le => Qle_bool (eval x (lhs c)) (rhs c) | Ge => Qle_bool (rhs c) (eval x (lhs c)) | Eq => Qeq_bool (eval x (lhs c)) (rhs c) end) cs = true -> sat x cs.
Proof. intros H c I. rewrite forallb_forall in H. specialize (H c I). unfold holds. destruct (sns c); [now apply Qle_bool_iff|now apply Qle_bool_iff|now apply Qeq_bool_iff]. Qed.
Lemma sat_forall x cs : sat x cs -> Forall (holds x) cs. Proof. intros H. now apply Forall_forall. Qed.
Ltac facts H := apply sat_forall in H; match type of H with Forall ?P ?l => let v := eval vm_compute in l in change (Forall P v) in H end;
  repeat match goal with X : Forall _ (_ :: _) |- _ => inversion_clear X end; unfold holds in *; cbn [lhs sns rhs eval val] in *.

Lemma clustered_ok l n : is_some (get_clustering_from_busmap (to_A l) 1 (Some (fun _ _ => true)) false ["sign"; "p_nom"] ["sign"] n) = true ->
  get_clustering_from_busmap (to_A l) 1 (Some (fun _ _ => true)) false ["sign"; "p_nom"] ["sign"] n = Some (clustered l n).
Proof. unfold clustered. destruct (get_clustering_from_busmap _ _ _ _ _ _ n); [reflexivity|discriminate]. Qed.
Lemma list_ok o : is_some o = true -> o = Some (list_of o).
Proof. destruct o; [reflexivity|discriminate]. Qed.
Lemma cost_rows x n : cost (fun _ => 1) 1 x n == total (fun p => snd p * x ("Generator-p", 0%nat, fst p)) (map (fun d => (d_name d, d_at d "marginal_cost" 0)) (s_gens n)) +
  total (fun p => snd p * x ("Link-p", 0%nat, fst p)) (map (fun w => (w_name w, w_at w "marginal_cost" 0)) (s_links n)).
Proof.
  rewrite !total_map. change (cost (fun _ => 1) 1 x n) with (1 * (gen_cost x 0 n + link_cost x 0 n) + 0).
  change (total (fun a => snd (d_name a, d_at a "marginal_cost" 0) * x ("Generator-p", 0%nat, fst (d_name a, d_at a "marginal_cost" 0%nat))) (s_gens n)) with (gen_cost x 0 n).
  change (total (fun a => snd (w_name a, w_at a "marginal_cost" 0) * x ("Link-p", 0%nat, fst (w_name a, w_at a "marginal_cost" 0%nat))) (s_links n)) with (link_cost x 0 n). ring.
Qed.

(* a cheap and a dear generator in one cluster *)
Definition dear : system := System ["a"; "b"] [ex_gen "g1" "a" 10 1 0 None; ex_gen "g2" "b" 10 9 0 None] [ex_load "a" 10] [ex_line "ab" "a" "b" 10] [].
Definition dear' : system := clustered ["a"; "b"] dear.
Lemma dear_case : get_clustering_from_busmap (to_A ["a"; "b"]) 1 (Some (fun _ _ => true)) false ["sign"; "p_nom"] ["sign"] dear = Some dear' /\
  (exists cs, problem 1 9 dear = Some cs /\ exists x, sat x cs /\ cost (fun _ => 1) 1 x dear == 10) /\
  exists cs', problem 1 9 dear' = Some cs' /\ forall x', sat x' cs' -> cost (fun _ => 1) 1 x' dear' == 50.
Proof.
  split; [apply clustered_ok; vm_compute; reflexivity|]. split.
  - exists (list_of (problem 1 9 dear)). split; [apply list_ok; vm_compute; reflexivity|]. exists (at0 [("Generator-p", "g1", 10)]). split; [apply sat_check; vm_compute; reflexivity|vm_compute; reflexivity].
  - exists (list_of (problem 1 9 dear')). split; [apply list_ok; vm_compute; reflexivity|]. intros x' Sx. facts Sx. rewrite cost_rows.
    match goal with |- total _ ?l + total _ ?l' == _ => let v := eval vm_compute in l in let v' := eval vm_compute in l' in change l with v; change l' with v' end. cbn [BalanceSpec.total fold_right fst snd]. lra.
Qed.
(* merging the ends of a path closes a loop *)
Definition path : system := System ["a"; "b"; "c"; "d"] [ex_gen "g" "a" 10 1 0 None] [ex_load "b" 10] [ex_line "ab" "a" "b" 10; ex_line "bc" "b" "c" 10; ex_line "cd" "c" "d" 1] [].
Definition path' : system := clustered ["a"; "d"] path.
Lemma path_case : get_clustering_from_busmap (to_A ["a"; "d"]) 1 (Some (fun _ _ => true)) false ["sign"; "p_nom"] ["sign"] path = Some path' /\
  (exists cs, problem 1 9 path = Some cs /\ exists x, sat x cs /\ explained x 0 path) /\
  exists cs', problem 1 9 path' = Some cs' /\ (exists x', sat x' cs') /\ forall x', sat x' cs' -> ~ explained x' 0 path'.
Proof.
  split; [apply clustered_ok; vm_compute; reflexivity|]. split.
  - exists (list_of (problem 1 9 path)). split; [apply list_ok; vm_compute; reflexivity|]. exists (at0 [("Generator-p", "g", 10); ("Line-s", "ab", 10)]). split; [apply sat_check; vm_compute; reflexivity|].
    exists (fun b => if String.eqb b "a" then 10 else 0). intros w I. cbn [path s_lines] in I. destruct I as [<-|[<-|[<-|[]]]]; vm_compute; reflexivity.
  - exists (list_of (problem 1 9 path')). split; [apply list_ok; vm_compute; reflexivity|]. split.
    { exists (at0 [("Generator-p", "A g", 10); ("Line-s", "0", 10)]). apply sat_check; vm_compute; reflexivity. }
    intros x' Sx [th E]. facts Sx.
    assert (K : forall p, In p (map (fun w => (w_static w "x", w_name w, w_bus0 w, w_bus1 w)) (s_lines path')) -> fst (fst (fst p)) * x' ("Line-s", 0%nat, snd (fst (fst p))) == th (snd (fst p)) - th (snd p)).
    { intros p I. apply in_map_iff in I. destruct I as [w [<- I]]. cbn [fst snd]. now apply E. }
    match type of K with forall p, In p ?l -> _ => let v := eval vm_compute in l in change l with v in K end.
    pose proof (K _ (or_introl eq_refl)) as K1. pose proof (K _ (or_intror (or_introl eq_refl))) as K2. pose proof (K _ (or_intror (or_intror (or_introl eq_refl)))) as K3. cbn [fst snd] in K1, K2, K3. lra.
Qed.
(* a schedule of one generator *)
Definition plan : system := System ["a"; "b"] [ex_gen "g1" "a" 10 1 0 (Some 1); ex_gen "g2" "b" 10 1 0 None] [ex_load "a" 5] [ex_line "ab" "a" "b" 10] [].
Definition plan' : system := clustered ["a"; "b"] plan.
Lemma plan_case : get_clustering_from_busmap (to_A ["a"; "b"]) 1 (Some (fun _ _ => true)) false ["sign"; "p_nom"] ["sign"] plan = Some plan' /\
  (exists cs, problem 1 9 plan = Some cs /\ exists x, sat x cs) /\
  exists cs', problem 1 9 plan' = Some cs' /\ forall x', ~ sat x' cs'.
Proof.
  split; [apply clustered_ok; vm_compute; reflexivity|]. split.
  - exists (list_of (problem 1 9 plan)). split; [apply list_ok; vm_compute; reflexivity|]. exists (at0 [("Generator-p", "g1", 1); ("Generator-p", "g2", 4); ("Line-s", "ab", -4)]). apply sat_check; vm_compute; reflexivity.
  - exists (list_of (problem 1 9 plan')). split; [apply list_ok; vm_compute; reflexivity|]. intros x' Sx. facts Sx. lra.
Qed.
(* a lossy link inside a cluster and a generator that must run *)
Definition lossy : system := System ["a"; "b"] [ex_gen "g" "a" 10 1 1 None] [ex_load "b" 5] [] [ex_link "ab" "a" "b" 10 (1 # 2)].
Definition lossy' : system := clustered ["a"; "b"] lossy.
Lemma lossy_case : get_clustering_from_busmap (to_A ["a"; "b"]) 1 (Some (fun _ _ => true)) false ["sign"; "p_nom"] ["sign"] lossy = Some lossy' /\
  (exists cs, problem 1 9 lossy = Some cs /\ exists x, sat x cs) /\
  exists cs', problem 1 9 lossy' = Some cs' /\ forall x', ~ sat x' cs'.
Proof.
  split; [apply clustered_ok; vm_compute; reflexivity|]. split.
  - exists (list_of (problem 1 9 lossy)). split; [apply list_ok; vm_compute; reflexivity|]. exists (at0 [("Generator-p", "g", 10); ("Link-p", "ab", 10)]). apply sat_check; vm_compute; reflexivity.
  - exists (list_of (problem 1 9 lossy')). split; [apply list_ok; vm_compute; reflexivity|]. intros x' Sx. facts Sx. lra.
Qed.
(* two buses of a cluster and one outside, lines in either direction, a link inside *)
Definition ok_net : system := System ["a"; "b"; "c"] [ex_gen "g1" "a" 10 3 0 None; ex_gen "g2" "b" 10 3 0 None; ex_gen "g3" "c" 5 7 0 None] [ex_load "c" 14]
  [ex_line "ac" "a" "c" 6; ex_line "cb" "c" "b" 6; ex_line "ab" "a" "b" 1] [ex_link "l" "a" "b" 4 1].
Definition ok_net' : system := clustered ["a"; "b"] ok_net.
Definition ok_x : sol := at0 [("Generator-p", "g1", 8); ("Generator-p", "g2", 3); ("Generator-p", "g3", 3); ("Line-s", "ac", 6); ("Line-s", "cb", -5); ("Link-p", "l", 2)].
Lemma ok_case : wired ok_net /\ (forall b, In b (s_buses ok_net) -> to_A ["a"; "b"] b <> None) /\
  get_clustering_from_busmap (to_A ["a"; "b"]) 1 (Some (fun _ _ => true)) false ["sign"; "p_nom"] ["sign"] ok_net = Some ok_net' /\
  (exists cs, problem 1 9 ok_net = Some cs /\ sat ok_x cs) /\ (exists cs', problem 1 9 ok_net' = Some cs') /\
  (forall d, In d (s_gens ok_net) -> 0 <= d_static d "p_nom") /\ (forall w, In w (s_lines ok_net) -> 0 <= w_static w "s_nom") /\
  (forall w t, In w (s_links ok_net) -> inside (to_A ["a"; "b"]) w -> (t < 1)%nat -> w_at w "efficiency" t == 1) /\
  (forall d, In d (s_gens ok_net) -> d_series d "p_set" = None) /\ NoDup (map d_name (s_gens ok_net')) /\
  (forall t d d', In d (s_gens ok_net) -> In d' (s_gens ok_net) -> together (to_A ["a"; "b"]) d d' -> d_at d "marginal_cost" t == d_at d' "marginal_cost" t) /\
  (forall w t, In w (s_links ok_net) -> 0 <= w_at w "p_min_pu" t * w_static w "p_nom" /\ 0 <= w_at w "marginal_cost" t) /\
  transfer (to_A ["a"; "b"]) ok_x 0 "A" "c" ok_net == 11 /\ (forall b, (count_occ string_dec (bus_columns ok_net') b <= 9)%nat).
Proof.
  split.
  { split; [repeat constructor; simpl; intuition discriminate|]. split.
    - intros d H. cbn in H. decompose [or] H; try contradiction; subst; cbn; auto.
    - intros w H. cbn in H. decompose [or] H; try contradiction; subst; cbn; auto. }
  split. { intros b _. unfold to_A. destruct (existsb _ _); discriminate. }
  split; [apply clustered_ok; vm_compute; reflexivity|].
  split. { exists (list_of (problem 1 9 ok_net)). split; [apply list_ok; vm_compute; reflexivity|]. apply sat_check. vm_compute. reflexivity. }
  split. { exists (list_of (problem 1 9 ok_net')). apply list_ok. vm_compute. reflexivity. }
  split. { intros d H. cbn [ok_net s_gens In] in H. decompose [or] H; try contradiction; subst; vm_compute; discriminate. }
  split. { intros d H. cbn [ok_net s_lines In] in H. decompose [or] H; try contradiction; subst; vm_compute; discriminate. }
  split. { intros w t H _ _. cbn [ok_net s_links In] in H. destruct H as [<-|[]]. reflexivity. }
  split. { intros d H. cbn [ok_net s_gens In] in H. decompose [or] H; try contradiction; subst; reflexivity. }
  split. { match goal with |- NoDup ?l => let v := eval vm_compute in l in change l with v end. repeat constructor; simpl; intuition discriminate. }
  split. { intros t d d' H H' [TB _]. cbn [ok_net s_gens In] in H, H'. decompose [or] H; try contradiction; subst; decompose [or] H'; try contradiction; subst; try reflexivity; exfalso; cbn in TB; discriminate. }
  split. { intros w t H. cbn [ok_net s_links In] in H. destruct H as [<-|[]]. split; vm_compute; discriminate. }
  split. { vm_compute. reflexivity. }
  intros b. etransitivity; [apply count_occ_bound|]. vm_compute. lia.
Qed.
