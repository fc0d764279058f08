From Coq Require Import List String Bool QArith ZArith Arith Lia Lqa Qfield.
From Verif Require Import LinModel LinProofs WholeModel IdleSpec UnitSpec.
From Verif Require DispatchModel RampModel CommitModel BalanceModel StorageModel LimitModel CapModel LossModel ObjectiveModel.
From Verif Require BalanceSpec BalanceProofs CapSpec CapProofs ObjectiveSpec ObjectiveProofs IdleProofs.
Import ListNotations.
Open Scope string_scope.
Open Scope list_scope.
Open Scope Q_scope.
Notation problem := CapModel.problem.

Lemma F2_app {A} (R : A -> A -> Prop) a b a' b' : Forall2 R a a' -> Forall2 R b b' -> Forall2 R (a ++ b) (a' ++ b').
Proof. intros H. induction H; cbn [app]; auto. Qed.
Lemma F2_flat {A B} (R : B -> B -> Prop) (f f' : A -> list B) l : (forall a, In a l -> Forall2 R (f a) (f' a)) -> Forall2 R (flat_map f l) (flat_map f' l).
Proof. induction l as [|a l IH]; intros H; [constructor|]. cbn [flat_map]. apply F2_app; [apply H; now left|apply IH; intros b I; apply H; now right]. Qed.
Lemma F2_map {A B C} (R : B -> C -> Prop) (f : A -> B) (f' : A -> C) l : (forall a, In a l -> R (f a) (f' a)) -> Forall2 R (map f l) (map f' l).
Proof. induction l as [|a l IH]; intros H; [constructor|]. cbn [map]. constructor; [apply H; now left|apply IH; intros b I; apply H; now right]. Qed.
Lemma filter_map {A B} (f : B -> bool) (v : A -> B) l : filter f (map v l) = map v (filter (fun a => f (v a)) l).
Proof. induction l as [|a l IH]; [reflexivity|]. cbn [map filter]. destruct (f (v a)); cbn [map]; rewrite IH; reflexivity. Qed.
Lemma filter_true {A} (l : list A) : filter (fun _ => true) l = l.
Proof. induction l as [|a l IH]; [reflexivity|]. cbn. now rewrite IH. Qed.
Lemma flat_map_map {A B C} (f : B -> list C) (g : A -> B) l : flat_map f (map g l) = flat_map (fun a => f (g a)) l.
Proof. induction l as [|a l IH]; [reflexivity|]. cbn [map flat_map]. now rewrite IH. Qed.

Section K.
Variables k m : Q.
Hypothesis kpos : 0 < k.
Hypothesis mpos : 0 < m.
Lemma knz : ~ k == 0. Proof. intros E. rewrite E in kpos. discriminate. Qed.
Lemma mnz : ~ m == 0. Proof. intros E. rewrite E in mpos. discriminate. Qed.
Notation sc := (scaled k m).
Notation rs := (rescale k m).
Notation un := (unit_of k m).

(* terms and rows in other units; f is the unit of the row *)
Definition trel (f : Q) (e e' : Q * label) : Prop := snd e' = snd e /\ forall v, snd e = Some v -> fst e' * un (fst (fst v)) == f * fst e.
Definition lrel (f : Q) (l l' : lin) : Prop := Forall2 (trel f) l l'.
Definition rel (c c' : con) : Prop := exists f, 0 < f /\ sns c' = sns c /\ rhs c' == f * rhs c /\ lrel f (lhs c) (lhs c').
Lemma lrel_eval f l l' x : lrel f l l' -> eval (rs x) l' == f * eval x l.
Proof.
  intros H. induction H as [|[q v] [q' v'] l l' [E C] H IH]; [cbn [eval]; ring|]. cbn [eval fst snd] in *. rewrite IH. subst v'. destruct v as [v|]; [|cbn [val]; ring].
  cbn [val]. unfold rescale. specialize (C v eq_refl). setoid_replace (q' * (un (fst (fst v)) * x v)) with (q' * un (fst (fst v)) * x v) by ring. rewrite C. ring.
Qed.
Lemma lrel_labels f l l' : lrel f l l' -> map snd l' = map snd l.
Proof. intros H. induction H as [|e e' l l' [E _] H IH]; [reflexivity|]. cbn [map]. now rewrite E, IH. Qed.
Lemma has_term_labels c : CapModel.has_term c = existsb (fun l => match l with Some _ => true | None => false end) (map snd (lhs c)).
Proof. unfold CapModel.has_term. induction (lhs c) as [|e l IH]; [reflexivity|]. cbn [existsb map]. now rewrite IH. Qed.
Lemma rel_holds x c c' : rel c c' -> (holds x c <-> holds (rs x) c').
Proof.
  intros [f [P [S [R L]]]]. pose proof (lrel_eval f _ _ x L) as E. unfold holds. rewrite S. destruct (sns c); rewrite E, R.
  - rewrite Qmult_le_l by exact P. tauto.
  - rewrite Qmult_le_l by exact P. tauto.
  - symmetry. apply (Qmult_inj_l _ _ f). intros Z. rewrite Z in P. discriminate.
Qed.
Lemma rel_sat x cs cs' : Forall2 rel cs cs' -> (sat x (problem cs) <-> sat (rs x) (problem cs')).
Proof.
  intros H. induction H as [|c c' cs cs' R H IH]; [split; intros _ c []|].
  assert (T : CapModel.has_term c' = CapModel.has_term c) by (destruct R as [f [_ [_ [_ L]]]]; rewrite !has_term_labels, (lrel_labels _ _ _ L); reflexivity).
  unfold problem in *. cbn [filter]. rewrite T. pose proof (rel_holds x _ _ R) as HH. destruct (CapModel.has_term c); [|exact IH].
  split; intros S d [<-|I].
  - apply HH. apply S. now left.
  - apply IH; auto. intros e J. apply S. now right.
  - apply HH. apply S. now left.
  - apply IH; auto. intros e J. apply S. now right.
Qed.

(* rows over the assets of a table *)
Lemma add_rel {B} ts (l : list asset) (v : asset -> B) p (mk : nat -> B -> bool) f :
  (forall a, In a l -> p (v (sc a)) = p (v a)) -> (forall t a, In a l -> mk t (v (sc a)) = mk t (v a)) ->
  (forall t a, In a l -> mk t (v a) = true -> rel (f t (v a)) (f t (v (sc a)))) ->
  Forall2 rel (add_constraints ts (filter p (map v l)) mk f) (add_constraints ts (filter p (map v (map sc l))) mk f).
Proof.
  intros P M R. unfold add_constraints. apply F2_flat. intros t _. induction l as [|a l IH]; [constructor|]. cbn [map filter]. rewrite P by now left.
  assert (IH' : Forall2 rel (flat_map (fun a => if mk t a then [f t a] else []) (filter p (map v l))) (flat_map (fun a => if mk t a then [f t a] else []) (filter p (map v (map sc l))))) by (apply IH; intros; [apply P|apply M|apply R]; auto; now right).
  destruct (p (v a)); [|exact IH']. cbn [flat_map]. rewrite (M t a) by now left. apply F2_app; [|exact IH']. destruct (mk t (v a)) eqn:E; [|constructor]. constructor; [|constructor]. apply R; [now left|exact E].
Qed.
Lemma add_rel0 {B} ts (l : list asset) (v : asset -> B) (mk : nat -> B -> bool) f :
  (forall t a, In a l -> mk t (v (sc a)) = mk t (v a)) ->
  (forall t a, In a l -> mk t (v a) = true -> rel (f t (v a)) (f t (v (sc a)))) ->
  Forall2 rel (add_constraints ts (map v l) mk f) (add_constraints ts (map v (map sc l)) mk f).
Proof. intros M R. pose proof (add_rel ts l v (fun _ => true) mk f (fun _ _ => eq_refl) M R) as H. rewrite !filter_true in H. exact H. Qed.
Lemma add_rel1 {B} ts (b b' : B) (mk mk' : nat -> B -> bool) f f' :
  (forall t, mk' t b' = mk t b) -> (forall t, In t ts -> mk t b = true -> rel (f t b) (f' t b')) -> Forall2 rel (add_constraints ts [b] mk f) (add_constraints ts [b'] mk' f').
Proof.
  intros M R. unfold add_constraints. apply F2_flat. intros t I. cbn [flat_map]. rewrite M. destruct (mk t b) eqn:E; cbn [app]; [|constructor]. constructor; [|constructor]. auto.
Qed.
Lemma row f l l' s r r' : 0 < f -> r' == f * r -> lrel f l l' -> rel {| lhs := l; sns := s; rhs := r |} {| lhs := l'; sns := s; rhs := r' |}.
Proof. intros. exists f. cbn. auto. Qed.
Lemma term f q q' l : (forall v, l = Some v -> q' * un (fst (fst v)) == f * q) -> trel f (q, l) (q', l).
Proof. intros H. split; [reflexivity|]. exact H. Qed.
(* a label of a given array *)
Definition array (s : string) (l : label) : Prop := forall v, l = Some v -> fst (fst v) = s.
Lemma term_of f q q' l s u : array s l -> un s == u -> q' * u == f * q -> trel f (q, l) (q', l).
Proof. intros A U E. apply term. intros v V. rewrite (A v V), U. exact E. Qed.
Lemma array_if (b : bool) s t nm_ : array s (if b then Some (s, t, nm_) else None).
Proof. intros v E. destruct b; [|discriminate]. injection E as <-. reflexivity. Qed.
Lemma array_some s t nm_ : array s (Some (s, t, nm_)).
Proof. intros v E. injection E as <-. reflexivity. Qed.
Lemma array_shift s f t : (forall t, array s (f t)) -> array s (shift f t).
Proof. intros H. destruct t as [|t]; [discriminate|apply H]. Qed.

(* capacity and dispatch *)
Lemma mod_kept (q : Q) : Qle_bool (k * q) 0 = Qle_bool q 0.
Proof.
  apply eq_true_iff_eq. rewrite !Qle_bool_iff. setoid_replace 0 with (k * 0) at 1 by ring. apply Qmult_le_l. exact kpos.
Qed.
Lemma zero_kept f (q : Q) : 0 < f -> Qeq_bool (f * q) 0 = Qeq_bool q 0.
Proof.
  intros F. apply eq_true_iff_eq. rewrite !Qeq_bool_iff. setoid_replace 0 with (f * 0) at 1 by ring. apply Qmult_inj_l. intros Z. rewrite Z in F. discriminate.
Qed.
Lemma known_units c : In c classes -> un (c ++ "-n_mod") = 1 /\ un (c ++ "-status") = 1 /\ un (c ++ "-start_up") = 1 /\ un (c ++ "-shut_down") = 1 /\ un (c ++ "-p") = k /\ un (c ++ "-loss") = k /\ un (c ++ "-" ++ nattr c) = k.
Proof. unfold classes. cbn [In]. intros [<-|[<-|[<-|[<-|[<-|[<-|[]]]]]]]; repeat split; reflexivity. Qed.
Ltac apps := repeat match goal with |- Forall2 _ (_ ++ _) (_ ++ _) => apply F2_app end.

Lemma capacity_rel n c na : un (c ++ "-" ++ na) = k -> un (c ++ "-n_mod") = 1 -> Forall2 rel (capacity_of n c na) (capacity_of (scaled_net k m n) c na).
Proof.
  intros U1 U2. unfold capacity_of, of_class. cbn [scaled_net assets]. rewrite filter_map. cbn zeta. set (l := filter (fun a => String.eqb (cls a) c) (assets n)).
  change (filter (fun a => String.eqb (cls (sc a)) c) (assets n)) with l.
  unfold DispatchModel.nominal, DispatchModel.fixed_nominal, DispatchModel.modular, DispatchModel.ext_assets, DispatchModel.mod_assets.
  assert (CAP : forall q q' a f, q' * k == f * q -> trel f (q, DispatchModel.cap c na (d_view "" a)) (q', DispatchModel.cap c na (d_view "" (sc a)))).
  { intros q q' a f E. apply (term_of f q q' _ (c ++ "-" ++ na) k); [apply array_some|now rewrite U1|exact E]. }
  apps; apply add_rel; try (intros; reflexivity); intros; unfold DispatchModel.mk.
  - apply (row k); [exact kpos|reflexivity|]. constructor; [|constructor]. apply CAP. ring.
  - cbn. destruct (nom_max a); reflexivity.
  - apply (row k); [exact kpos| |].
    + change (DispatchModel.nom_max (d_view "" (sc a))) with (times_opt k (nom_max a)). change (DispatchModel.nom_max (d_view "" a)) with (nom_max a). destruct (nom_max a); unfold times_opt, option_map; [reflexivity|ring].
    + constructor; [|constructor]. apply CAP. ring.
  - cbn. destruct (nom_set a); reflexivity.
  - apply (row k); [exact kpos| |].
    + change (DispatchModel.nom_set (d_view "" (sc a))) with (times_opt k (nom_set a)). change (DispatchModel.nom_set (d_view "" a)) with (nom_set a). destruct (nom_set a); unfold times_opt, option_map; [reflexivity|ring].
    + constructor; [|constructor]. apply CAP. ring.
  - change (ext a && negb (Qle_bool (k * nom_mod a) 0) = ext a && negb (Qle_bool (nom_mod a) 0)). now rewrite mod_kept.
  - apply (row k); [exact kpos|ring|]. constructor; [apply CAP; ring|]. constructor; [|constructor].
    apply (term_of k _ _ _ (c ++ "-n_mod") 1); [apply array_some|now rewrite U2|]. change (- (k * nom_mod a) * 1 == k * - nom_mod a). ring.
Qed.

Definition rows_of_table (n : net) (c : string) : list asset := filter (fun a => String.eqb (cls a) c) (assets n).
Lemma of_scaled n c : of_class (scaled_net k m n) c = map sc (of_class n c).
Proof. unfold of_class. cbn [scaled_net assets]. rewrite filter_map. reflexivity. Qed.

Section Class.
Variables c attr na : string.
Variable l : list asset.
Hypothesis u_attr : un (c ++ "-" ++ attr) = k.
Hypothesis u_nom : un (c ++ "-" ++ na) = k.
Hypothesis u_loss : un (c ++ "-loss") = k.
Hypothesis u_p : un (c ++ "-p") = k.
Hypothesis u_status : un (c ++ "-status") = 1.
Hypothesis u_start : un (c ++ "-start_up") = 1.
Hypothesis u_shut : un (c ++ "-shut_down") = 1.
Notation dv := (d_view attr).
Lemma op_term v u f q q' a t : un (c ++ "-" ++ v) = u -> q' * u == f * q -> trel f (q, DispatchModel.op c v (dv a) t) (q', DispatchModel.op c v (dv (sc a)) t).
Proof. intros U E. apply (term_of f q q' (DispatchModel.op c v (dv a) t) (c ++ "-" ++ v) u); [apply array_if|now rewrite U|exact E]. Qed.
Lemma cap_term f q q' a : q' * k == f * q -> trel f (q, DispatchModel.cap c na (dv a)) (q', DispatchModel.cap c na (dv (sc a))).
Proof. intros E. apply (term_of f q q' _ (c ++ "-" ++ na) k); [apply array_some|now rewrite u_nom|exact E]. Qed.
Lemma loss_rel kd lo sg a t : lrel k (DispatchModel.loss_term c kd lo sg (dv a) t) (DispatchModel.loss_term c kd lo sg (dv (sc a)) t).
Proof. unfold DispatchModel.loss_term. destruct (_ && lo); constructor; [|constructor]. apply (op_term "loss" k); [exact u_loss|ring]. Qed.
Lemma dispatch_rel kd lo T :
  Forall2 rel (DispatchModel.non_extendables c attr kd lo T (map dv l)) (DispatchModel.non_extendables c attr kd lo T (map dv (map sc l))) /\
  Forall2 rel (DispatchModel.extendables c attr na kd lo T (map dv l)) (DispatchModel.extendables c attr na kd lo T (map dv (map sc l))) /\
  Forall2 rel (DispatchModel.committables c T (map dv l)) (DispatchModel.committables c T (map dv (map sc l))) /\
  Forall2 rel (DispatchModel.fixed_operation c attr T (map dv l)) (DispatchModel.fixed_operation c attr T (map dv (map sc l))).
Proof.
  unfold DispatchModel.non_extendables, DispatchModel.extendables, DispatchModel.committables, DispatchModel.fixed_operation, DispatchModel.fixed_assets, DispatchModel.ext_assets, DispatchModel.com_assets.
  assert (OP : forall q q' a t, q' == q -> trel k (q, DispatchModel.op c attr (dv a) t) (q', DispatchModel.op c attr (dv (sc a)) t)) by (intros; apply (op_term attr k); [exact u_attr|rewrite H; ring]).
  split; [|split; [|split]]; apps; first [apply add_rel|apply add_rel0]; try (intros; reflexivity); intros; unfold DispatchModel.mk.
  - apply (row k); [exact kpos| |constructor; [now apply OP|apply loss_rel]]. change (fst (DispatchModel.bounds_pu kd (dv a) t) * (k * nom a) == k * (fst (DispatchModel.bounds_pu kd (dv a) t) * nom a)). ring.
  - apply (row k); [exact kpos| |constructor; [now apply OP|apply loss_rel]]. change (snd (DispatchModel.bounds_pu kd (dv a) t) * (k * nom a) == k * (snd (DispatchModel.bounds_pu kd (dv a) t) * nom a)). ring.
  - apply (row k); [exact kpos|ring|constructor; [now apply OP|constructor; [|apply loss_rel]]]. apply cap_term. change (DispatchModel.bounds_pu kd (dv (sc a)) t) with (DispatchModel.bounds_pu kd (dv a) t). ring.
  - apply (row k); [exact kpos|ring|constructor; [now apply OP|constructor; [|apply loss_rel]]]. apply cap_term. change (DispatchModel.bounds_pu kd (dv (sc a)) t) with (DispatchModel.bounds_pu kd (dv a) t). ring.
  - apply (row k); [exact kpos|ring|constructor; [|constructor; [|constructor]]].
    + apply (op_term "p" k); [exact u_p|ring].
    + apply (op_term "status" 1); [exact u_status|]. change (DispatchModel.bounds_pu DispatchModel.Other (dv (sc a)) t) with (DispatchModel.bounds_pu DispatchModel.Other (dv a) t). change (DispatchModel.nom (dv (sc a))) with (k * nom a). change (DispatchModel.nom (dv a)) with (nom a). ring.
  - apply (row k); [exact kpos|ring|constructor; [|constructor; [|constructor]]].
    + apply (op_term "p" k); [exact u_p|ring].
    + apply (op_term "status" 1); [exact u_status|]. change (DispatchModel.bounds_pu DispatchModel.Other (dv (sc a)) t) with (DispatchModel.bounds_pu DispatchModel.Other (dv a) t). change (DispatchModel.nom (dv (sc a))) with (k * nom a). change (DispatchModel.nom (dv a)) with (nom a). ring.
  - change (DispatchModel.fix_set (dv (sc a)) t) with (times_opt k (op_set a attr t)). change (DispatchModel.fix_set (dv a) t) with (op_set a attr t). destruct (op_set a attr t); reflexivity.
  - apply (row k); [exact kpos| |constructor; [now apply OP|constructor]]. change (DispatchModel.fix_set (dv (sc a)) t) with (times_opt k (op_set a attr t)). change (DispatchModel.fix_set (dv a) t) with (op_set a attr t). destruct (op_set a attr t); unfold times_opt, option_map; [reflexivity|ring].
Qed.

(* unit commitment *)
Lemma uv_term v u f q q' a t : un (c ++ "-" ++ v) = u -> q' * u == f * q -> trel f (q, CommitModel.uvar c (u_view a) v t) (q', CommitModel.uvar c (u_view (sc a)) v t).
Proof. intros U E. apply (term_of f q q' (CommitModel.uvar c (u_view a) v t) (c ++ "-" ++ v) u); [apply array_if|now rewrite U|exact E]. Qed.
Lemma uvs_term v u f q q' a t : un (c ++ "-" ++ v) = u -> q' * u == f * q -> trel f (q, shift (CommitModel.uvar c (u_view a) v) t) (q', shift (CommitModel.uvar c (u_view (sc a)) v) t).
Proof. intros U E. destruct t as [|t]; [split; [reflexivity|discriminate]|]. now apply (uv_term v u). Qed.
Lemma commitment_rel T a : Forall2 rel (CommitModel.commitment c (u_view a) T false) (CommitModel.commitment c (u_view (sc a)) T false).
Proof.
  unfold CommitModel.commitment, CommitModel.transition, CommitModel.up_time, CommitModel.down_time, CommitModel.stay_up, CommitModel.stay_down.
  change (CommitModel.min_up (u_view (sc a))) with (CommitModel.min_up (u_view a)). change (CommitModel.min_down (u_view (sc a))) with (CommitModel.min_down (u_view a)).
  assert (ST : forall q t, trel 1 (q, CommitModel.status c (u_view a) t) (q, CommitModel.status c (u_view (sc a)) t)) by (intros; apply (uv_term "status" 1); [exact u_status|ring]).
  assert (SS : forall q t, trel 1 (q, shift (CommitModel.status c (u_view a)) t) (q, shift (CommitModel.status c (u_view (sc a))) t)) by (intros; apply (uvs_term "status" 1); [exact u_status|ring]).
  assert (SU : forall q t, trel 1 (q, CommitModel.start_up c (u_view a) t) (q, CommitModel.start_up c (u_view (sc a)) t)) by (intros; apply (uv_term "start_up" 1); [exact u_start|ring]).
  assert (SD : forall q t, trel 1 (q, CommitModel.shut_down c (u_view a) t) (q, CommitModel.shut_down c (u_view (sc a)) t)) by (intros; apply (uv_term "shut_down" 1); [exact u_shut|ring]).
  assert (R1 : forall l' l'' s r, lrel 1 l' l'' -> rel (CommitModel.con1 l' s r) (CommitModel.con1 l'' s r)) by (intros; apply (row 1); [reflexivity|ring|assumption]).
  apps.
  - apply add_rel1; [reflexivity|]. intros. apply R1. repeat (constructor; auto).
  - apply add_rel1; [reflexivity|]. intros. apply R1. repeat (constructor; auto).
  - destruct (Nat.eqb _ 0); [constructor|]. apply add_rel1; [reflexivity|]. intros. apply R1. constructor; [auto|]. unfold CommitModel.window. apply F2_map. auto.
  - destruct (Nat.eqb _ 0); [constructor|]. apply add_rel1; [reflexivity|]. intros. apply R1. constructor; [auto|]. unfold CommitModel.window. apply F2_map. auto.
  - apply add_rel1; [reflexivity|]. intros. apply R1. repeat (constructor; auto).
  - apply add_rel1; [reflexivity|]. intros. apply R1. repeat (constructor; auto).
Qed.
Lemma tighten_rel T a : Forall2 rel (CommitModel.tighten c (u_view a) T) (CommitModel.tighten c (u_view (sc a)) T).
Proof.
  unfold CommitModel.tighten. cbn zeta.
  assert (ST : forall q q' t, q' == k * q -> trel k (q, CommitModel.status c (u_view a) t) (q', CommitModel.status c (u_view (sc a)) t)) by (intros ? ? ? E; apply (uv_term "status" 1); [exact u_status|rewrite E; ring]).
  assert (SS : forall q q' t, q' == k * q -> trel k (q, shift (CommitModel.status c (u_view a)) t) (q', shift (CommitModel.status c (u_view (sc a))) t)) by (intros ? ? ? E; apply (uvs_term "status" 1); [exact u_status|rewrite E; ring]).
  assert (SU : forall q q' t, q' == k * q -> trel k (q, CommitModel.start_up c (u_view a) t) (q', CommitModel.start_up c (u_view (sc a)) t)) by (intros ? ? ? E; apply (uv_term "start_up" 1); [exact u_start|rewrite E; ring]).
  assert (PO : forall q t, trel k (q, CommitModel.power c (u_view a) t) (q, CommitModel.power c (u_view (sc a)) t)) by (intros; apply (uv_term "p" k); [exact u_p|ring]).
  assert (PS : forall q t, trel k (q, shift (CommitModel.power c (u_view a)) t) (q, shift (CommitModel.power c (u_view (sc a))) t)) by (intros; apply (uvs_term "p" k); [exact u_p|ring]).
  assert (R1 : forall l' l'', lrel k l' l'' -> rel (CommitModel.con1 l' Le 0) (CommitModel.con1 l'' Le 0)) by (intros; apply (row k); [exact kpos|ring|assumption]).
  assert (V : forall t, CommitModel.lower_p (u_view (sc a)) t = min_pu a t * (k * nom a) /\ CommitModel.upper_p (u_view (sc a)) t = max_pu a t * (k * nom a)) by (intros; split; reflexivity).
  assert (W : CommitModel.r_up (u_view (sc a)) = k * nom a * fill1 (up_static a) /\ CommitModel.r_down (u_view (sc a)) = k * nom a * fill1 (down_static a) /\ CommitModel.r_start (u_view (sc a)) = k * nom a * start_lim a /\ CommitModel.r_shut (u_view (sc a)) = k * nom a * shut_lim a) by (repeat split; reflexivity).
  assert (V0 : forall t, CommitModel.lower_p (u_view a) t = min_pu a t * nom a /\ CommitModel.upper_p (u_view a) t = max_pu a t * nom a) by (intros; split; reflexivity).
  assert (W0 : CommitModel.r_up (u_view a) = nom a * fill1 (up_static a) /\ CommitModel.r_down (u_view a) = nom a * fill1 (down_static a) /\ CommitModel.r_start (u_view a) = nom a * start_lim a /\ CommitModel.r_shut (u_view a) = nom a * shut_lim a) by (repeat split; reflexivity).
  destruct W as [W1 [W2 [W3 W4]]], W0 as [X1 [X2 [X3 X4]]].
  apps; (apply add_rel1; [reflexivity|]); intros t _ _; apply R1; destruct (V t) as [V1 V2], (V0 t) as [Y1 Y2]; rewrite ?V1, ?V2, ?Y1, ?Y2, ?W1, ?W2, ?W3, ?W4, ?X1, ?X2, ?X3, ?X4;
    repeat (constructor; [first [apply PO|apply PS|apply ST; ring|apply SS; ring|apply SU; ring]|]); constructor.
Qed.

(* ramp limits *)
Lemma ramps_rel T : Forall2 rel (RampModel.ramps c na T false (map r_view l)) (RampModel.ramps c na T false (map r_view (map sc l))).
Proof.
  unfold RampModel.ramps. assert (E : RampModel.early_return T (map r_view (map sc l)) = RampModel.early_return T (map r_view l)).
  { unfold RampModel.early_return, RampModel.everywhere. rewrite map_map. assert (G : forall f : RampModel.rasset -> bool, (forall a, f (r_view (sc a)) = f (r_view a)) -> forallb f (map (fun a => r_view (sc a)) l) = forallb f (map r_view l)).
    { intros f H. induction l as [|a l' IH]; [reflexivity|]. cbn [map forallb]. now rewrite H, IH. }
    rewrite !G by reflexivity. reflexivity. }
  rewrite E. destruct (RampModel.early_return T (map r_view l)); [constructor|].
  assert (P : forall q t a, trel k (q, RampModel.p c (r_view a) t) (q, RampModel.p c (r_view (sc a)) t)) by (intros; apply (term_of k q q (RampModel.p c (r_view a) t) (c ++ "-p") k); [apply array_if|now rewrite u_p|ring]).
  assert (PS : forall q t a, trel k (q, shift (RampModel.p c (r_view a)) t) (q, shift (RampModel.p c (r_view (sc a))) t)) by (intros; destruct t as [|t]; [split; [reflexivity|discriminate]|apply P]).
  assert (S : forall q q' t a, q' == k * q -> trel k (q, RampModel.status c (r_view a) t) (q', RampModel.status c (r_view (sc a)) t)) by (intros q q' t a X; apply (term_of k q q' (RampModel.status c (r_view a) t) (c ++ "-status") 1); [apply array_if|now rewrite u_status|rewrite X; ring]).
  assert (SS : forall q q' t a, q' == k * q -> trel k (q, shift (RampModel.status c (r_view a)) t) (q', shift (RampModel.status c (r_view (sc a))) t)) by (intros q q' t a X; destruct t as [|t]; [split; [reflexivity|discriminate]|now apply S]).
  assert (C : forall q a, trel k (q, DispatchModel.cap c na (RampModel.base (r_view a))) (q, DispatchModel.cap c na (RampModel.base (r_view (sc a))))) by (intros; apply (term_of k q q _ (c ++ "-" ++ na) k); [apply array_some|now rewrite u_nom|ring]).
  unfold RampModel.fixed_ramps, RampModel.extendable_ramps, RampModel.com_ramps, RampModel.fix_, RampModel.ext_, RampModel.com_.
  apps; apply add_rel; try (intros; reflexivity); intros t a _ _; unfold RampModel.rhs_start, RampModel.first, DispatchModel.mk; cbn [andb]; cbn zeta;
    change (DispatchModel.nom (RampModel.base (r_view (sc a)))) with (k * nom a); change (DispatchModel.nom (RampModel.base (r_view a))) with (nom a);
    change (RampModel.up (r_view (sc a))) with (RampModel.up (r_view a)); change (RampModel.down (r_view (sc a))) with (RampModel.down (r_view a));
    change (RampModel.up_static (r_view (sc a))) with (RampModel.up_static (r_view a)); change (RampModel.down_static (r_view (sc a))) with (RampModel.down_static (r_view a));
    change (RampModel.start_lim (r_view (sc a))) with (RampModel.start_lim (r_view a)); change (RampModel.shut_lim (r_view (sc a))) with (RampModel.shut_lim (r_view a));
    (apply (row k); [exact kpos|ring|]); repeat (constructor; [first [apply P|apply PS|apply C|apply S; ring|apply SS; ring]|]); constructor.
Qed.
End Class.

Lemma com_kept a : com (sc a) = com a. Proof. reflexivity. Qed.
Lemma commitment_of_rel n c : un (c ++ "-p") = k -> un (c ++ "-status") = 1 -> un (c ++ "-start_up") = 1 -> un (c ++ "-shut_down") = 1 -> Forall2 rel (commitment_of n c) (commitment_of (scaled_net k m n) c).
Proof.
  intros U1 U2 U3 U4. unfold commitment_of. rewrite of_scaled, filter_map. change (filter (fun a => com (sc a)) (of_class n c)) with (filter com (of_class n c)). rewrite !flat_map_map. cbn [scaled_net nsnaps].
  apply F2_app; apply F2_flat; intros a _.
  - now apply commitment_rel.
  - unfold tightened. cbn [scaled_net linear]. change (start_cost (sc a)) with (m * start_cost a). change (shut_cost (sc a)) with (m * shut_cost a).
    assert (E : Qeq_bool (m * start_cost a) (m * shut_cost a) = Qeq_bool (start_cost a) (shut_cost a)) by (apply eq_true_iff_eq; rewrite !Qeq_bool_iff; apply Qmult_inj_l, mnz). rewrite E.
    destruct (linear n && _); [|constructor]. now apply tighten_rel.
Qed.
Lemma operation_rel n : Forall2 rel (operation n) (operation (scaled_net k m n)).
Proof.
  unfold operation. apply F2_flat. intros r I. assert (H : exists c attr na kd, r = (c, attr, na, kd) /\ un (c ++ "-" ++ attr) = k /\ un (c ++ "-" ++ na) = k /\ un (c ++ "-loss") = k /\ un (c ++ "-p") = k /\ un (c ++ "-status") = 1 /\ un (c ++ "-start_up") = 1 /\ un (c ++ "-shut_down") = 1).
  { unfold operations in I. cbn [In] in I. repeat (destruct I as [<-|I]; [do 4 eexists; split; [reflexivity|]; repeat split; reflexivity|]). destruct I. }
  destruct H as [c [attr [na [kd [-> [U1 [U2 [U3 [U4 [U5 [U6 U7]]]]]]]]]]]. unfold operation_of. cbn zeta. rewrite of_scaled. cbn [scaled_net nsnaps]. change (lossy (scaled_net k m n)) with (lossy n).
  destruct (dispatch_rel c attr na (of_class n c) U1 U2 U3 U4 U5 kd (lossy n) (nsnaps n)) as [D1 [D2 [D3 D4]]].
  apply F2_app; [exact D1|]. apply F2_app; [exact D2|]. apply F2_app; [exact D3|]. apply F2_app; [now apply commitment_of_rel|]. apply F2_app; [|exact D4].
  destruct (has_uc c); [|constructor]. apply (ramps_rel c na); auto.
Qed.

Definition orel (o o' : option (list con)) : Prop :=
  match o, o' with Some a, Some b => Forall2 rel a b | None, None => True | _, _ => False end.
Lemma lrel_same f l : (forall q v, In (q, Some v) l -> un (fst (fst v)) == f) -> lrel f l l.
Proof.
  induction l as [|[q o] l IH]; intros H; [constructor|]. constructor; [|apply IH; intros p v I; apply (H p v); now right]. apply term. intros v ->. rewrite (H q v (or_introl eq_refl)). ring.
Qed.

(* nodal balance *)
Lemma lab_in (b : nat -> bool) s nm_ t v : BalanceModel.lab b s nm_ t = Some v -> fst (fst v) = s.
Proof. unfold BalanceModel.lab. destruct (b t); [|discriminate]. intros E. injection E as <-. reflexivity. Qed.
Lemma entries_units bn lo t e q v : In (e, (q, Some v)) (BalanceModel.entries bn lo t) -> un (fst (fst v)) == k.
Proof.
  unfold BalanceModel.entries, BalanceModel.one, BalanceModel.br. intros I.
  assert (M : forall A (f : A -> BalanceModel.entry) s (L : list A), un s = k -> (forall a, exists b nm_, snd (snd (f a)) = BalanceModel.lab b s nm_ t) -> In (e, (q, Some v)) (map f L) -> un (fst (fst v)) == k).
  { intros A f s L U H J. apply in_map_iff in J. destruct J as [a [E _]]. destruct (H a) as [b [nm_ X]]. rewrite E in X. cbn [snd] in X. symmetry in X. rewrite (lab_in _ _ _ _ _ X), U. reflexivity. }
  repeat (apply in_app_or in I; destruct I as [I|I]);
  let go s := solve [apply (M _ _ s _) in I; [exact I|reflexivity|intros a; cbn; eauto]] in
  try (first [go "Generator-p"|go "Store-p"|go "StorageUnit-p_dispatch"|go "StorageUnit-p_store"|go "Line-s"|go "Transformer-s"|go "Link-p"]).
  - apply in_flat_map in I. destruct I as [a [_ I]]. apply (M _ _ "Link-p" _) in I; [exact I|reflexivity|intros p; cbn; eauto].
  - destruct lo; [|destruct I]. repeat (apply in_app_or in I; destruct I as [I|I]); let go s := solve [apply (M _ _ s _) in I; [exact I|reflexivity|intros a; cbn; eauto]] in first [go "Line-loss"|go "Transformer-loss"].
Qed.
Lemma balances_rel n : orel (balances n) (balances (scaled_net k m n)).
Proof.
  unfold balances. change (lossy (scaled_net k m n)) with (lossy n). cbn [scaled_net buses nsnaps].
  assert (ENT : forall t, BalanceModel.entries (b_net (scaled_net k m n)) (lossy n) t = BalanceModel.entries (b_net n) (lossy n) t).
  { intros t. unfold BalanceModel.entries, b_net. cbn [BalanceModel.gens BalanceModel.stores BalanceModel.units BalanceModel.lines BalanceModel.trafos BalanceModel.links]. rewrite !of_scaled, !map_map. reflexivity. }
  assert (LHS : forall b t, BalanceModel.balance_lhs (b_net (scaled_net k m n)) (lossy n) b t = BalanceModel.balance_lhs (b_net n) (lossy n) b t) by (intros; unfold BalanceModel.balance_lhs; now rewrite ENT).
  assert (RHS : forall b t, BalanceModel.balance_rhs (b_net (scaled_net k m n)) b t == k * BalanceModel.balance_rhs (b_net n) b t).
  { intros b t. unfold BalanceModel.balance_rhs. cbn [b_net BalanceModel.loads scaled_net loads]. induction (loads n) as [|d L IH]; [cbn [map filter fold_right]; ring|]. cbn [map filter].
    change (BalanceModel.d_active (scaled_load k d)) with (BalanceModel.d_active d). change (BalanceModel.d_bus (scaled_load k d)) with (BalanceModel.d_bus d).
    destruct (BalanceModel.d_active d && _); [|exact IH]. cbn [map fold_right]. rewrite IH. change (BalanceModel.d_p (scaled_load k d) t) with (k * BalanceModel.d_p d t). change (BalanceModel.d_sign (scaled_load k d)) with (BalanceModel.d_sign d). ring. }
  unfold BalanceModel.balance.
  assert (NT : BalanceModel.no_terms (b_net (scaled_net k m n)) (lossy n) (buses n) = BalanceModel.no_terms (b_net n) (lossy n) (buses n)) by (unfold BalanceModel.no_terms; now rewrite ENT).
  assert (X : forall A (f g : A -> bool) L, (forall a, f a = g a) -> existsb f L = existsb g L) by (intros A f g L H; induction L as [|a L IH]; [reflexivity|]; cbn [existsb]; now rewrite H, IH).
  assert (ED : BalanceModel.empty_demand (b_net (scaled_net k m n)) (lossy n) (buses n) (nsnaps n) = BalanceModel.empty_demand (b_net n) (lossy n) (buses n) (nsnaps n)).
  { unfold BalanceModel.empty_demand. apply X. intros t. apply X. intros b. rewrite LHS. assert (Z : Qeq_bool (BalanceModel.balance_rhs (b_net (scaled_net k m n)) b t) 0 = Qeq_bool (BalanceModel.balance_rhs (b_net n) b t) 0); [|now rewrite Z].
    rewrite <- (zero_kept k (BalanceModel.balance_rhs (b_net n) b t) kpos). apply eq_true_iff_eq. rewrite !Qeq_bool_iff, RHS. tauto. }
  rewrite NT, ED. destruct (_ || _); [exact Logic.I|]. cbn [orel]. unfold add_constraints. apply F2_flat. intros t _. apply F2_flat. intros b _. rewrite LHS. destruct (BalanceModel.is_empty _); cbn [negb]; constructor; [|constructor].
  apply (row k); [exact kpos|apply RHS|]. apply lrel_same. intros q v I. unfold BalanceModel.balance_lhs in I. apply in_map_iff in I. destruct I as [[e [q' o]] [E I]]. cbn [snd] in E. injection E as -> ->. apply filter_In in I. eapply entries_units. apply I.
Qed.

(* storage *)
Lemma ffill_array s f t : (forall t, array s (f t)) -> array s (StorageModel.ffill f t).
Proof. intros H. induction t as [|t IH]; cbn [StorageModel.ffill]; destruct (f _) as [w|] eqn:E; try discriminate; try exact IH; rewrite <- E; apply H. Qed.
Lemma prev_array T s a t : array s (StorageModel.prev_label T None s a t).
Proof.
  unfold StorageModel.prev_label, StorageModel.previous, StorageModel.where_. destruct (StorageModel.include_previous a t); [|discriminate]. apply ffill_array. clear t. intros t.
  assert (H : forall t, array s (StorageModel.ffill (fun t0 => if StorageModel.s_active a t0 then StorageModel.level s a t0 else None) t)).
  { intros t0. apply ffill_array. intros t1. destruct (StorageModel.s_active a t1); [|discriminate]. apply array_if. }
  destruct t as [|t]; apply H.
Qed.
Lemma energy_rel T s a fl fl' inf inf' : un s = k -> (forall t, lrel k (fl t) (fl' t)) -> (forall t, inf' t == k * inf t) ->
  Forall2 rel (StorageModel.energy_balance T None s (s_view a) fl inf) (StorageModel.energy_balance T None s (s_view (sc a)) fl' inf').
Proof.
  intros U F G. unfold StorageModel.energy_balance. apply add_rel1; [reflexivity|]. intros t _ _. apply (row k); [exact kpos| |].
  - rewrite G. change (StorageModel.included None (s_view (sc a)) t) with (StorageModel.included None (s_view a) t). change (StorageModel.s_init (s_view (sc a))) with (k * init a). change (StorageModel.s_init (s_view a)) with (init a). destruct (StorageModel.included None (s_view a) t); ring.
  - constructor; [apply (term_of k _ _ (StorageModel.level s (s_view a) t) s k); [apply array_if|now rewrite U|ring]|]. apply F2_app; [apply F|]. constructor; [|constructor].
    apply (term_of k _ _ (StorageModel.prev_label T None s (s_view a) t) s k); [apply prev_array|now rewrite U|]. change (StorageModel.s_stand (s_view (sc a)) t) with (StorageModel.s_stand (s_view a) t). ring.
Qed.
Lemma storage_units_rel n : Forall2 rel (storage_units n) (storage_units (scaled_net k m n)).
Proof.
  unfold storage_units. rewrite of_scaled, flat_map_map. cbn [scaled_net nsnaps]. apply F2_flat. intros a _. unfold StorageModel.unit_balance. apply energy_rel; [reflexivity| |].
  - intros t. unfold StorageModel.unit_flows. change (StorageModel.eff_dispatch (unit_data (scaled_net k m n) (sc a)) t) with (eff_dispatch a t). change (StorageModel.eff_dispatch (unit_data n a) t) with (eff_dispatch a t).
    change (StorageModel.eh (unit_data (scaled_net k m n) (sc a)) t) with (w_sto n t). change (StorageModel.eh (unit_data n a) t) with (w_sto n t).
    change (StorageModel.eff_store (unit_data (scaled_net k m n) (sc a)) t) with (eff_store a t). change (StorageModel.eff_store (unit_data n a) t) with (eff_store a t).
    assert (SP : StorageModel.spill_label (s_view (sc a)) (unit_data (scaled_net k m n) (sc a)) t = StorageModel.spill_label (s_view a) (unit_data n a) t).
    { unfold StorageModel.spill_label. change (StorageModel.inflow (unit_data (scaled_net k m n) (sc a)) t) with (k * inflow a t). change (StorageModel.inflow (unit_data n a) t) with (inflow a t). rewrite mod_kept. reflexivity. }
    rewrite SP. constructor; [|constructor; [|constructor; [|constructor]]].
    + apply (term_of k _ _ (StorageModel.var_of (s_view a) "StorageUnit-p_dispatch" t) "StorageUnit-p_dispatch" k); [apply array_if|reflexivity|ring].
    + apply (term_of k _ _ (StorageModel.var_of (s_view a) "StorageUnit-p_store" t) "StorageUnit-p_store" k); [apply array_if|reflexivity|ring].
    + apply (term_of k _ _ _ "StorageUnit-spill" k); [|reflexivity|ring]. unfold StorageModel.spill_label. destruct (negb _); [apply array_if|discriminate].
  - intros t. change (StorageModel.inflow (unit_data (scaled_net k m n) (sc a)) t) with (k * inflow a t). change (StorageModel.eh (unit_data (scaled_net k m n) (sc a)) t) with (w_sto n t). change (StorageModel.inflow (unit_data n a) t) with (inflow a t). change (StorageModel.eh (unit_data n a) t) with (w_sto n t). ring.
Qed.
Lemma stores_rel n : Forall2 rel (stores n) (stores (scaled_net k m n)).
Proof.
  unfold stores. rewrite of_scaled, flat_map_map. cbn [scaled_net nsnaps w_sto]. apply F2_flat. intros a _. unfold StorageModel.store_balance. apply energy_rel; [reflexivity| |intros t; ring].
  intros t. constructor; [|constructor]. apply (term_of k _ _ (StorageModel.var_of (s_view a) "Store-p" t) "Store-p" k); [apply array_if|reflexivity|ring].
Qed.
Lemma supplies_rel n : Forall2 rel (supplies n) (supplies (scaled_net k m n)).
Proof.
  unfold supplies, CapModel.total_supply. rewrite of_scaled. cbn [scaled_net nsnaps w_gen]. rewrite !flat_map_map.
  assert (T : forall a, lrel k (CapModel.supply_terms (w_gen n) (seq 0 (nsnaps n)) (sup_view a)) (CapModel.supply_terms (w_gen n) (seq 0 (nsnaps n)) (sup_view (sc a)))).
  { intros a. unfold CapModel.supply_terms. apply F2_map. intros t _. apply (term_of k _ _ (if CapModel.u_active (sup_view a) t then Some ("Generator-p", t, CapModel.u_name (sup_view a)) else None) "Generator-p" k); [apply array_if|reflexivity|ring]. }
  apply F2_app; apply F2_flat; intros a _.
  - change (CapModel.u_min (sup_view (sc a))) with (times_opt k (e_min a)). change (CapModel.u_min (sup_view a)) with (e_min a). destruct (e_min a) as [q|]; cbn [times_opt option_map]; constructor; [|constructor]. apply (row k); [exact kpos|reflexivity|apply T].
  - change (CapModel.u_max (sup_view (sc a))) with (times_opt k (e_max a)). change (CapModel.u_max (sup_view a)) with (e_max a). destruct (e_max a) as [q|]; cbn [times_opt option_map]; constructor; [|constructor]. apply (row k); [exact kpos|reflexivity|apply T].
Qed.

(* losses *)
Lemma losses_rel n c : un (c ++ "-s") = k -> un (c ++ "-loss") = k -> orel (losses n c) (losses (scaled_net k m n) c).
Proof.
  intros U1 U2. unfold losses. change (lossy (scaled_net k m n)) with (lossy n). destruct (lossy n); [|constructor]. rewrite of_scaled. cbn [scaled_net tangents nsnaps]. set (l := of_class n c).
  unfold LossModel.loss_constraints.
  assert (LV : forall a, LossModel.limit_value (lo_view (sc a)) == k * LossModel.limit_value (lo_view a)).
  { intros a. unfold LossModel.limit_value, LossModel.limit. change (LossModel.b_ext (lo_view (sc a))) with (ext a). change (LossModel.b_ext (lo_view a)) with (ext a). change (LossModel.b_nom_max (lo_view (sc a))) with (times_opt k (nom_max a)). change (LossModel.b_nom_max (lo_view a)) with (nom_max a).
    change (LossModel.b_nom (lo_view (sc a))) with (Some (k * nom a)). change (LossModel.b_nom (lo_view a)) with (Some (nom a)). destruct (ext a); [destruct (nom_max a); cbn [times_opt option_map]|]; ring. }
  assert (FB : forall L, forallb (fun b => match LossModel.limit b with Some _ => true | None => false end) (map lo_view (map sc L)) = forallb (fun b => match LossModel.limit b with Some _ => true | None => false end) (map lo_view L)).
  { induction L as [|a L IH]; [reflexivity|]. cbn [map forallb]. rewrite IH. f_equal. unfold LossModel.limit. change (LossModel.b_ext (lo_view (sc a))) with (ext a). change (LossModel.b_ext (lo_view a)) with (ext a). change (LossModel.b_nom_max (lo_view (sc a))) with (times_opt k (nom_max a)). change (LossModel.b_nom_max (lo_view a)) with (nom_max a). destruct (ext a); [destruct (nom_max a)|]; reflexivity. }
  assert (LO : forall q q' a t, q' == q -> trel k (q, LossModel.loss c (lo_view a) t) (q', LossModel.loss c (lo_view (sc a)) t)) by (intros q q' a t E; apply (term_of k q q' (LossModel.loss c (lo_view a) t) (c ++ "-loss") k); [apply array_if|now rewrite U2|rewrite E; ring]).
  assert (FL : forall q q' a t, q' == q -> trel k (q, LossModel.flow c (lo_view a) t) (q', LossModel.flow c (lo_view (sc a)) t)) by (intros q q' a t E; apply (term_of k q q' (LossModel.flow c (lo_view a) t) (c ++ "-s") k); [apply array_if|now rewrite U1|rewrite E; ring]).
  assert (MAIN : orel (if forallb (fun b => match LossModel.limit b with Some _ => true | None => false end) (map lo_view l) then Some (LossModel.upper c (nsnaps n) (map lo_view l) ++ flat_map (fun j => flat_map (fun s => LossModel.tangent c (tangents n) (nsnaps n) j s (map lo_view l)) [-(1); 1]) (seq 1 (tangents n))) else None)
    (if forallb (fun b => match LossModel.limit b with Some _ => true | None => false end) (map lo_view (map sc l)) then Some (LossModel.upper c (nsnaps n) (map lo_view (map sc l)) ++ flat_map (fun j => flat_map (fun s => LossModel.tangent c (tangents n) (nsnaps n) j s (map lo_view (map sc l))) [-(1); 1]) (seq 1 (tangents n))) else None)).
  { rewrite FB. destruct (forallb _ _); [|exact Logic.I]. cbn [orel]. apply F2_app.
    - unfold LossModel.upper. apply add_rel0; [reflexivity|]. intros t a _ _. apply (row k); [exact kpos| |constructor; [now apply LO|constructor]]. unfold LossModel.upper_limit. rewrite LV.
      change (LossModel.b_r (lo_view (sc a))) with (/ k * r_eff a). change (LossModel.b_r (lo_view a)) with (r_eff a). change (LossModel.b_max_pu (lo_view (sc a)) t) with (LossModel.b_max_pu (lo_view a) t). field. exact knz.
    - apply F2_flat. intros j _. apply F2_flat. intros s _. unfold LossModel.tangent. apply add_rel0; [reflexivity|]. intros t a _ _.
      assert (PK : LossModel.p_k (tangents n) j (lo_view (sc a)) t == k * LossModel.p_k (tangents n) j (lo_view a) t) by (unfold LossModel.p_k; rewrite LV; change (LossModel.b_max_pu (lo_view (sc a)) t) with (LossModel.b_max_pu (lo_view a) t); unfold Qdiv; ring).
      apply (row k); [exact kpos| |constructor; [now apply LO|constructor; [|constructor]]].
      + unfold LossModel.offset_k, LossModel.loss_k, LossModel.slope_k. rewrite PK. change (LossModel.b_r (lo_view (sc a))) with (/ k * r_eff a). change (LossModel.b_r (lo_view a)) with (r_eff a). field. exact knz.
      + apply FL. unfold LossModel.slope_k. rewrite PK. change (LossModel.b_r (lo_view (sc a))) with (/ k * r_eff a). change (LossModel.b_r (lo_view a)) with (r_eff a). field. exact knz. }
  destruct l as [|a l]; [constructor|exact MAIN].
Qed.

(* global limits *)
Lemma fold_final lev a sel acc : array lev acc -> array lev (fold_left (fun acc t => match StorageModel.level lev a t with Some v => Some v | None => acc end) sel acc).
Proof.
  revert acc. induction sel as [|t sel IH]; intros acc A; [exact A|]. cbn [fold_left]. apply IH. destruct (StorageModel.level lev a t) as [v|] eqn:E; [|exact A]. rewrite <- E. apply array_if.
Qed.
Lemma nonempty_map {A B} (f : A -> B) l : LimitModel.nonempty (map f l) = LimitModel.nonempty l.
Proof. destruct l; reflexivity. Qed.
Lemma limit_rel n attr attr' em em' coef f g g' sel : 0 < f ->
  (forall c, em' c = None <-> em c = None) -> (forall c, LimitModel.em_of em' c * k == f * LimitModel.em_of em c) ->
  LimitModel.sense_of g' = LimitModel.sense_of g -> LimitModel.constant g' == f * LimitModel.constant g ->
  orel (rows_of (LimitModel.limit_con (lim_net n attr) em coef g sel)) (rows_of (LimitModel.limit_con (lim_net (scaled_net k m n) attr') em' coef g' sel)).
Proof.
  intros F N E S C. assert (CN : forall c, LimitModel.concerned em' c = LimitModel.concerned em c).
  { intros c. unfold LimitModel.concerned. specialize (N c). destruct (em c), (em' c); try reflexivity; exfalso; [assert (X : Some q = None) by (apply N; reflexivity)|assert (X : Some q = None) by (apply N; reflexivity)]; discriminate X. }
  assert (FE : forall A (p q : A -> bool) L, (forall a, p a = q a) -> filter p L = filter q L) by (intros A p q L H; apply filter_ext; exact H).
  assert (G : LimitModel.my_gens (lim_net (scaled_net k m n) attr') em' = LimitModel.my_gens (lim_net n attr) em).
  { unfold LimitModel.my_gens. cbn [lim_net LimitModel.gens]. rewrite of_scaled, map_map. apply FE. intros a. apply CN. }
  assert (ST : forall c, exists L, filter (fun s => LimitModel.concerned em (LimitModel.st_carrier s) && negb (StorageModel.s_cyclic (LimitModel.st_of s))) (map st_view (of_class n c)) = map st_view L /\
    filter (fun s => LimitModel.concerned em' (LimitModel.st_carrier s) && negb (StorageModel.s_cyclic (LimitModel.st_of s))) (map st_view (of_class (scaled_net k m n) c)) = map (fun a => st_view (sc a)) L).
  { intros c. exists (filter (fun a => LimitModel.concerned em (carrier a) && negb (cyclic a)) (of_class n c)). rewrite of_scaled, map_map, !filter_map. split; [reflexivity|]. f_equal. apply FE. intros a. cbn. now rewrite CN. }
  destruct (ST "StorageUnit") as [LU [U1 U2]], (ST "Store") as [LS [S1 S2]].
  unfold LimitModel.limit_con. rewrite G. unfold LimitModel.my_units, LimitModel.my_stores. cbn [lim_net LimitModel.units LimitModel.stores]. rewrite U1, U2, S1, S2, !nonempty_map.
  destruct (_ || _); [|constructor]. cbn [rows_of orel]. constructor; [|constructor]. rewrite S. apply (row f); [exact F| |].
  - assert (IN : forall L, LimitModel.initial_of em' (map (fun a => st_view (sc a)) L) == f * LimitModel.initial_of em (map st_view L)).
    { unfold LimitModel.initial_of. induction L as [|a L IH]; [cbn [map fold_right]; ring|]. cbn [map fold_right]. rewrite IH. change (LimitModel.st_carrier (st_view (sc a))) with (carrier a). change (LimitModel.st_carrier (st_view a)) with (carrier a).
      change (StorageModel.s_init (LimitModel.st_of (st_view (sc a)))) with (k * init a). change (StorageModel.s_init (LimitModel.st_of (st_view a))) with (init a).
      setoid_replace (LimitModel.em_of em' (carrier a) * (k * init a)) with (LimitModel.em_of em' (carrier a) * k * init a) by ring. rewrite E. ring. }
    rewrite !IN, C. ring.
  - apply F2_app; [|apply F2_app].
    + unfold LimitModel.gen_terms. rewrite G. apply F2_flat. intros a _. apply F2_map. intros t _. apply (term_of f _ _ _ "Generator-p" k); [apply array_if|reflexivity|].
      setoid_replace (LimitModel.em_of em' (LimitModel.g_carrier a) * coef a t * k) with (LimitModel.em_of em' (LimitModel.g_carrier a) * k * coef a t) by ring. rewrite E. ring.
    + unfold LimitModel.sto_terms. rewrite !map_map. apply F2_map. intros a _. apply (term_of f _ _ (LimitModel.final_label "StorageUnit-state_of_charge" (LimitModel.st_of (st_view a)) sel) "StorageUnit-state_of_charge" k); [apply fold_final; discriminate|reflexivity|].
      change (LimitModel.st_carrier (st_view (sc a))) with (carrier a). change (LimitModel.st_carrier (st_view a)) with (carrier a). setoid_replace (- LimitModel.em_of em' (carrier a) * k) with (- (LimitModel.em_of em' (carrier a) * k)) by ring. rewrite E. ring.
    + unfold LimitModel.sto_terms. rewrite !map_map. apply F2_map. intros a _. apply (term_of f _ _ (LimitModel.final_label "Store-e" (LimitModel.st_of (st_view a)) sel) "Store-e" k); [apply fold_final; discriminate|reflexivity|].
      change (LimitModel.st_carrier (st_view (sc a))) with (carrier a). change (LimitModel.st_carrier (st_view a)) with (carrier a). setoid_replace (- LimitModel.em_of em' (carrier a) * k) with (- (LimitModel.em_of em' (carrier a) * k)) by ring. rewrite E. ring.
Qed.
Lemma ikpos : 0 < / k. Proof. apply Qinv_lt_0_compat. exact kpos. Qed.
Lemma emissions_scaled n attr : LimitModel.emissions (lim_net (scaled_net k m n) attr) = map (fun e => (fst e, / k * snd e)) (LimitModel.emissions (lim_net n attr)).
Proof.
  unfold LimitModel.emissions. cbn [lim_net LimitModel.carriers scaled_net emission]. rewrite filter_map. f_equal. apply filter_ext. intros e. cbn [snd]. rewrite zero_kept by apply ikpos. reflexivity.
Qed.
Lemma lookup_scaled L c : LimitModel.lookup (map (fun e => (fst e, / k * snd e)) L) c = option_map (Qmult (/ k)) (LimitModel.lookup L c).
Proof. unfold LimitModel.lookup. induction L as [|e L IH]; [reflexivity|]. cbn [map find fst]. destruct (String.eqb (fst e) c); [reflexivity|exact IH]. Qed.

(* capacities of branches and at buses *)
Notation kv := k_view.
Lemma k_filter (p : CapModel.asset -> bool) L : (forall a, p (kv (sc a)) = p (kv a)) -> filter p (map (fun a => kv (sc a)) L) = map (fun a => kv (sc a)) (filter (fun a => p (kv a)) L).
Proof. intros H. rewrite filter_map. f_equal. apply filter_ext. exact H. Qed.
Lemma transmission_rel n g g' present coef coef' f : 0 < f -> CapModel.t_carriers g' = CapModel.t_carriers g -> CapModel.t_sense g' = CapModel.t_sense g -> CapModel.t_period g = None -> CapModel.t_period g' = None -> CapModel.t_const g' == f * CapModel.t_const g ->
  (forall a, coef' (kv (sc a)) * k == f * coef (kv a)) ->
  orel (rows (CapModel.transmission (k_net n) g present coef)) (rows (CapModel.transmission (k_net (scaled_net k m n)) g' present coef')).
Proof.
  intros F E1 E2 P P' C CO. unfold CapModel.transmission. destruct (existsb _ CapModel.branches); [|constructor]. rewrite P, P'. cbn [CapModel.bad_period rows orel]. constructor; [|constructor]. rewrite E2. apply (row f); [exact F|exact C|].
  apply F2_flat. intros ca I. destruct (present (fst ca)); [|constructor]. unfold CapModel.t_terms. rewrite P, P'. unfold CapModel.t_named, CapModel.ext_i, CapModel.cls. cbn [k_net CapModel.assets scaled_net assets]. rewrite E1, map_map.
  rewrite !k_filter by reflexivity. rewrite !filter_map, !map_map. apply F2_map. intros a _.
  assert (U : un (fst ca ++ "-" ++ snd ca) = k) by (unfold CapModel.branches in I; cbn [In] in I; destruct I as [<-|[<-|[]]]; reflexivity).
  apply (term_of f _ _ (CapModel.nom_label (fst ca) (snd ca) (kv a)) (fst ca ++ "-" ++ snd ca) k); [apply array_some|now rewrite U|apply CO].
Qed.
Lemma limit_rows_rel n l : orel (limit_rows n l) (limit_rows (scaled_net k m n) (scaled_limit k m l)).
Proof.
  destruct l as [attr s q|c s q|cs s q|cs s q]; cbn [limit_rows scaled_limit].
  - unfold LimitModel.primary_energy. cbn [LimitModel.selected LimitModel.inv_period lim_net LimitModel.nsnaps scaled_net nsnaps]. fold (lim_net n attr). 
    rewrite emissions_scaled. rewrite nonempty_map. destruct (LimitModel.nonempty (LimitModel.emissions (lim_net n attr))); [|constructor].
    apply (limit_rel n attr attr _ _ _ 1); [reflexivity| | |reflexivity|cbn [LimitModel.constant]; ring].
    + intros c. rewrite lookup_scaled. destruct (LimitModel.lookup _ c); cbn [option_map]; split; congruence.
    + intros c. unfold LimitModel.em_of. rewrite lookup_scaled. destruct (LimitModel.lookup _ c); cbn [option_map]; [field; exact knz|ring].
  - unfold LimitModel.operational_limit. cbn [LimitModel.selected LimitModel.inv_period lim_net LimitModel.nsnaps scaled_net nsnaps LimitModel.carrier_attr]. fold (lim_net n c).
    apply (limit_rel n c c _ _ _ k); [exact kpos|tauto|intros d; ring|reflexivity|reflexivity].
  - unfold CapModel.volume_limit. set (g := {| CapModel.t_carriers := cs; CapModel.t_sense := s; CapModel.t_period := None; CapModel.t_const := q |}). set (g' := {| CapModel.t_carriers := cs; CapModel.t_sense := s; CapModel.t_period := None; CapModel.t_const := k * q |}).
    assert (E : forall c, CapModel.nonempty (CapModel.t_named (k_net (scaled_net k m n)) g' c) = CapModel.nonempty (CapModel.t_named (k_net n) g c)).
    { intros c. unfold CapModel.t_named, CapModel.ext_i, CapModel.cls. cbn [k_net CapModel.assets scaled_net assets]. rewrite map_map. rewrite !k_filter by reflexivity. rewrite !filter_map. destruct (filter _ _); reflexivity. }
    assert (X : CapModel.transmission (k_net (scaled_net k m n)) g' (fun c => CapModel.nonempty (CapModel.t_named (k_net (scaled_net k m n)) g' c)) CapModel.k_length = CapModel.transmission (k_net (scaled_net k m n)) g' (fun c => CapModel.nonempty (CapModel.t_named (k_net n) g c)) CapModel.k_length).
    { unfold CapModel.transmission, CapModel.branches. cbn [existsb flat_map fst]. rewrite !E. reflexivity. }
    rewrite X. apply (transmission_rel n g g' _ _ _ k); try reflexivity; [exact kpos|]. intros a. change (CapModel.k_length (kv (sc a))) with (len a). change (CapModel.k_length (kv a)) with (len a). ring.
  - unfold CapModel.cost_limit. set (g := {| CapModel.t_carriers := cs; CapModel.t_sense := s; CapModel.t_period := None; CapModel.t_const := q |}). set (g' := {| CapModel.t_carriers := cs; CapModel.t_sense := s; CapModel.t_period := None; CapModel.t_const := m * q |}).
    assert (E : forall c, CapModel.nonempty (CapModel.ext_i (k_net (scaled_net k m n)) c) = CapModel.nonempty (CapModel.ext_i (k_net n) c)).
    { intros c. unfold CapModel.ext_i, CapModel.cls. cbn [k_net CapModel.assets scaled_net assets]. rewrite map_map. rewrite !k_filter by reflexivity. rewrite !filter_map. destruct (filter _ _); reflexivity. }
    cbn [k_net CapModel.multi CapModel.invest]. rewrite !andb_false_r. cbn [andb]. rewrite ?andb_false_r. fold (k_net n). fold (k_net (scaled_net k m n)).
    assert (X : CapModel.transmission (k_net (scaled_net k m n)) g' (fun c => CapModel.nonempty (CapModel.ext_i (k_net (scaled_net k m n)) c)) (fun a => CapModel.k_capital a * CapModel.cost_weight (k_net (scaled_net k m n)) (CapModel.t_period g') a) = CapModel.transmission (k_net (scaled_net k m n)) g' (fun c => CapModel.nonempty (CapModel.ext_i (k_net n) c)) (fun a => CapModel.k_capital a * CapModel.cost_weight (k_net (scaled_net k m n)) (CapModel.t_period g') a)).
    { unfold CapModel.transmission, CapModel.branches. cbn [existsb flat_map fst]. rewrite !E. reflexivity. }
    rewrite X. apply (transmission_rel n g g' _ _ _ m); try reflexivity; [exact mpos|]. intros a. change (CapModel.k_capital (kv (sc a))) with (m / k * capital a). change (CapModel.k_capital (kv a)) with (capital a). unfold CapModel.cost_weight. cbn. field. exact knz.
Qed.
Lemma column_rows_rel n col : orel (column_rows n col) (column_rows (scaled_net k m n) (scaled_column k col)).
Proof.
  unfold column_rows, CapModel.bus_column. cbn [scaled_net carriers buses scaled_column CapModel.col_name CapModel.col_val].
  assert (P : CapModel.parse (k_net (scaled_net k m n)) (carriers n) false (fun _ => None) (CapModel.col_name col) = CapModel.parse (k_net n) (carriers n) false (fun _ => None) (CapModel.col_name col)) by reflexivity.
  rewrite P. destruct (CapModel.parse _ _ _ _ _) as [s c p| |]; [|constructor|exact Logic.I]. cbn [orel].
  assert (TA : forall q, exists L, CapModel.tech_assets (k_net n) c p q = map kv L /\ CapModel.tech_assets (k_net (scaled_net k m n)) c p q = map (fun a => kv (sc a)) L).
  { intros q. unfold CapModel.tech_assets, CapModel.ext_i, CapModel.cls. cbn [k_net CapModel.assets scaled_net assets]. rewrite map_map. rewrite !k_filter by reflexivity. rewrite !filter_map. eexists. split; reflexivity. }
  assert (AN : CapModel.bus_any (k_net (scaled_net k m n)) c p = CapModel.bus_any (k_net n) c p).
  { unfold CapModel.bus_any, CapModel.nominal. cbn [existsb fst]. assert (Z : forall q, CapModel.nonempty (CapModel.tech_assets (k_net (scaled_net k m n)) c p q) = CapModel.nonempty (CapModel.tech_assets (k_net n) c p q)) by (intros q; destruct (TA q) as [L [-> ->]]; destruct L; reflexivity). rewrite !Z. reflexivity. }
  rewrite AN. clear AN. destruct (CapModel.bus_any (k_net n) c p); [|constructor]. apply F2_flat. intros b _. destruct (CapModel.col_val col b) as [q|]; cbn [times_opt option_map]; constructor; [|constructor].
  apply (row k); [exact kpos|reflexivity|]. unfold CapModel.bus_terms. apply F2_flat. intros ca I. change (CapModel.has_carrier (k_net (scaled_net k m n))) with (CapModel.has_carrier (k_net n)). destruct (_ && _); [|constructor].
  destruct (TA (fst ca)) as [L [-> ->]]. rewrite k_filter by reflexivity. rewrite filter_map, !map_map. apply F2_map. intros a _.
  assert (U : un (fst ca ++ "-" ++ snd ca) = k) by (unfold CapModel.nominal in I; cbn [In] in I; destruct I as [<-|[<-|[<-|[<-|[<-|[<-|[]]]]]]]; reflexivity).
  apply (term_of k _ _ (CapModel.nom_label (fst ca) (snd ca) (kv a)) (fst ca ++ "-" ++ snd ca) k); [apply array_some|now rewrite U|ring].
Qed.

(* the whole problem, Kirchhoff's voltage law aside *)
Lemma orel_collect l l' : Forall2 orel l l' -> orel (collect l) (collect l').
Proof.
  intros H. induction H as [|o o' l l' R H IH]; [constructor|]. cbn [collect]. destruct o as [a|], o' as [b|]; cbn [orel] in R; try tauto.
  destruct (collect l) as [r|], (collect l') as [r'|]; cbn [option_map orel] in *; try tauto. now apply F2_app.
Qed.

Definition before (n : net) : list (option (list con)) := [Some (capacity n); Some (operation n); balances n].
Definition behind (n : net) : list (option (list con)) :=
  [Some (storage_units n); Some (stores n); Some (supplies n); losses n "Line"; losses n "Transformer"] ++ map (limit_rows n) (limits n) ++ map (column_rows n) (columns n).
Lemma collect_mid A K B : collect (A ++ Some K :: B) = match collect A, collect B with Some a, Some b => Some (a ++ K ++ b) | _, _ => None end.
Proof.
  induction A as [|[a|] A IH]; cbn [app collect]; [|rewrite IH; destruct (collect A), (collect B); cbn [option_map]; rewrite ?app_assoc; reflexivity|reflexivity]. destruct (collect B); reflexivity.
Qed.
Lemma created kvl n : create_model kvl n = match collect (before n), collect (behind n) with Some a, Some b => Some (a ++ kvl (filter passive (assets n)) ++ b) | _, _ => None end.
Proof. unfold create_model. rewrite <- collect_mid. reflexivity. Qed.
Lemma before_rel n : orel (collect (before n)) (collect (before (scaled_net k m n))).
Proof.
  apply orel_collect. unfold before. constructor; [|constructor; [|constructor; [|constructor]]].
  - cbn [orel]. unfold capacity. apply F2_flat. intros ca I. apply capacity_rel; unfold nominal_attrs in I; cbn [In] in I; destruct I as [<-|[<-|[<-|[<-|[<-|[<-|[]]]]]]]; reflexivity.
  - cbn [orel]. apply operation_rel.
  - apply balances_rel.
Qed.
Lemma behind_rel n : orel (collect (behind n)) (collect (behind (scaled_net k m n))).
Proof.
  apply orel_collect. unfold behind. apply F2_app; [|apply F2_app].
  - constructor; [apply storage_units_rel|]. constructor; [apply stores_rel|]. constructor; [apply supplies_rel|]. constructor; [now apply losses_rel|]. constructor; [now apply losses_rel|]. constructor.
  - cbn [scaled_net limits]. rewrite map_map. apply F2_map. intros l _. apply limit_rows_rel.
  - cbn [scaled_net columns]. rewrite map_map. apply F2_map. intros l _. apply column_rows_rel.
Qed.
Lemma problem_app a b : problem (a ++ b) = problem a ++ problem b.
Proof. unfold problem. apply filter_app. Qed.
Lemma rows_scaled kvl n x : kvl_homogeneous k m kvl ->
  ((exists cs, create_model kvl n = Some cs /\ sat x (problem cs)) <-> (exists cs, create_model kvl (scaled_net k m n) = Some cs /\ sat (rs x) (problem cs))).
Proof.
  intros H. rewrite !created. pose proof (before_rel n) as B. pose proof (behind_rel n) as E. cbn [scaled_net assets].
  assert (PF : filter passive (map sc (assets n)) = map sc (filter passive (assets n))) by (rewrite filter_map; reflexivity). rewrite PF. specialize (H (filter passive (assets n)) x).
  destruct (collect (before n)) as [a|], (collect (before (scaled_net k m n))) as [a'|]; cbn [orel] in B; try tauto; [|split; intros [cs [X _]]; discriminate X].
  destruct (collect (behind n)) as [b|], (collect (behind (scaled_net k m n))) as [b'|]; cbn [orel] in E; try tauto; [|split; intros [cs [X _]]; discriminate X].
  pose proof (rel_sat x _ _ B) as R1. pose proof (rel_sat x _ _ E) as R2.
  split; intros [cs [X S]]; injection X as <-; eexists; (split; [reflexivity|]); rewrite !problem_app in *; rewrite !sat_app in *; tauto.
Qed.

(* bounds of variables *)
Lemma rs_val x l s u : array s l -> un s == u -> val (rs x) l == u * val x l.
Proof. intros A U. destruct l as [v|]; cbn [val]; [|ring]. unfold rescale. rewrite (A v eq_refl), U. reflexivity. Qed.
Lemma has_uc_known a : com a = true -> un (cls a ++ "-status") == 1 /\ un (cls a ++ "-start_up") == 1 /\ un (cls a ++ "-shut_down") == 1.
Proof. unfold com, has_uc. intros E. apply andb_prop in E. destruct E as [_ E]. apply orb_prop in E. destruct E as [E|E]; apply String.eqb_eq in E; rewrite E; repeat split; reflexivity. Qed.
Lemma passive_known a : passive a = true -> un (cls a ++ "-loss") == k.
Proof. unfold passive. intros E. apply orb_prop in E. destruct E as [E|E]; apply String.eqb_eq in E; rewrite E; reflexivity. Qed.

Lemma const_scaled n : ObjectiveModel.constant (o_net (scaled_net k m n)) == m * ObjectiveModel.constant (o_net n).
Proof.
  unfold ObjectiveModel.constant. generalize ObjectiveModel.nominal. induction l as [|ca L IH]; [cbn [fold_right]; ring|]. cbn [fold_right]. rewrite IH.
  assert (E : fold_right (fun a q' => ObjectiveModel.annual (o_net (scaled_net k m n)) a * ObjectiveModel.a_nom a + q') 0 (ObjectiveModel.ext (o_net (scaled_net k m n)) (fst ca)) == m * fold_right (fun a q' => ObjectiveModel.annual (o_net n) a * ObjectiveModel.a_nom a + q') 0 (ObjectiveModel.ext (o_net n) (fst ca))).
  { unfold ObjectiveModel.ext, ObjectiveModel.cls. cbn [o_net ObjectiveModel.assets scaled_net assets]. induction (assets n) as [|a A IA]; [cbn [map filter fold_right]; ring|]. cbn [map filter].
    change (ObjectiveModel.a_class (o_view (sc a))) with (cls a). change (ObjectiveModel.a_class (o_view a)) with (cls a). destruct (String.eqb (cls a) (fst ca)); [|exact IA]. cbn [filter].
    change (ObjectiveModel.a_ext (o_view (sc a))) with (ext a). change (ObjectiveModel.a_ext (o_view a)) with (ext a). destruct (ext a); [|exact IA]. cbn [fold_right]. rewrite IA.
    unfold ObjectiveModel.annual. cbn [o_net ObjectiveModel.multi]. change (ObjectiveModel.a_flag (o_view (sc a))) with (flag a). change (ObjectiveModel.a_flag (o_view a)) with (flag a).
    change (ObjectiveModel.a_capital (o_view (sc a))) with (m / k * capital a). change (ObjectiveModel.a_capital (o_view a)) with (capital a). change (ObjectiveModel.a_nom (o_view (sc a))) with (k * nom a). change (ObjectiveModel.a_nom (o_view a)) with (nom a).
    destruct (flag a); [field; exact knz|ring]. }
  rewrite E. ring.
Qed.
Lemma const_zero n : Qeq_bool (ObjectiveModel.constant (o_net (scaled_net k m n))) 0 = Qeq_bool (ObjectiveModel.constant (o_net n)) 0.
Proof. rewrite <- (zero_kept m (ObjectiveModel.constant (o_net n)) mpos). apply eq_true_iff_eq. rewrite !Qeq_bool_iff, const_scaled. tauto. Qed.
Lemma times_le f a b : 0 < f -> (f * a <= f * b <-> a <= b). Proof. intros. now apply Qmult_le_l. Qed.
Lemma times_eq f a b : 0 < f -> (f * a == f * b <-> a == b). Proof. intros F. apply Qmult_inj_l. intros Z. rewrite Z in F. discriminate. Qed.
Lemma domains_scaled n x : known_classes n -> (domains n x <-> domains (scaled_net k m n) (rs x)).
Proof.
  intros KC. unfold domains. change (lossy (scaled_net k m n)) with (lossy n). cbn [scaled_net assets linear nsnaps].
  assert (MAPS : forall P : asset -> Prop, (forall a, In a (map sc (assets n)) -> P a) <-> (forall a, In a (assets n) -> P (sc a))).
  { intros P. split; intros H a I; [apply H; now apply in_map|]. apply in_map_iff in I. destruct I as [b [<- I]]. auto. }
  assert (D1 : (forall a, In a (assets n) -> ext a = true -> Qle_bool (nom_mod a) 0 = false -> exists z : nat, x ((cls a ++ "-n_mod")%string, O, nm a) == inject_Z (Z.of_nat z)) <->
    (forall a, In a (map sc (assets n)) -> ext a = true -> Qle_bool (nom_mod a) 0 = false -> exists z : nat, rs x ((cls a ++ "-n_mod")%string, O, nm a) == inject_Z (Z.of_nat z))).
  { rewrite MAPS. assert (E : forall a, In a (assets n) -> rs x ((cls (sc a) ++ "-n_mod")%string, O, nm (sc a)) == x ((cls a ++ "-n_mod")%string, O, nm a)).
    { intros a I. change (un (cls a ++ "-n_mod") * x ((cls a ++ "-n_mod")%string, O, nm a) == x ((cls a ++ "-n_mod")%string, O, nm a)). destruct (known_units (cls a) (KC a I)) as [-> _]. ring. }
    split; intros H a I X G.
    - change (nom_mod (sc a)) with (k * nom_mod a) in G. rewrite mod_kept in G. destruct (H a I X G) as [z Z]. exists z. rewrite E by exact I. exact Z.
    - rewrite <- mod_kept in G. destruct (H a I X G) as [z Z]. exists z. rewrite E in Z by exact I. exact Z. }
  assert (UV : forall a v t, com a = true -> un (cls a ++ "-" ++ v) == 1 -> val (rs x) (CommitModel.uvar (cls (sc a)) (u_view (sc a)) v t) == val x (CommitModel.uvar (cls a) (u_view a) v t)).
  { intros a v t C U. change (CommitModel.uvar (cls (sc a)) (u_view (sc a)) v t) with (CommitModel.uvar (cls a) (u_view a) v t). rewrite (rs_val x _ (cls a ++ "-" ++ v) 1); [ring|apply array_if|exact U]. }
  assert (D2 : (forall a, In a (assets n) -> com a = true -> if linear n then CommitModel.relaxed (cls a) (u_view a) (nsnaps n) x else CommitModel.binary (cls a) (u_view a) (nsnaps n) x) <->
    (forall a, In a (map sc (assets n)) -> com a = true -> if linear n then CommitModel.relaxed (cls a) (u_view a) (nsnaps n) (rs x) else CommitModel.binary (cls a) (u_view a) (nsnaps n) (rs x))).
  { rewrite MAPS. assert (E : forall a, com a = true -> ((if linear n then CommitModel.relaxed (cls a) (u_view a) (nsnaps n) x else CommitModel.binary (cls a) (u_view a) (nsnaps n) x) <-> (if linear n then CommitModel.relaxed (cls (sc a)) (u_view (sc a)) (nsnaps n) (rs x) else CommitModel.binary (cls (sc a)) (u_view (sc a)) (nsnaps n) (rs x)))).
    { intros a C. destruct (has_uc_known a C) as [U1 [U2 U3]]. pose proof (fun t => UV a "status" t C U1) as V1. pose proof (fun t => UV a "start_up" t C U2) as V2. pose proof (fun t => UV a "shut_down" t C U3) as V3.
      change (CommitModel.u_active (u_view (sc a))) with (CommitModel.u_active (u_view a)) in *.
      destruct (linear n); unfold CommitModel.relaxed, CommitModel.binary, CommitModel.is_relaxed, CommitModel.is_binary, CommitModel.status, CommitModel.start_up, CommitModel.shut_down;
        (split; intros [H1 [H2 H3]]; (split; [|split]); intros t T O; specialize (H1 t T O); specialize (H2 t T O); specialize (H3 t T O));
        solve [rewrite V1; exact H1|rewrite V2; exact H2|rewrite V3; exact H3|rewrite V1 in H1; exact H1|rewrite V2 in H2; exact H2|rewrite V3 in H3; exact H3]. }
    split; intros H a I C; [apply (proj1 (E a C) (H a I C))|apply (proj2 (E a C) (H a I C))]. }
  assert (D3 : (forall a, In a (assets n) -> cls a = "StorageUnit" -> StorageModel.spill_bounds (nsnaps n) (s_view a) (unit_data n a) x) <->
    (forall a, In a (map sc (assets n)) -> cls a = "StorageUnit" -> StorageModel.spill_bounds (nsnaps n) (s_view a) (unit_data (scaled_net k m n) a) (rs x))).
  { rewrite MAPS. assert (E : forall a, StorageModel.spill_bounds (nsnaps n) (s_view a) (unit_data n a) x <-> StorageModel.spill_bounds (nsnaps n) (s_view (sc a)) (unit_data (scaled_net k m n) (sc a)) (rs x)).
    { intros a. unfold StorageModel.spill_bounds. assert (SP : forall t, StorageModel.spill_label (s_view (sc a)) (unit_data (scaled_net k m n) (sc a)) t = StorageModel.spill_label (s_view a) (unit_data n a) t).
      { intros t. unfold StorageModel.spill_label. change (StorageModel.inflow (unit_data (scaled_net k m n) (sc a)) t) with (k * inflow a t). change (StorageModel.inflow (unit_data n a) t) with (inflow a t). rewrite mod_kept. reflexivity. }
      assert (V : forall t v, StorageModel.spill_label (s_view a) (unit_data n a) t = Some v -> rs x v == k * x v).
      { intros t v L. assert (A : array "StorageUnit-spill" (StorageModel.spill_label (s_view a) (unit_data n a) t)) by (unfold StorageModel.spill_label; destruct (negb _); [apply array_if|discriminate]). unfold rescale. rewrite (A v L). reflexivity. }
      split; intros H t v T L.
      - rewrite SP in L. destruct (H t v T L) as [H1 H2]. rewrite (V t v L). change (StorageModel.inflow (unit_data (scaled_net k m n) (sc a)) t) with (k * inflow a t). change (StorageModel.inflow (unit_data n a) t) with (inflow a t) in H2.
        split; [|now apply times_le]. setoid_replace 0 with (k * 0) by ring. now apply times_le.
      - assert (L' := L). rewrite <- SP in L'. destruct (H t v T L') as [H1 H2]. rewrite (V t v L) in H1, H2. change (StorageModel.inflow (unit_data (scaled_net k m n) (sc a)) t) with (k * inflow a t) in H2. change (StorageModel.inflow (unit_data n a) t) with (inflow a t).
        apply times_le in H2; [|exact kpos]. setoid_replace 0 with (k * 0) in H1 by ring. apply times_le in H1; [|exact kpos]. auto. }
    split; intros H a I C; [apply (proj1 (E a) (H a I C))|apply (proj2 (E a) (H a I C))]. }
  assert (D4 : (forall a t, In a (assets n) -> passive a = true -> lossy n = true -> (t < nsnaps n)%nat -> flag a = true -> 0 <= x ((cls a ++ "-loss")%string, t, nm a)) <->
    (forall a t, In a (map sc (assets n)) -> passive a = true -> lossy n = true -> (t < nsnaps n)%nat -> flag a = true -> 0 <= rs x ((cls a ++ "-loss")%string, t, nm a))).
  { assert (E : forall a t, passive a = true -> rs x ((cls (sc a) ++ "-loss")%string, t, nm (sc a)) == k * x ((cls a ++ "-loss")%string, t, nm a)).
    { intros a t P. unfold rescale. cbn [fst]. change (cls (sc a)) with (cls a). rewrite (passive_known a P). reflexivity. }
    split; intros H a t I P L T F.
    - apply in_map_iff in I. destruct I as [b [<- I]]. rewrite E by exact P. specialize (H b t I P L T F). setoid_replace 0 with (k * 0) by ring. now apply times_le.
    - specialize (H (sc a) t (in_map sc _ _ I) P L T F). rewrite E in H by exact P. setoid_replace 0 with (k * 0) in H by ring. now apply times_le in H. }
  assert (D5 : ObjectiveModel.const_fixed (o_net n) x <-> ObjectiveModel.const_fixed (o_net (scaled_net k m n)) (rs x)).
  { unfold ObjectiveModel.const_fixed. rewrite const_zero. assert (V : val (rs x) ObjectiveModel.const_label == m * val x ObjectiveModel.const_label) by (apply (rs_val x _ "objective_constant"); [apply array_some|reflexivity]).
    split; intros H Z; specialize (H Z).
    - rewrite V, const_scaled. now apply times_eq.
    - rewrite V, const_scaled in H. now apply times_eq in H. }
  rewrite D1, D2, D3, D4, D5. reflexivity.
Qed.
Lemma feasible_scaled kvl n x : kvl_homogeneous k m kvl -> known_classes n -> (feasible kvl n x <-> feasible kvl (scaled_net k m n) (rs x)).
Proof.
  intros H KC. unfold feasible. pose proof (rows_scaled kvl n x H) as R. pose proof (domains_scaled n x KC) as D. split.
  - intros [cs [E [S X]]]. destruct (proj1 R) as [cs' [E' S']]; [eauto|]. exists cs'. tauto.
  - intros [cs [E [S X]]]. destruct (proj2 R) as [cs' [E' S']]; [eauto|]. exists cs'. tauto.
Qed.

(* the objective *)
Definition srel (l l' : lin) : Prop := Forall2 (fun e e' => snd e' = snd e /\ forall v, snd e = Some v -> fst e' * (un (fst (fst v)) * un (fst (fst v))) == m * fst e) l l'.
Definition prel (p p' : ObjectiveModel.piece) : Prop :=
  match p, p' with
  | ObjectiveModel.Linear l, ObjectiveModel.Linear l' => lrel m l l'
  | ObjectiveModel.Square l, ObjectiveModel.Square l' => srel l l'
  | ObjectiveModel.Missing, ObjectiveModel.Missing => True
  | _, _ => False
  end.
Lemma srel_square l l' x : srel l l' -> ObjectiveModel.square (rs x) l' == m * ObjectiveModel.square x l.
Proof.
  intros H. induction H as [|[q v] [q' v'] l l' [E C] H IH]; [cbn [ObjectiveModel.square]; ring|]. cbn [ObjectiveModel.square fst snd] in *. rewrite IH. subst v'. destruct v as [v|]; [|cbn [val]; ring].
  cbn [val]. unfold rescale. specialize (C v eq_refl). setoid_replace (q' * (un (fst (fst v)) * x v * (un (fst (fst v)) * x v))) with (q' * (un (fst (fst v)) * un (fst (fst v))) * (x v * x v)) by ring. rewrite C. ring.
Qed.
Lemma prel_value x ps ps' : Forall2 prel ps ps' -> ObjectiveModel.value_of (rs x) ps' == m * ObjectiveModel.value_of x ps.
Proof.
  intros H. unfold ObjectiveModel.value_of. induction H as [|p p' ps ps' R H IH]; [cbn [fold_right]; ring|]. cbn [fold_right]. rewrite IH.
  assert (E : ObjectiveModel.piece_value (rs x) p' == m * ObjectiveModel.piece_value x p) by (destruct p, p'; cbn [prel] in R; try tauto; cbn [ObjectiveModel.piece_value]; [now apply lrel_eval|now apply srel_square|ring]).
  rewrite E. ring.
Qed.
Notation ov := o_view.
Lemma o_cls n c : ObjectiveModel.cls (o_net (scaled_net k m n)) c = map (fun a => ov (sc a)) (filter (fun a => String.eqb (cls a) c) (assets n)) /\ ObjectiveModel.cls (o_net n) c = map ov (filter (fun a => String.eqb (cls a) c) (assets n)).
Proof. unfold ObjectiveModel.cls. cbn [o_net ObjectiveModel.assets scaled_net assets]. rewrite map_map, !filter_map. split; reflexivity. Qed.
Lemma op_scaled c attr a t : ObjectiveModel.op_label c attr (ov (sc a)) t = ObjectiveModel.op_label c attr (ov a) t.
Proof.
  unfold ObjectiveModel.op_label. cbn zeta. assert (P : ObjectiveModel.positive (ObjectiveModel.a_inflow (ov (sc a)) t) = ObjectiveModel.positive (ObjectiveModel.a_inflow (ov a) t)) by (unfold ObjectiveModel.positive; f_equal; apply mod_kept). rewrite P. reflexivity.
Qed.
Lemma op_array c attr a t : array (c ++ "-" ++ attr) (ObjectiveModel.op_label c attr a t).
Proof. unfold ObjectiveModel.op_label. cbn zeta. apply array_if. Qed.
Lemma charged_scaled n g f a : 0 < g -> (forall t, f (ov (sc a)) t = g * f (ov a) t) -> ObjectiveModel.charged (o_net (scaled_net k m n)) f (ov (sc a)) = ObjectiveModel.charged (o_net n) f (ov a).
Proof.
  intros G F. unfold ObjectiveModel.charged. cbn [o_net ObjectiveModel.nsnaps scaled_net nsnaps]. induction (seq 0 (nsnaps n)) as [|t L IH]; [reflexivity|]. cbn [existsb]. rewrite IH, F, (zero_kept g) by exact G. reflexivity.
Qed.
Lemma terms_lrel n g f c attr u L : (forall a t, f (ov (sc a)) t = g * f (ov a) t) -> un (c ++ "-" ++ attr) == u -> g * u == m ->
  lrel m (ObjectiveModel.terms (o_net n) f (ObjectiveModel.op_label c attr) (map ov L)) (ObjectiveModel.terms (o_net (scaled_net k m n)) f (ObjectiveModel.op_label c attr) (map (fun a => ov (sc a)) L)).
Proof.
  intros F U G. unfold ObjectiveModel.terms. rewrite !flat_map_map. apply F2_flat. intros a _. cbn [o_net ObjectiveModel.nsnaps scaled_net nsnaps]. apply F2_map. intros t _. rewrite op_scaled. apply (term_of m _ _ _ (c ++ "-" ++ attr) u); [apply op_array|exact U|]. rewrite F.
  change (ObjectiveModel.weighting (o_net (scaled_net k m n)) t) with (w_obj n t). change (ObjectiveModel.weighting (o_net n) t) with (w_obj n t). rewrite <- G. ring.
Qed.
Lemma terms_srel n g f c attr u L : (forall a t, f (ov (sc a)) t = g * f (ov a) t) -> un (c ++ "-" ++ attr) == u -> g * (u * u) == m ->
  srel (ObjectiveModel.terms (o_net n) f (ObjectiveModel.op_label c attr) (map ov L)) (ObjectiveModel.terms (o_net (scaled_net k m n)) f (ObjectiveModel.op_label c attr) (map (fun a => ov (sc a)) L)).
Proof.
  intros F U G. unfold ObjectiveModel.terms. rewrite !flat_map_map. apply F2_flat. intros a _. cbn [o_net ObjectiveModel.nsnaps scaled_net nsnaps]. apply F2_map. intros t _. rewrite op_scaled. cbn [fst snd]. split; [reflexivity|]. intros v V. rewrite (op_array c attr (ov a) t v V), U, F.
  change (ObjectiveModel.weighting (o_net (scaled_net k m n)) t) with (w_obj n t). change (ObjectiveModel.weighting (o_net n) t) with (w_obj n t). rewrite <- G. ring.
Qed.
Lemma onon_map {A B} (f : A -> B) l : ObjectiveModel.nonempty (map f l) = ObjectiveModel.nonempty l.
Proof. destruct l; reflexivity. Qed.
Lemma exists_scaled n c attr : ObjectiveModel.exists_array (o_net (scaled_net k m n)) c attr = ObjectiveModel.exists_array (o_net n) c attr.
Proof.
  unfold ObjectiveModel.exists_array. destruct (o_cls n c) as [-> ->]. rewrite !onon_map. cbn [o_net ObjectiveModel.nsnaps scaled_net nsnaps]. destruct (ObjectiveModel.is_spill _); [|reflexivity].
  induction (filter _ _) as [|a L IH]; [reflexivity|]. cbn [map existsb]. rewrite IH. f_equal. clear IH. induction (seq 0 (nsnaps n)) as [|t S IS]; [reflexivity|]. cbn [existsb]. rewrite IS. f_equal. unfold ObjectiveModel.positive. f_equal. apply mod_kept.
Qed.
Lemma operation_prel n sq g f rows : (forall a t, f (ov (sc a)) t = g * f (ov a) t) -> 0 < g ->
  (forall c attr L, In (c, attr) rows -> prel (sq (ObjectiveModel.terms (o_net n) f (ObjectiveModel.op_label c attr) (map ov L))) (sq (ObjectiveModel.terms (o_net (scaled_net k m n)) f (ObjectiveModel.op_label c attr) (map (fun a => ov (sc a)) L)))) ->
  Forall2 prel (ObjectiveModel.operation (o_net n) sq f rows) (ObjectiveModel.operation (o_net (scaled_net k m n)) sq f rows).
Proof.
  intros F G T. unfold ObjectiveModel.operation. apply F2_flat. intros [c attr] I. cbn [fst snd]. cbn zeta. destruct (o_cls n c) as [-> ->]. rewrite !filter_map.
  rewrite (filter_ext (fun a => ObjectiveModel.charged (o_net (scaled_net k m n)) f (ov (sc a))) (fun a => ObjectiveModel.charged (o_net n) f (ov a))) by (intros a; now apply (charged_scaled n g)).
  rewrite !onon_map. destruct (ObjectiveModel.nonempty _); [|constructor]. rewrite exists_scaled. constructor; [|constructor]. destruct (ObjectiveModel.exists_array _ c attr); [|exact Logic.I]. now apply T.
Qed.
Lemma gpos : 0 < m / k. Proof. unfold Qdiv. apply Qmult_lt_0_compat; [exact mpos|exact ikpos]. Qed.
Lemma ggpos : 0 < m / (k * k). Proof. unfold Qdiv. apply Qmult_lt_0_compat; [exact mpos|]. apply Qinv_lt_0_compat. now apply Qmult_lt_0_compat. Qed.
Lemma pieces_prel n : Forall2 prel (ObjectiveModel.pieces (o_net n)) (ObjectiveModel.pieces (o_net (scaled_net k m n))).
Proof.
  unfold ObjectiveModel.pieces. rewrite const_zero.
  assert (GK : m / k * k == m) by (field; exact knz). assert (GKK : m / (k * k) * (k * k) == m) by (field; exact knz).
  assert (COM : forall c, ObjectiveModel.com (o_net (scaled_net k m n)) c = map (fun a => ov (sc a)) (filter com (filter (fun a => String.eqb (cls a) c) (assets n))) /\ ObjectiveModel.com (o_net n) c = map ov (filter com (filter (fun a => String.eqb (cls a) c) (assets n)))).
  { intros c. unfold ObjectiveModel.com. destruct (o_cls n c) as [-> ->]. rewrite !filter_map. split; reflexivity. }
  apply F2_app.
  { destruct (Qeq_bool _ 0); constructor; [|constructor]. cbn [prel]. constructor; [|constructor]. apply (term_of m _ _ _ "objective_constant" m); [apply array_some|reflexivity|ring]. }
  apply F2_app. { apply (operation_prel n ObjectiveModel.Linear (m / k)); [reflexivity|exact gpos|]. intros c attr L I. cbn [prel]. apply (terms_lrel n (m / k) _ c attr k); [reflexivity| |exact GK]. unfold ObjectiveModel.of_marginal in I. cbn [In] in I. repeat (destruct I as [I|I]; [injection I as <- <-; reflexivity|]). destruct I. }
  apply F2_app. { apply (operation_prel n ObjectiveModel.Linear (m / k)); [reflexivity|exact gpos|]. intros c attr L I. cbn [prel]. apply (terms_lrel n (m / k) _ c attr k); [reflexivity| |exact GK]. unfold ObjectiveModel.of_storage in I. cbn [In] in I. repeat (destruct I as [I|I]; [injection I as <- <-; reflexivity|]). destruct I. }
  apply F2_app. { apply (operation_prel n ObjectiveModel.Linear (m / k)); [reflexivity|exact gpos|]. intros c attr L I. cbn [prel]. apply (terms_lrel n (m / k) _ c attr k); [reflexivity| |exact GK]. unfold ObjectiveModel.of_spill in I. cbn [In] in I. repeat (destruct I as [I|I]; [injection I as <- <-; reflexivity|]). destruct I. }
  apply F2_app. { apply (operation_prel n ObjectiveModel.Square (m / (k * k))); [reflexivity|exact ggpos|]. intros c attr L I. cbn [prel]. apply (terms_srel n (m / (k * k)) _ c attr k); [reflexivity| |exact GKK]. unfold ObjectiveModel.of_marginal in I. cbn [In] in I. repeat (destruct I as [I|I]; [injection I as <- <-; reflexivity|]). destruct I. }
  apply F2_app.
  { unfold ObjectiveModel.standby. apply F2_flat. intros c I. destruct (COM c) as [-> ->]. rewrite !onon_map. destruct (ObjectiveModel.nonempty _); [|constructor]. constructor; [|constructor]. cbn [prel]. rewrite !filter_map.
    rewrite (filter_ext (fun a => ObjectiveModel.charged (o_net (scaled_net k m n)) ObjectiveModel.a_standby (ov (sc a))) (fun a => ObjectiveModel.charged (o_net n) ObjectiveModel.a_standby (ov a))) by (intros a; apply (charged_scaled n m); [exact mpos|reflexivity]).
    apply (terms_lrel n m _ c "status" 1); [reflexivity| |ring]. cbn [In] in I. destruct I as [<-|[<-|[]]]; reflexivity. }
  apply F2_app.
  { unfold ObjectiveModel.investment. apply F2_flat. intros ca I. unfold ObjectiveModel.ext. destruct (o_cls n (fst ca)) as [-> ->]. rewrite !filter_map. change (fun a => ObjectiveModel.a_ext (ov (sc a))) with (fun a => ObjectiveModel.a_ext (ov a)). rewrite !onon_map. destruct (ObjectiveModel.nonempty _); [|constructor]. constructor; [|constructor]. cbn [prel]. rewrite !map_map. apply F2_map. intros a _.
    apply (term_of m _ _ (ObjectiveModel.nom_label (fst ca) (snd ca) (ov a)) (fst ca ++ "-" ++ snd ca) k); [apply array_some| |].
    - unfold ObjectiveModel.nominal in I. cbn [In] in I. repeat (destruct I as [<-|I]; [reflexivity|]). destruct I.
    - unfold ObjectiveModel.annual. cbn [o_net ObjectiveModel.multi]. change (ObjectiveModel.a_flag (ov (sc a))) with (flag a). change (ObjectiveModel.a_flag (ov a)) with (flag a). change (ObjectiveModel.a_capital (ov (sc a))) with (m / k * capital a). change (ObjectiveModel.a_capital (ov a)) with (capital a). destruct (flag a); [field; exact knz|ring]. }
  assert (SW : forall attr f, (forall a, f (ov (sc a)) = m * f (ov a)) -> un ("Generator-" ++ attr) == 1 -> un ("Link-" ++ attr) == 1 -> Forall2 prel (ObjectiveModel.switching (o_net n) attr f) (ObjectiveModel.switching (o_net (scaled_net k m n)) attr f)).
  { intros attr f F U1 U2. unfold ObjectiveModel.switching. apply F2_flat. intros c I. destruct (COM c) as [-> ->]. set (L := filter com _).
    assert (E : fold_right (fun a q => f a + q) 0 (map (fun a => ov (sc a)) L) == m * fold_right (fun a q => f a + q) 0 (map ov L)) by (induction L as [|a L' IH]; [cbn [map fold_right]; ring|]; cbn [map fold_right]; rewrite IH, F; ring).
    assert (Z : Qeq_bool (fold_right (fun a q => f a + q) 0 (map (fun a => ov (sc a)) L)) 0 = Qeq_bool (fold_right (fun a q => f a + q) 0 (map ov L)) 0) by (rewrite <- (zero_kept m (fold_right (fun a q => f a + q) 0 (map ov L)) mpos); apply eq_true_iff_eq; rewrite !Qeq_bool_iff, E; tauto).
    rewrite Z. clear Z E. destruct (Qeq_bool (fold_right (fun a q => f a + q) 0 (map ov L)) 0); constructor; [|constructor]. cbn [prel]. rewrite !flat_map_map. apply F2_flat. intros a _. cbn [o_net ObjectiveModel.nsnaps scaled_net nsnaps]. apply F2_map. intros t _. rewrite op_scaled.
    apply (term_of m _ _ _ (c ++ "-" ++ attr) 1); [apply op_array| |rewrite F; ring]. cbn [In] in I. destruct I as [<-|[<-|[]]]; assumption. }
  apply F2_app; apply SW; reflexivity.
Qed.
Lemma objective_prel n : match define_objective n, define_objective (scaled_net k m n) with Some ps, Some ps' => Forall2 prel ps ps' | None, None => True | _, _ => False end.
Proof.
  unfold define_objective, ObjectiveModel.objective. pose proof (pieces_prel n) as P. remember (ObjectiveModel.pieces (o_net n)) as ps. remember (ObjectiveModel.pieces (o_net (scaled_net k m n))) as ps'. clear Heqps Heqps'.
  assert (E : existsb ObjectiveModel.is_missing ps' = existsb ObjectiveModel.is_missing ps). { induction P as [|p p' ps ps' R P IH]; [reflexivity|]. cbn [existsb]. rewrite IH. destruct p, p'; cbn [prel] in R; tauto || reflexivity. }
  assert (N : ObjectiveModel.nonempty ps' = ObjectiveModel.nonempty ps) by (destruct P; reflexivity). rewrite E, N. destruct (existsb _ ps); [exact Logic.I|]. destruct (ObjectiveModel.nonempty ps); [exact P|exact Logic.I].
Qed.
Lemma cost_scaled n x : match cost n x, cost (scaled_net k m n) (rs x) with Some q, Some q' => q' == m * q | None, None => True | _, _ => False end.
Proof.
  unfold cost. pose proof (objective_prel n) as O. destruct (define_objective n) as [ps|], (define_objective (scaled_net k m n)) as [ps'|]; cbn [option_map]; try tauto. now apply prel_value.
Qed.

Lemma cycles_homogeneous kvl : cycle_rows k m kvl -> kvl_homogeneous k m kvl.
Proof.
  intros H l x. apply rel_sat. specialize (H l). induction H as [|c c' cs cs' R H IH]; constructor; [|exact IH].
  destruct R as [S [S' [Z [Z' [g [G F]]]]]]. exists (g * k). split; [now apply Qmult_lt_0_compat|]. split; [congruence|]. split; [rewrite Z, Z'; ring|].
  clear - F. unfold lrel. induction F as [|e e' l l' [E [C A]] F IH]; constructor; [|exact IH]. split; [exact E|]. intros v V. assert (U : un (fst (fst v)) = k) by (destruct (A v V) as [-> | ->]; reflexivity). rewrite U, C. ring.
Qed.
Lemma eval_ext x y l : (forall v, x v == y v) -> eval x l == eval y l.
Proof. intros H. induction l as [|[q [v|]] l IH]; [reflexivity| |]; cbn [eval val]; rewrite IH; [rewrite (H v)|]; reflexivity. Qed.
Lemma val_ext x y l : (forall v, x v == y v) -> val x l == val y l.
Proof. intros H. destruct l as [v|]; [apply H|reflexivity]. Qed.
Lemma sat_ext x y cs : (forall v, x v == y v) -> sat x cs -> sat y cs.
Proof. intros H S c I. specialize (S c I). pose proof (eval_ext x y (lhs c) H) as E. unfold holds in *. destruct (sns c); rewrite <- E; exact S. Qed.
Lemma domains_ext n x y : (forall v, x v == y v) -> domains n x -> domains n y.
Proof.
  intros H (M & C & S & L & K). split; [|split; [|split; [|split]]].
  - intros a I E G. destruct (M a I E G) as [z Z]. exists z. now rewrite <- (H _).
  - intros a I E. specialize (C a I E). assert (V : forall l, val y l == val x l) by (intros l; symmetry; now apply val_ext).
    destruct (linear n); destruct C as [C1 [C2 C3]]; (split; [|split]); intros t T O; [specialize (C1 t T O)|specialize (C2 t T O)|specialize (C3 t T O)|specialize (C1 t T O)|specialize (C2 t T O)|specialize (C3 t T O)]; rewrite V; assumption.
  - intros a I E t v T V. rewrite <- (H v). now apply (S a I E t).
  - intros a t I P LS T F. rewrite <- (H _). now apply L.
  - intros G. specialize (K G). rewrite <- (val_ext x y _ H). exact K.
Qed.
Lemma feasible_ext kvl n x y : (forall v, x v == y v) -> feasible kvl n x -> feasible kvl n y.
Proof. intros H [cs [E [S D]]]. exists cs. split; [exact E|]. split; [now apply (sat_ext x)|now apply (domains_ext n x)]. Qed.
Lemma square_ext x y l : (forall v, x v == y v) -> ObjectiveModel.square x l == ObjectiveModel.square y l.
Proof. intros H. induction l as [|[q [v|]] l IH]; [reflexivity| |]; cbn [ObjectiveModel.square val]; rewrite IH; [rewrite (H v)|]; reflexivity. Qed.
Lemma value_ext x y ps : (forall v, x v == y v) -> ObjectiveModel.value_of x ps == ObjectiveModel.value_of y ps.
Proof.
  intros H. unfold ObjectiveModel.value_of. induction ps as [|p ps IH]; [reflexivity|]. cbn [fold_right]. rewrite IH. apply Qplus_comp; [|reflexivity]. destruct p; cbn [ObjectiveModel.piece_value]; [now apply eval_ext|now apply square_ext|reflexivity].
Qed.
Lemma un_pos s : 0 < un s.
Proof. unfold unit_of. destruct (unitless s); [reflexivity|]. destruct (String.eqb s _); assumption. Qed.
Definition back (y : sol) : sol := fun v => y v / un (fst (fst v)).
Lemma rs_back y v : rs (back y) v == y v.
Proof. unfold rescale, back. pose proof (un_pos (fst (fst v))) as P. field. intros Z. rewrite Z in P. discriminate. Qed.
Lemma back_rs x v : back (rs x) v == x v.
Proof. unfold rescale, back. pose proof (un_pos (fst (fst v))) as P. field. intros Z. rewrite Z in P. discriminate. Qed.
Lemma optimal_scaled kvl n x : kvl_homogeneous k m kvl -> known_classes n -> (optimal kvl n x <-> optimal kvl (scaled_net k m n) (rs x)).
Proof.
  intros H KC. unfold optimal. pose proof (fun y => feasible_scaled kvl n y H KC) as FS. pose proof (cost_scaled n) as CS. split; intros [F [q [C B]]].
  - split; [now apply FS|]. pose proof (CS x) as CX. rewrite C in CX. destruct (cost (scaled_net k m n) (rs x)) as [q'|] eqn:E'; [|tauto]. exists q'. split; [reflexivity|]. intros y r FY CY.
    assert (FB : feasible kvl n (back y)) by (apply FS; apply (feasible_ext _ _ y); [intros v; symmetry; apply rs_back|exact FY]).
    pose proof (CS (back y)) as CB. destruct (cost n (back y)) as [p|] eqn:EP; [|unfold cost in EP, CY, C; destruct (define_objective n); discriminate].
    specialize (B (back y) p FB EP). destruct (cost (scaled_net k m n) (rs (back y))) as [r'|] eqn:ER; [|tauto].
    assert (RR : r == r'). { unfold cost in CY, ER. destruct (define_objective (scaled_net k m n)) as [ps|]; [|discriminate]. cbn [option_map] in *. injection CY as <-. injection ER as <-. apply value_ext. intros v. symmetry. apply rs_back. }
    rewrite RR, CB, CX. now apply times_le.
  - split; [now apply FS|]. pose proof (CS x) as CX. rewrite C in CX. destruct (cost n x) as [p|] eqn:EP; [|tauto]. exists p. split; [reflexivity|]. intros y r FY CY.
    pose proof (CS y) as CB. rewrite CY in CB. destruct (cost (scaled_net k m n) (rs y)) as [r'|] eqn:ER; [|tauto]. assert (FY' := FY). apply FS in FY'. specialize (B (rs y) r' FY' ER). rewrite CX, CB in B. now apply times_le in B.
Qed.
Lemma cost_scaled_some n x q q' : cost n x = Some q -> cost (scaled_net k m n) (rs x) = Some q' -> q' == m * q.
Proof. intros E E'. pose proof (cost_scaled n x) as C. rewrite E, E' in C. exact C. Qed.
Lemma cost_scaled_def n x y : cost n x = None <-> cost (scaled_net k m n) y = None.
Proof. unfold cost. pose proof (objective_prel n) as O. destruct (define_objective n), (define_objective (scaled_net k m n)); try tauto; split; intros; congruence || discriminate. Qed.
(* every solution in the other units comes from one in the first units *)
Lemma feasible_from kvl n y : kvl_homogeneous k m kvl -> known_classes n -> feasible kvl (scaled_net k m n) y -> exists x, feasible kvl n x /\ forall v, y v == rs x v.
Proof.
  intros H KC F. exists (back y). split; [|intros v; symmetry; apply rs_back]. apply feasible_scaled; auto. apply (feasible_ext _ _ y); [intros v; symmetry; apply rs_back|exact F].
Qed.
End K.

(* a concrete network: two parallel lines of equal reactance, one of them narrow *)
Definition at_ (a : asset) (b0 b1 : string) (cap_ cost_ : Q) : asset :=
  {| cls := cls a; nm := nm a; bus0 := b0; bus1 := b1; sgn := sgn a; ports := ports a; carrier := carrier a; flag := flag a; ext := ext a; committable := committable a;
     nom := cap_; nom_min := nom_min a; nom_max := nom_max a; nom_set := nom_set a; nom_mod := nom_mod a; min_pu := min_pu a; max_pu := max_pu a; max_hours := max_hours a;
     op_set := op_set a; up := up a; down := down a; up_static := up_static a; down_static := down_static a; start_lim := start_lim a; shut_lim := shut_lim a;
     min_up := min_up a; min_down := min_down a; up_before := up_before a; down_before := down_before a; eff := eff a; stand := stand a; init := init a; cyclic := cyclic a;
     eff_dispatch := eff_dispatch a; eff_store := eff_store a; inflow := inflow a; capital := capital a; marginal := fun _ => cost_; storage_cost := storage_cost a;
     spill_cost := spill_cost a; quadratic := quadratic a; standby := standby a; start_cost := start_cost a; shut_cost := shut_cost a; len := len a; e_min := e_min a; e_max := e_max a; r_eff := r_eff a |}.
Definition two_buses (l : list asset) (d : Q) : net :=
  {| assets := l; loads := [{| BalanceModel.d_bus := "b"; BalanceModel.d_sign := -(1); BalanceModel.d_p := fun _ => d; BalanceModel.d_active := true |}];
     buses := ["a"; "b"]; nsnaps := 1; w_obj := fun _ => 1; w_gen := fun _ => 1; w_sto := fun _ => 1; tangents := 0; linear := false;
     emission := fun _ => [("AC", 1)]; carriers := ["AC"]; limits := [Primary "co2" Le 10]; columns := [] |}.
Definition mesh_net : net := two_buses
  [at_ (IdleProofs.blank "Generator" "g" "a" true false) "a" "a" 5 1; at_ (IdleProofs.blank "Generator" "h" "b" true false) "b" "b" 5 2;
   at_ (IdleProofs.blank "Line" "l" "a" true false) "a" "b" 1 0; at_ (IdleProofs.blank "Line" "r" "a" true false) "a" "b" 5 0] 3.
Definition loop : list asset -> list con := fun _ => [{| lhs := [(1, Some ("Line-s", O, "l")); (-(1), Some ("Line-s", O, "r"))]; sns := Eq; rhs := 0 |}].
Definition mesh_x : sol := fun v => match v with (s, _, i) => if String.eqb s "Generator-p" && String.eqb i "g" then 2 else 1 end.
Lemma mesh_case : known_classes mesh_net /\ (forall k m, cycle_rows k m loop) /\ optimal loop mesh_net mesh_x /\ cost mesh_net mesh_x = Some 4 /\
  (exists q, cost (scaled_net 1000 2 mesh_net) (rescale 1000 2 mesh_x) = Some q /\ q == 8) /\ rescale 1000 2 mesh_x ("Line-s", O, "l") == 1000.
Proof.
  split; [|split; [|split; [|split; [|split]]]].
  - intros a I. cbn [mesh_net two_buses assets In] in I. repeat (destruct I as [<-|I]; [cbn; auto 10|]). destruct I.
  - intros k m l. constructor; [|constructor]. split; [reflexivity|]. split; [reflexivity|]. split; [reflexivity|]. split; [reflexivity|]. exists 1. split; [reflexivity|].
    constructor; [|constructor; [|constructor]]; (split; [reflexivity|]; split; [reflexivity|]; intros v V; injection V as <-; left; reflexivity).
  - split.
    + eexists. split; [vm_compute; reflexivity|]. split; [apply satb_iff; vm_compute; reflexivity|]. split; [|split; [|split; [|split]]]; cbn [mesh_net two_buses assets In]; intros a.
      * intros I E. repeat (destruct I as [<-|I]; [discriminate E|]). destruct I.
      * intros I E. repeat (destruct I as [<-|I]; [discriminate E|]). destruct I.
      * intros I E. repeat (destruct I as [<-|I]; [discriminate E|]). destruct I.
      * intros t _ _ E. discriminate E.
      * vm_compute in a. discriminate a.
    + exists 4. split; [vm_compute; reflexivity|]. intros y q' [cs [E [S _]]] C. vm_compute in E. injection E as <-.
      pose proof (IdleProofs.row_holds y _ {| lhs := [(1, Some ("Line-s", O, "l"))]; sns := Le; rhs := 1 |} S ltac:(cbn; tauto)) as H1.
      pose proof (IdleProofs.row_holds y _ {| lhs := [(1, Some ("Generator-p", O, "g")); (-1, Some ("Line-s", O, "l")); (-1, Some ("Line-s", O, "r"))]; sns := Eq; rhs := 0 |} S ltac:(cbn; tauto)) as H2.
      pose proof (IdleProofs.row_holds y _ {| lhs := [(1, Some ("Generator-p", O, "h")); (1, Some ("Line-s", O, "l")); (1, Some ("Line-s", O, "r"))]; sns := Eq; rhs := 3 |} S ltac:(cbn; tauto)) as H3.
      pose proof (IdleProofs.row_holds y _ {| lhs := [(1, Some ("Line-s", O, "l")); (-1, Some ("Line-s", O, "r"))]; sns := Eq; rhs := 0 |} S ltac:(cbn; tauto)) as H4.
      unfold holds in *. cbn [sns lhs rhs eval val] in *. unfold cost in C.
      assert (O : define_objective mesh_net = Some [ObjectiveModel.Linear [(1, Some ("Generator-p", O, "g")); (2, Some ("Generator-p", O, "h"))]]) by (vm_compute; reflexivity).
      rewrite O in C. unfold ObjectiveModel.value_of in C. cbn [option_map fold_right ObjectiveModel.piece_value eval val] in C. injection C as <-. lra.
  - vm_compute. reflexivity.
  - eexists. split; [vm_compute; reflexivity|vm_compute; reflexivity].
  - vm_compute. reflexivity.
Qed.
