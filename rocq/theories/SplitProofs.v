From Coq Require Import List String Bool QArith Qabs Lqa ZArith Arith Lia.
From Verif Require Import LinModel WholeModel IdleSpec SplitSpec.
From Verif Require DispatchModel RampModel CommitModel BalanceModel StorageModel LimitModel CapModel LossModel ObjectiveModel UnitProofs NamingProofs TurnProofs CapProofs CyclesModel KirchhoffModel.
Import ListNotations.
Open Scope string_scope.
Open Scope list_scope.
Open Scope Q_scope.

Lemma ac_map {A B} ts (v : A -> B) l mask f : add_constraints ts (map v l) mask f = add_constraints ts l (fun t a => mask t (v a)) (fun t a => f t (v a)).
Proof. unfold add_constraints. apply NamingProofs.flat_map_eq. intros t _. apply NamingProofs.flat_map_map. Qed.
Lemma filter_flat {A B} (p : B -> bool) (f : A -> list B) l : filter p (flat_map f l) = flat_map (fun a => filter p (f a)) l.
Proof. induction l as [|a l IH]; [reflexivity|]. cbn [flat_map]. now rewrite filter_app, IH. Qed.

Section S.
Variables i j : string.
Variable th : Q.
Variable n : net.
Notation n' := (split i j th n).
Notation sp := (parts_of i j th).
Hypothesis Ij : i <> j.
Hypothesis Th : 0 <= th <= 1.
Hypothesis Cl : forall a, In a (assets n) -> In (cls a) classes.
Hypothesis Fj : forall a, In a (assets n) -> cls a = "Generator" -> nm a <> j.
Hypothesis Tg : forall a, In a (assets n) -> target i a = true -> committable a = false /\ nom_mod a <= 0 /\ forall t, quadratic a t == 0.

(* ---------- classes ---------- *)
Lemma of_class_flat c : of_class n' c = flat_map sp (of_class n c).
Proof.
  unfold of_class. cbn [split assets]. rewrite filter_flat. clear Cl Fj Tg. induction (assets n) as [|a l IH]; [reflexivity|]. cbn [flat_map filter]. rewrite IH. unfold parts_of at 1.
  destruct (target i a) eqn:E; cbn [filter part cls]; destruct (String.eqb (cls a) c); cbn [app flat_map]; unfold parts_of; rewrite ?E; reflexivity.
Qed.
Lemma in_class a c : In a (of_class n c) -> cls a = c /\ In a (assets n).
Proof. intros I. apply filter_In in I. destruct I as [I E]. now apply String.eqb_eq in E. Qed.
Lemma target_class a : target i a = true -> cls a = "Generator" /\ nm a = i.
Proof. unfold target. intros E. apply andb_true_iff in E. destruct E as [E F]. apply String.eqb_eq in E, F. auto. Qed.
Lemma of_class_same c : String.eqb c "Generator" = false -> of_class n' c = of_class n c.
Proof.
  intros E. rewrite of_class_flat. rewrite (NamingProofs.flat_map_eq sp (fun a => [a])); [induction (of_class n c) as [|a l IH]; [reflexivity|cbn [flat_map app]; now rewrite IH]|].
  intros a I. apply in_class in I. destruct I as [I _]. unfold parts_of, target. rewrite I, E. reflexivity.
Qed.
Notation L := (of_class n "Generator").
Notation L' := (flat_map sp L).
Lemma gens_flat : of_class n' "Generator" = L'.
Proof. apply of_class_flat. Qed.
Lemma other_gen a : In a L -> target i a = false -> nm a <> i /\ nm a <> j.
Proof.
  intros I E. apply in_class in I. destruct I as [C I]. split; [|now apply Fj]. intros N. unfold target in E. rewrite C, N, !String.eqb_refl in E. discriminate.
Qed.
Lemma target_in a : In a L -> target i a = true -> committable a = false /\ nom_mod a <= 0 /\ forall t, quadratic a t == 0.
Proof. intros I. apply in_class in I. destruct I as [_ I]. now apply Tg. Qed.

(* ---------- solutions that fit together ---------- *)
Section XY.
Variables x y : sol.
Hypothesis Same : forall s t k, of_generator s = false \/ (k <> i /\ k <> j) -> x (s, t, k) == y (s, t, k).
Hypothesis Sum : forall s t, of_generator s = true -> y (s, t, i) == x (s, t, i) + x (s, t, j).

Definition nf (l : label) : Prop := val x l == val y l.
Definition nflin (l : lin) : Prop := Forall (fun cv => nf (snd cv)) l.
Definition still (cs : list con) : Prop := Forall (fun c => nflin (lhs c)) cs.
Lemma nf_none : nf None.
Proof. reflexivity. Qed.
Lemma nf_some s t k : of_generator s = false -> nf (Some (s, t, k)).
Proof. intros A. apply Same. now left. Qed.
Lemma nf_if (b : bool) s t k : of_generator s = false -> nf (if b then Some (s, t, k) else None).
Proof. intros A. destruct b; [now apply nf_some|apply nf_none]. Qed.
Lemma nf_name (b : bool) s t k : k <> i -> k <> j -> nf (if b then Some (s, t, k) else None).
Proof. intros A B. destruct b; [apply Same; now right|apply nf_none]. Qed.
Lemma nf_eval l : nflin l -> eval x l == eval y l.
Proof. induction 1 as [|[q v] l H F IH]; [reflexivity|]. cbn [eval]. rewrite IH. unfold nf in H. cbn [snd] in H. now rewrite H. Qed.
Lemma holds_same c : nflin (lhs c) -> (holds x c <-> holds y c).
Proof. intros H. pose proof (nf_eval _ H) as E. unfold holds. destruct (sns c); rewrite E; reflexivity. Qed.
Lemma still_sat cs : still cs -> (sat x (CapModel.problem cs) <-> sat y (CapModel.problem cs)).
Proof.
  intros S. assert (E : forall c, In c cs -> (holds x c <-> holds y c)).
  { intros c I. unfold still in S. rewrite Forall_forall in S. now apply holds_same, S. }
  unfold sat. split; intros H c I; apply E; try (now apply filter_In in I); now apply H.
Qed.
Lemma still_app a b : still a -> still b -> still (a ++ b).
Proof. intros A B. now apply Forall_app. Qed.
Lemma still_flat {A} (f : A -> list con) l : (forall a, In a l -> still (f a)) -> still (flat_map f l).
Proof. intros H. unfold still. rewrite Forall_forall. intros c I. apply in_flat_map in I. destruct I as (a & I & J). specialize (H a I). unfold still in H. rewrite Forall_forall in H. auto. Qed.
Lemma still_ac {A} ts (l : list A) mask f : (forall t a, In a l -> nflin (lhs (f t a))) -> still (add_constraints ts l mask f).
Proof.
  intros H. unfold add_constraints. apply still_flat. intros t _. apply still_flat. intros a I. destruct (mask t a); constructor; [now apply H|constructor].
Qed.
Lemma nflin_app a b : nflin a -> nflin b -> nflin (a ++ b).
Proof. intros A B. now apply Forall_app. Qed.
Lemma nf_shift f t : (forall t, nf (f t)) -> nf (shift f t).
Proof. intros H. destruct t; [apply nf_none|apply H]. Qed.
Lemma Forall_map' {A B} (Pp : B -> Prop) (g : A -> B) l : (forall a, In a l -> Pp (g a)) -> Forall Pp (map g l).
Proof. intros H. apply Forall_forall. intros b I. apply in_map_iff in I. destruct I as (a & <- & I). now apply H. Qed.
Ltac sapp1 := match goal with |- still (_ ++ _) => apply still_app end.
Ltac sapp := repeat sapp1.
Ltac lab := first [apply nf_none | apply nf_some; reflexivity | apply nf_if; reflexivity].
Ltac lst := repeat (apply Forall_cons; [cbn [snd]|]); [..|apply Forall_nil].
Notation sat_ac := TurnProofs.sat_ac.
Notation sat_app := TurnProofs.sat_app.

(* ---------- rows of single generators ---------- *)
Definition rename (k : string) (l : lin) : lin := map (fun cv => (fst cv, match snd cv with Some (s, t, _) => Some (s, t, k) | None => None end)) l.
Definition gens_only (l : lin) : Prop := Forall (fun cv : Q * label => match snd cv with Some (s, t, k) => of_generator s = true /\ k = i | None => True end) l.
Record family (p : asset -> bool) (mask : nat -> asset -> bool) (f : nat -> asset -> con) : Prop := {
  alone : forall t a, In a L -> nm a <> i -> nm a <> j -> nflin (lhs (f t a));
  share_p : forall a k q, In a L -> target i a = true -> p (part k q a) = p a;
  share_mask : forall t a k q, In a L -> target i a = true -> mask t (part k q a) = mask t a;
  share_sns : forall t a k q, sns (f t (part k q a)) = sns (f t a);
  share_rhs : forall t a k q, In a L -> target i a = true -> p a = true -> mask t a = true -> rhs (f t (part k q a)) == q * rhs (f t a);
  share_lhs : forall t a k q, In a L -> target i a = true -> p a = true -> lhs (f t (part k q a)) = rename k (lhs (f t a));
  share_gen : forall t a, In a L -> target i a = true -> p a = true -> gens_only (lhs (f t a)) }.
Lemma eval_sum l : gens_only l -> eval y l == eval x (rename i l) + eval x (rename j l).
Proof.
  induction 1 as [|[q [[[s t] k]|]] l H F IH]; [cbn; ring| |]; cbn [rename map fst snd eval val]; fold (rename i l) (rename j l); rewrite IH; [|ring].
  cbn [snd] in H. destruct H as [H ->]. rewrite (Sum s t H). ring.
Qed.
Lemma term_rename k l c : CapModel.has_term {| lhs := rename k l; sns := sns c; rhs := rhs c |} = CapModel.has_term {| lhs := l; sns := sns c; rhs := rhs c |}.
Proof. unfold CapModel.has_term. cbn [lhs]. unfold rename. rewrite NamingProofs.existsb_map. apply NamingProofs.existsb_eq. intros [q [[[s t] k']|]]; reflexivity. Qed.
Lemma term_lhs c c' : lhs c = lhs c' -> CapModel.has_term c = CapModel.has_term c'.
Proof. unfold CapModel.has_term. now intros ->. Qed.
Lemma has_rename k c c' : lhs c' = rename k (lhs c) -> CapModel.has_term c' = CapModel.has_term c.
Proof. intros E. rewrite (term_lhs c' {| lhs := rename k (lhs c); sns := sns c; rhs := rhs c |} E), term_rename. now apply term_lhs. Qed.
Lemma in_parts a k q : In a L -> target i a = true -> (k = i /\ q = th) \/ (k = j /\ q = 1 - th) -> In (part k q a) L'.
Proof. intros I E H. apply in_flat_map. exists a. split; [exact I|]. unfold parts_of. rewrite E. destruct H as [[-> ->]|[-> ->]]; cbn; auto. Qed.
Lemma family_join p mask f ts : family p mask f ->
  sat x (CapModel.problem (add_constraints ts (filter p L') mask f)) -> sat y (CapModel.problem (add_constraints ts (filter p L) mask f)).
Proof.
  intros F. rewrite !sat_ac. intros H t a It Ia M T. apply filter_In in Ia. destruct Ia as [Ia Pa]. destruct (target i a) eqn:E.
  - assert (G : forall k q, In (part k q a) L' -> holds x (f t (part k q a))).
    { intros k q J. apply H; [exact It| |now rewrite (share_mask _ _ _ F)|].
      - apply filter_In. split; [exact J|now rewrite (share_p _ _ _ F)].
      - rewrite (has_rename k (f t a)); [exact T|]. now apply (share_lhs _ _ _ F). }
    pose proof (G i th (in_parts a i th Ia E (or_introl (conj eq_refl eq_refl)))) as G1.
    pose proof (G j (1 - th) (in_parts a j (1 - th) Ia E (or_intror (conj eq_refl eq_refl)))) as G2.
    unfold holds in *. rewrite !(share_sns _ _ _ F) in G1, G2. rewrite !(share_lhs _ _ _ F t a) in G1, G2 by assumption.
    pose proof (eval_sum _ (share_gen _ _ _ F t a Ia E Pa)) as S'. pose proof (share_rhs _ _ _ F t a i th Ia E Pa M) as R1. pose proof (share_rhs _ _ _ F t a j (1 - th) Ia E Pa M) as R2.
    destruct (sns (f t a)); rewrite S'; lra.
  - destruct (other_gen a Ia E) as [N1 N2].
    assert (G : holds x (f t a)). { apply H; [exact It| |exact M|exact T]. apply filter_In. split; [|exact Pa]. apply in_flat_map. exists a. split; [exact Ia|]. unfold parts_of. rewrite E. now left. }
    apply (holds_same _ (alone _ _ _ F t a Ia N1 N2)). exact G.
Qed.
Definition Sh : Prop := (forall s t, of_generator s = true -> x (s, t, i) == th * y (s, t, i)) /\ (forall s t, of_generator s = true -> x (s, t, j) == (1 - th) * y (s, t, i)).
Lemma eval_share k q l : Sh -> (k = i /\ q = th) \/ (k = j /\ q = 1 - th) -> gens_only l -> eval x (rename k l) == q * eval y l.
Proof.
  intros [Shi Shj] Hk. induction 1 as [|[c [[[s t] k']|]] l H F IH]; [cbn; ring| |]; cbn [rename map fst snd eval val]; fold (rename k l); rewrite IH; [|ring].
  cbn [snd] in H. destruct H as [H ->]. destruct Hk as [[-> ->]|[-> ->]]; [rewrite (Shi s t H)|rewrite (Shj s t H)]; ring.
Qed.
Lemma family_share p mask f ts : Sh -> family p mask f ->
  sat y (CapModel.problem (add_constraints ts (filter p L) mask f)) -> sat x (CapModel.problem (add_constraints ts (filter p L') mask f)).
Proof.
  intros Sh0 F. rewrite !sat_ac. intros H t a' It Ia' M T. apply filter_In in Ia'. destruct Ia' as [Ia' Pa']. apply in_flat_map in Ia'. destruct Ia' as (a & Ia & J).
  unfold parts_of in J. destruct (target i a) eqn:E.
  - assert (X : exists k q, a' = part k q a /\ ((k = i /\ q = th) \/ (k = j /\ q = 1 - th))).
    { destruct J as [<-|[<-|[]]]; [exists i, th|exists j, (1 - th)]; auto. }
    destruct X as (k & q & -> & Hk). rewrite (share_p _ _ _ F) in Pa' by assumption. rewrite (share_mask _ _ _ F) in M by assumption.
    rewrite (has_rename k (f t a)) in T by now apply (share_lhs _ _ _ F).
    assert (G : holds y (f t a)). { apply H; [exact It| |exact M|exact T]. apply filter_In. auto. }
    unfold holds in *. rewrite (share_sns _ _ _ F), (share_lhs _ _ _ F t a) by assumption.
    pose proof (eval_share k q _ Sh0 Hk (share_gen _ _ _ F t a Ia E Pa')) as S'. pose proof (share_rhs _ _ _ F t a k q Ia E Pa' M) as R.
    assert (Q0 : 0 <= q) by (destruct Hk as [[_ ->]|[_ ->]]; lra).
    destruct (sns (f t a)); rewrite S', R; [| |now rewrite G]; rewrite !(Qmult_comm q); now apply Qmult_le_compat_r.
  - destruct J as [<-|[]]. destruct (other_gen a Ia E) as [N1 N2].
    assert (G : holds y (f t a)). { apply H; [exact It| |exact M|exact T]. apply filter_In. auto. }
    apply (holds_same _ (alone _ _ _ F t a Ia N1 N2)). exact G.
Qed.

Definition goes (cs cs' : list con) : Prop :=
  (sat x (CapModel.problem cs') -> sat y (CapModel.problem cs)) /\ (Sh -> sat y (CapModel.problem cs) -> sat x (CapModel.problem cs')).
Lemma goes_app a b a' b' : goes a a' -> goes b b' -> goes (a ++ b) (a' ++ b').
Proof. intros [A1 A2] [B1 B2]. split; [|intros S']; rewrite !sat_app; intros [H1 H2]; split; auto. Qed.
Lemma goes_still cs : still cs -> goes cs cs.
Proof. intros S'. split; [|intros _]; now apply still_sat. Qed.
Lemma goes_family {V} (v : asset -> V) p mask f ts : family (fun a => p (v a)) (fun t a => mask t (v a)) (fun t a => f t (v a)) ->
  goes (add_constraints ts (filter p (map v L)) mask f) (add_constraints ts (filter p (map v L')) mask f).
Proof. intros F. rewrite !NamingProofs.filter_map, !ac_map. split; [now apply family_join|intros S'; now apply family_share]. Qed.
Lemma filter_true {A} (l : list A) : filter (fun _ => true) l = l.
Proof. induction l as [|a l IH]; [reflexivity|]. cbn [filter]. now rewrite IH. Qed.
Lemma goes_family' {V} (v : asset -> V) mask f ts : family (fun a => true) (fun t a => mask t (v a)) (fun t a => f t (v a)) ->
  goes (add_constraints ts (map v L) mask f) (add_constraints ts (map v L') mask f).
Proof. intros F. rewrite <- (filter_true (map v L)), <- (filter_true (map v L')). now apply (goes_family v (fun _ => true)). Qed.

Lemma nf_cap s t k : k <> i -> k <> j -> nf (Some (s, t, k)).
Proof. intros A B. now apply (nf_name true). Qed.
Lemma op_alone v a t attr : nm a <> i -> nm a <> j -> nf (DispatchModel.op "Generator" v (d_view attr a) t).
Proof. intros A B. unfold DispatchModel.op. now apply nf_name. Qed.
Lemma op_gen a t attr : target i a = true -> match DispatchModel.op "Generator" "p" (d_view attr a) t with Some (s, t, k) => of_generator s = true /\ k = i | None => True end.
Proof. intros E. apply target_class in E. destruct E as [_ E]. unfold DispatchModel.op. destruct (DispatchModel.active _ t); [|exact I]. split; [reflexivity|exact E]. Qed.
Lemma op_rename a t attr k q : DispatchModel.op "Generator" "p" (d_view attr (part k q a)) t = match DispatchModel.op "Generator" "p" (d_view attr a) t with Some (s, t, _) => Some (s, t, k) | None => None end.
Proof. unfold DispatchModel.op. cbn [d_view DispatchModel.active]. unfold on. cbn [part flag]. destruct (flag a); reflexivity. Qed.
Lemma not_com a : In a L -> target i a = true -> com a = false.
Proof. intros I E. destruct (target_in a I E) as (C & _). unfold com. now rewrite C. Qed.
Ltac alone_ := repeat (apply Forall_cons; [cbn [snd]|]); try apply Forall_nil;
  first [now apply op_alone | now apply nf_cap | match goal with |- nf (shift _ _) => apply nf_shift; intros; now apply op_alone end].
Ltac gen_ := repeat (apply Forall_cons; [cbn [snd]|]); try apply Forall_nil;
  first [now apply op_gen | now split; [reflexivity|apply target_class] | match goal with |- context [shift _ ?t] => destruct t; [exact I|now apply op_gen] end].

Lemma nominal_goes : goes (capacity_of n "Generator" "p_nom") (capacity_of n' "Generator" "p_nom").
Proof.
  unfold capacity_of. rewrite gens_flat. cbn zeta. unfold DispatchModel.nominal, DispatchModel.fixed_nominal, DispatchModel.modular, DispatchModel.ext_assets, DispatchModel.mod_assets.
  repeat match goal with |- goes (_ ++ _) _ => apply goes_app end; apply goes_family; unfold DispatchModel.mk; constructor; cbn [lhs sns rhs].
  all: try reflexivity; try (intros; alone_).
  all: try (intros t a k q J E; cbn [d_view part DispatchModel.nom_max DispatchModel.nom_set nom_max nom_set]; first [destruct (nom_max a); reflexivity | destruct (nom_set a); reflexivity]).
  all: try (intros t a k q J E G M; cbn [d_view part DispatchModel.nom_min DispatchModel.nom_max DispatchModel.nom_set nom_min nom_max nom_set] in *; reflexivity).
  all: try (intros t a k q J E G M; cbn [d_view part DispatchModel.nom_min DispatchModel.nom_max DispatchModel.nom_set nom_min nom_max nom_set] in *; first [destruct (nom_max a); [reflexivity|discriminate]|destruct (nom_set a); [reflexivity|discriminate]]).
  all: intros t a; intros; try (destruct (target_in a ltac:(assumption) ltac:(assumption)) as (_ & NM & _);
     cbn [d_view DispatchModel.ext DispatchModel.nom_mod] in *; apply Qle_bool_iff in NM; match goal with H : (_ && _)%bool = true |- _ => rewrite NM, andb_false_r in H; discriminate end).
  all: try gen_.
Qed.

(* dispatch rows *)
Ltac rhs_ := unfold DispatchModel.bounds_pu, RampModel.rhs_start; cbn [fst snd andb d_view part r_view DispatchModel.nom DispatchModel.min_pu DispatchModel.max_pu RampModel.base RampModel.up RampModel.down nom min_pu max_pu up down]; ring.
Lemma no_com_rows {A} (g : asset -> list A) : flat_map g (filter com L') = flat_map g (filter com L).
Proof.
  f_equal. rewrite filter_flat. assert (H : forall a, In a L -> filter com (sp a) = filter com [a]).
  { intros a J. unfold parts_of. destruct (target i a) eqn:E; [|reflexivity]. pose proof (not_com a J E) as C. cbn [filter].
    change (com (part i th a)) with (com a). change (com (part j (1 - th) a)) with (com a). now rewrite C. }
  induction L as [|a l IH]; [reflexivity|]. cbn [flat_map]. rewrite H by now left. rewrite IH by (intros; apply H; now right). cbn [filter]. destruct (com a); reflexivity.
Qed.
Lemma commitment_goes : goes (commitment_of n "Generator") (commitment_of n' "Generator").
Proof.
  unfold commitment_of. rewrite gens_flat, !no_com_rows. change (nsnaps n') with (nsnaps n). apply goes_still.
  assert (K : forall a, In a (filter com L) -> nm a <> i /\ nm a <> j).
  { intros a J. apply filter_In in J. destruct J as [J E]. destruct (target i a) eqn:T; [rewrite (not_com a J T) in E; discriminate|]. now apply other_gen. }
  assert (U : forall a v t, In a (filter com L) -> nf (CommitModel.uvar "Generator" (u_view a) v t)).
  { intros a v t J. destruct (K a J). unfold CommitModel.uvar. now apply nf_name. }
  assert (W : forall a v t k, In a (filter com L) -> nflin (CommitModel.window (CommitModel.uvar "Generator" (u_view a) v) t k)).
  { intros a v t k J. unfold CommitModel.window. apply Forall_map'. intros m _. cbn [snd]. now apply U. }
  apply still_app; apply still_flat; intros a J.
  - unfold CommitModel.commitment, CommitModel.transition, CommitModel.up_time, CommitModel.down_time, CommitModel.stay_up, CommitModel.stay_down,
      CommitModel.con1, CommitModel.status, CommitModel.start_up, CommitModel.shut_down, CommitModel.power.
    repeat (sapp1 || (destruct (Nat.eqb _ 0); [constructor|]) || (apply still_ac; intros t b _; cbn [lhs])).
    all: repeat (apply nflin_app || (apply Forall_cons; [cbn [snd]|]) || apply Forall_nil).
    all: first [now apply U | apply nf_shift; intros; now apply U | now apply W].
  - change (tightened n' a) with (tightened n a). destruct (tightened n a); [|constructor]. unfold CommitModel.tighten, CommitModel.con1, CommitModel.status, CommitModel.start_up, CommitModel.shut_down, CommitModel.power. cbn zeta.
    repeat (sapp1 || (apply still_ac; intros t b _; cbn [lhs])).
    all: repeat (apply nflin_app || (apply Forall_cons; [cbn [snd]|]) || apply Forall_nil).
    all: first [now apply U | apply nf_shift; intros; now apply U | now apply W].
Qed.
Lemma forallb_flat (g : asset -> bool) : (forall a k q, g (part k q a) = g a) -> forallb g L' = forallb g L.
Proof.
  intros H. induction L as [|a l IH]; [reflexivity|]. cbn [flat_map]. rewrite forallb_app, IH. cbn [forallb]. unfold parts_of.
  destruct (target i a); cbn [forallb]; rewrite ?H, ?andb_true_r, ?andb_diag; reflexivity.
Qed.
Lemma early_same : RampModel.early_return (nsnaps n) (map r_view L') = RampModel.early_return (nsnaps n) (map r_view L).
Proof. unfold RampModel.early_return, RampModel.everywhere. rewrite !NamingProofs.forallb_map. rewrite !forallb_flat by reflexivity. reflexivity. Qed.
Ltac lhs_ := cbn [rename map fst snd]; rewrite ?op_rename; reflexivity.
Lemma shift_rename a t attr k q : shift (DispatchModel.op "Generator" "p" (d_view attr (part k q a))) t =
  match shift (DispatchModel.op "Generator" "p" (d_view attr a)) t with Some (s, t, _) => Some (s, t, k) | None => None end.
Proof. destruct t; [reflexivity|apply op_rename]. Qed.
Lemma generator_goes : goes (operation_of n ("Generator", "p", "p_nom", DispatchModel.Other)) (operation_of n' ("Generator", "p", "p_nom", DispatchModel.Other)).
Proof.
  unfold operation_of. change (nsnaps n') with (nsnaps n). change (lossy n') with (lossy n). cbn zeta. rewrite gens_flat. change (has_uc "Generator") with true. cbv beta iota.
  repeat match goal with |- goes (_ ++ _) _ => apply goes_app end.
  - unfold DispatchModel.non_extendables. apply goes_app; apply goes_family; unfold DispatchModel.mk; constructor; cbn [lhs sns rhs]; change (DispatchModel.loss_term "Generator" DispatchModel.Other) with (fun (_ : bool) (_ : Q) (_ : DispatchModel.asset) (_ : nat) => @nil (Q * label)); cbv beta; try reflexivity; intros; first [alone_ | rhs_ | lhs_ | gen_].
  - unfold DispatchModel.extendables. apply goes_app; apply goes_family; unfold DispatchModel.mk; constructor; cbn [lhs sns rhs]; change (DispatchModel.loss_term "Generator" DispatchModel.Other) with (fun (_ : bool) (_ : Q) (_ : DispatchModel.asset) (_ : nat) => @nil (Q * label)); cbv beta; try reflexivity; intros; first [alone_ | ring | lhs_ | gen_].
  - unfold DispatchModel.committables. apply goes_app; apply goes_family; unfold DispatchModel.mk; constructor; cbn [lhs sns rhs]; try reflexivity; intros; first [alone_ | match goal with J : In ?a L, E : target i ?a = true, G : _ = true |- _ => exfalso; change (com a = true) in G; rewrite (not_com a J E) in G; discriminate end].
  - apply commitment_goes.
  - unfold RampModel.ramps. rewrite early_same. destruct (RampModel.early_return _ _); [apply goes_still; constructor|].
    repeat match goal with |- goes (_ ++ _) _ => apply goes_app end.
    + unfold RampModel.fixed_ramps. apply goes_app; apply goes_family; unfold DispatchModel.mk, RampModel.p; constructor; cbn [lhs sns rhs]; try reflexivity; intros; cbn [r_view RampModel.base]; first [alone_ | rhs_ | cbn [rename map fst snd]; rewrite op_rename, shift_rename; reflexivity | gen_].
    + unfold RampModel.extendable_ramps. apply goes_app; apply goes_family; unfold DispatchModel.mk, RampModel.p; constructor; cbn [lhs sns rhs]; try reflexivity; intros; cbn [r_view RampModel.base]; first [alone_ | rhs_ | cbn [rename map fst snd]; rewrite op_rename, shift_rename; reflexivity | gen_].
    + unfold RampModel.com_ramps. apply goes_app; apply goes_family; unfold DispatchModel.mk, RampModel.p, RampModel.status; constructor; cbn [lhs sns rhs]; try reflexivity; intros; cbn [r_view RampModel.base]; first [alone_ | match goal with J : In ?a L, E : target i ?a = true, G : _ = true |- _ => exfalso; change (com a = true) in G; rewrite (not_com a J E) in G; discriminate end].
  - unfold DispatchModel.fixed_operation. apply goes_family'; unfold DispatchModel.mk; constructor; cbn [lhs sns rhs]; try reflexivity; intros; cbn [d_view DispatchModel.fix_set] in *; first [alone_ | lhs_ | gen_ | cbn [part op_set]; destruct (op_set a "p" t); reflexivity | cbn [part op_set] in *; destruct (op_set a "p" t); [reflexivity|discriminate]].
Qed.

(* ---------- other classes ---------- *)
Lemma capacity_goes : goes (capacity n) (capacity n').
Proof.
  unfold capacity, nominal_attrs. cbn [flat_map fst snd]. apply goes_app; [exact nominal_goes|].
  match goal with |- goes ?a ?b => assert (E : b = a) end.
  { unfold capacity_of. rewrite !of_class_same by reflexivity. reflexivity. }
  rewrite E. apply goes_still. clear E. unfold capacity_of. cbn zeta.
  unfold DispatchModel.nominal, DispatchModel.fixed_nominal, DispatchModel.modular, DispatchModel.cap, DispatchModel.n_mod, DispatchModel.vname, DispatchModel.mk.
  repeat (sapp1 || (apply still_ac; intros t a _; cbn [lhs])); try (apply Forall_nil); lst; lab.
Qed.
Definition other_rows : list (string * string * string * DispatchModel.kind) :=
  [("Line", "s", "s_nom", DispatchModel.Passive); ("Transformer", "s", "s_nom", DispatchModel.Passive); ("Link", "p", "p_nom", DispatchModel.Other);
   ("Store", "e", "e_nom", DispatchModel.Other); ("StorageUnit", "p_dispatch", "p_nom", DispatchModel.Storage_dispatch);
   ("StorageUnit", "p_store", "p_nom", DispatchModel.Storage_store);
   ("StorageUnit", "state_of_charge", "p_nom", DispatchModel.Storage_soc)].
Lemma other_commitment c : In c ["Line"; "Transformer"; "Link"; "Store"; "StorageUnit"] -> still (commitment_of n c).
Proof.
  intros J. unfold commitment_of.
  assert (U : forall u v t, In v ["status"; "start_up"; "shut_down"; "p"] -> nf (CommitModel.uvar c u v t)).
  { intros u v t V. unfold CommitModel.uvar.
    repeat (destruct J as [<-|J]; [repeat (destruct V as [<-|V]; [lab|]); destruct V|]). destruct J. }
  assert (W : forall u v t k, In v ["status"; "start_up"; "shut_down"; "p"] -> nflin (CommitModel.window (CommitModel.uvar c u v) t k)).
  { intros u v t k V. unfold CommitModel.window. apply Forall_map'. intros m _. cbn [snd]. now apply U. }
  apply still_app; apply still_flat; intros a _.
  - unfold CommitModel.commitment, CommitModel.transition, CommitModel.up_time, CommitModel.down_time, CommitModel.stay_up, CommitModel.stay_down,
      CommitModel.con1, CommitModel.status, CommitModel.start_up, CommitModel.shut_down, CommitModel.power.
    repeat (sapp1 || (destruct (Nat.eqb _ 0); [constructor|]) || (apply still_ac; intros t b _; cbn [lhs])).
    all: repeat (apply nflin_app || (apply Forall_cons; [cbn [snd]|]) || apply Forall_nil).
    all: first [apply U; cbn; tauto | apply nf_shift; intros; apply U; cbn; tauto | apply W; cbn; tauto].
  - destruct (tightened n a); [|constructor]. unfold CommitModel.tighten, CommitModel.con1, CommitModel.status, CommitModel.start_up, CommitModel.shut_down, CommitModel.power. cbn zeta.
    repeat (sapp1 || (apply still_ac; intros t b _; cbn [lhs])).
    all: repeat (apply nflin_app || (apply Forall_cons; [cbn [snd]|]) || apply Forall_nil).
    all: first [apply U; cbn; tauto | apply nf_shift; intros; apply U; cbn; tauto | apply W; cbn; tauto].
Qed.
Lemma other_same row : In row other_rows -> operation_of n' row = operation_of n row.
Proof.
  intros J. destruct row as [[[c attr] na] k]. unfold operation_of, commitment_of.
  assert (E : of_class n' c = of_class n c).
  { repeat (destruct J as [J|J]; [injection J as <- _ _ _; now apply of_class_same|]). destruct J. }
  rewrite E. reflexivity.
Qed.
Lemma other_still row : In row other_rows -> still (operation_of n row).
Proof.
  intros J. destruct row as [[[c attr] na] k]. unfold operation_of. cbn zeta.
  assert (Cm : still (commitment_of n c)).
  { apply other_commitment. repeat (destruct J as [J|J]; [injection J as <- _ _ _; cbn; tauto|]). destruct J. }
  assert (O : forall v a t, In v [attr; "status"; "loss"; "p"] -> nf (DispatchModel.op c v a t)).
  { intros v a t V. unfold DispatchModel.op, DispatchModel.vname.
    repeat (destruct J as [J|J]; [injection J as <- <- _ _; repeat (destruct V as [<-|V]; [lab|]); destruct V|]). destruct J. }
  assert (Cp : forall a, nf (DispatchModel.cap c na a)).
  { intros a. unfold DispatchModel.cap, DispatchModel.vname. repeat (destruct J as [J|J]; [injection J as <- _ <- _; lab|]). destruct J. }
  assert (Ls : forall k s a t, nflin (DispatchModel.loss_term c k (lossy n) s a t)).
  { intros k0 s a t. unfold DispatchModel.loss_term. destruct (_ && _)%bool; [|constructor]. lst. apply O. cbn; tauto. }
  clear J. unfold DispatchModel.non_extendables, DispatchModel.extendables, DispatchModel.committables, DispatchModel.fixed_operation, DispatchModel.mk.
  sapp; try exact Cm; try (destruct (has_uc c); [unfold RampModel.ramps; destruct (RampModel.early_return _ _); [constructor|];
     unfold RampModel.fixed_ramps, RampModel.extendable_ramps, RampModel.com_ramps, RampModel.p, RampModel.status, DispatchModel.mk; cbn zeta; sapp|constructor]).
  all: apply still_ac; intros t a _; cbn [lhs].
  all: repeat (apply Ls || (apply Forall_cons; [cbn [snd]|]) || apply Forall_nil).
  all: first [apply Cp | apply O; cbn; tauto | apply nf_shift; intros; apply O; cbn; tauto].
Qed.
Lemma operation_goes : goes (operation n) (operation n').
Proof.
  unfold operation. change operations with (("Generator", "p", "p_nom", DispatchModel.Other) :: other_rows). cbn [flat_map]. apply goes_app; [exact generator_goes|].
  rewrite (NamingProofs.flat_map_eq (operation_of n') (operation_of n) other_rows) by (intros; now apply other_same). apply goes_still, still_flat. intros; now apply other_still.
Qed.

(* ---------- balances ---------- *)
Notation ssum := TurnProofs.ssum.
Notation at_bus := TurnProofs.at_bus.
Lemma ssum_nf b l : Forall (fun e => nf (snd (snd e))) l -> ssum (at_bus x b) l == ssum (at_bus y b) l.
Proof. induction 1 as [|e l H G IH]; [reflexivity|]. cbn [TurnProofs.ssum]. rewrite IH. unfold TurnProofs.at_bus. unfold nf in H. destruct (String.eqb _ _); [now rewrite H|reflexivity]. Qed.
Lemma ssum_gens b t : ssum (at_bus x b) (BalanceModel.one 1 "Generator-p" (map c_view L') t) == ssum (at_bus y b) (BalanceModel.one 1 "Generator-p" (map c_view L) t).
Proof.
  unfold BalanceModel.one. rewrite !map_map. assert (H := other_gen). clear - H Same Sum. induction L as [|a l IH]; [reflexivity|].
  cbn [flat_map map]. rewrite map_app, TurnProofs.ssum_app, IH by (intros; apply H; [now right|assumption]). cbn [TurnProofs.ssum]. apply Qplus_comp; [|reflexivity].
  unfold TurnProofs.at_bus. unfold parts_of. destruct (target i a) eqn:E; cbn [map TurnProofs.ssum c_view part BalanceModel.c_bus BalanceModel.c_sign BalanceModel.c_active BalanceModel.c_name bus0 sgn on nm fst snd].
  - destruct (target_class a E) as [_ E2]. rewrite E2. destruct (String.eqb (bus0 a) b); [|ring]. unfold BalanceModel.lab, on. cbn [part flag].
    destruct (flag a); cbn [val]; [rewrite (Sum "Generator-p" t eq_refl)|]; ring.
  - destruct (H a (or_introl eq_refl) E) as [N1 N2]. destruct (String.eqb (bus0 a) b); [|ring]. unfold BalanceModel.lab. destruct (on a t); cbn [val]; [rewrite (Same "Generator-p" t (nm a)) by auto|]; ring.
Qed.
Lemma same_classes : of_class n' "Store" = of_class n "Store" /\ of_class n' "StorageUnit" = of_class n "StorageUnit" /\ of_class n' "Line" = of_class n "Line" /\
  of_class n' "Transformer" = of_class n "Transformer" /\ of_class n' "Link" = of_class n "Link".
Proof. repeat split; now apply of_class_same. Qed.
Lemma nf_lab f v k t : of_generator v = false -> nf (BalanceModel.lab f v k t).
Proof. intros A. unfold BalanceModel.lab. now apply nf_if. Qed.
Lemma br_nf s0 s1 v l t : of_generator v = false -> Forall (fun e => nf (snd (snd e))) (BalanceModel.br s0 s1 v l t).
Proof. intros A. unfold BalanceModel.br. apply Forall_app. split; apply Forall_map'; intros a _; now apply nf_lab. Qed.
Lemma sum_split b t : ssum (at_bus x b) (BalanceModel.entries (b_net n') (lossy n') t) == ssum (at_bus y b) (BalanceModel.entries (b_net n) (lossy n) t).
Proof.
  unfold BalanceModel.entries. cbn [b_net BalanceModel.gens BalanceModel.stores BalanceModel.units BalanceModel.lines BalanceModel.trafos BalanceModel.links].
  destruct same_classes as (-> & -> & -> & -> & ->). rewrite gens_flat. change (lossy n') with (lossy n). rewrite !TurnProofs.ssum_app.
  apply Qplus_comp; [apply ssum_gens|].
  repeat (apply Qplus_comp; [|]).
  1-3: unfold BalanceModel.one; apply ssum_nf, Forall_map'; intros a _; cbn [snd]; now apply nf_lab.
  1-2: now apply ssum_nf, br_nf.
  - apply ssum_nf, Forall_map'. intros a _. now apply nf_lab.
  - apply ssum_nf, Forall_map'. intros a _. now apply nf_lab.
  - apply ssum_nf. apply Forall_flat_map, Forall_forall. intros l _. apply Forall_map'. intros a _. now apply nf_lab.
  - destruct (lossy n); [|reflexivity]. rewrite !TurnProofs.ssum_app. apply Qplus_comp; now apply ssum_nf, br_nf.
Qed.
Lemma reach_gens (p : string -> bool -> bool) sg v t :
  existsb (fun e => p (fst e) (TurnProofs.live (snd (snd e)))) (BalanceModel.one sg v (map c_view L') t) = existsb (fun e => p (fst e) (TurnProofs.live (snd (snd e)))) (BalanceModel.one sg v (map c_view L) t).
Proof.
  unfold BalanceModel.one. rewrite !map_map, !NamingProofs.existsb_map. induction L as [|a l IH]; [reflexivity|]. cbn [flat_map existsb]. rewrite existsb_app, IH. f_equal. unfold parts_of.
  destruct (target i a); cbn [existsb fst snd]; [|now rewrite orb_false_r]. unfold BalanceModel.lab. cbn [c_view part BalanceModel.c_bus BalanceModel.c_active BalanceModel.c_name bus0 nm]. unfold on. cbn [part flag].
  destruct (flag a); cbn [TurnProofs.live]; now rewrite orb_false_r, orb_diag.
Qed.
Lemma reach (p : string -> bool -> bool) t : existsb (fun e => p (fst e) (TurnProofs.live (snd (snd e)))) (BalanceModel.entries (b_net n') (lossy n') t) =
  existsb (fun e => p (fst e) (TurnProofs.live (snd (snd e)))) (BalanceModel.entries (b_net n) (lossy n) t).
Proof.
  unfold BalanceModel.entries. cbn [b_net BalanceModel.gens BalanceModel.stores BalanceModel.units BalanceModel.lines BalanceModel.trafos BalanceModel.links].
  destruct same_classes as (-> & -> & -> & -> & ->). rewrite gens_flat. change (lossy n') with (lossy n). rewrite !existsb_app. f_equal. apply reach_gens.
Qed.
Lemma empty_split b t : BalanceModel.is_empty (BalanceModel.balance_lhs (b_net n') (lossy n') b t) = BalanceModel.is_empty (BalanceModel.balance_lhs (b_net n) (lossy n) b t).
Proof. rewrite !TurnProofs.empty_reach. f_equal. exact (reach (fun b' l => String.eqb b' b && l)%bool t). Qed.

Definition agrees (o o' : option (list con)) : Prop :=
  match o, o' with Some cs, Some cs' => goes cs cs' | None, None => True | _, _ => False end.
Lemma balances_goes : agrees (balances n) (balances n').
Proof.
  unfold balances, BalanceModel.balance.
  assert (E1 : BalanceModel.no_terms (b_net n') (lossy n') (buses n') = BalanceModel.no_terms (b_net n) (lossy n) (buses n)).
  { unfold BalanceModel.no_terms. f_equal. exact (reach (fun b _ => existsb (String.eqb b) (buses n)) 0). }
  assert (E2 : BalanceModel.empty_demand (b_net n') (lossy n') (buses n') (nsnaps n') = BalanceModel.empty_demand (b_net n) (lossy n) (buses n) (nsnaps n)).
  { unfold BalanceModel.empty_demand. cbn [split buses nsnaps]. apply NamingProofs.existsb_eq. intros t. apply NamingProofs.existsb_eq. intros b.
    now rewrite empty_split. }
  rewrite E1, E2. destruct (_ || _)%bool; [exact I|]. cbn [agrees]. cbn [split buses nsnaps]. fold n'.
  assert (G : forall b t, eval x (BalanceModel.balance_lhs (b_net n') (lossy n') b t) == eval y (BalanceModel.balance_lhs (b_net n) (lossy n) b t)).
  { intros b t. rewrite !TurnProofs.lhs_sum. apply sum_split. }
  split; [|intros _]; rewrite !sat_ac; intros H t b It Ib M _; specialize (H t b It Ib).
  - rewrite TurnProofs.has_empty, empty_split, M in H. specialize (H eq_refl eq_refl). unfold holds in *. cbn [lhs sns rhs] in *. rewrite G in H. exact H.
  - rewrite empty_split in M. rewrite TurnProofs.has_empty, M in H. specialize (H eq_refl eq_refl). unfold holds in *. cbn [lhs sns rhs] in *. rewrite G. exact H.
Qed.

(* ---------- sums over generators ---------- *)
Record sums (h : asset -> lin) : Prop := {
  sum_alone : forall a, In a L -> nm a <> i -> nm a <> j -> nflin (h a);
  sum_share : forall a k q, target i a = true -> h (part k q a) = rename k (h a);
  sum_gens : forall a, target i a = true -> gens_only (h a) }.
Lemma eval_flat h : sums h -> eval x (flat_map h L') == eval y (flat_map h L).
Proof.
  intros [H1 H2 H3]. assert (O := other_gen). clear - H1 H2 H3 O Sum. induction L as [|a l IH]; [reflexivity|]. cbn [flat_map]. rewrite flat_map_app, !CapProofs.eval_app', IH;
    [|intros b J; apply H1; now right|intros b J; apply O; now right].
  apply Qplus_comp; [|reflexivity]. unfold parts_of. destruct (target i a) eqn:E; cbn [flat_map]; rewrite !app_nil_r.
  - rewrite CapProofs.eval_app', !H2 by exact E. symmetry. now apply eval_sum, H3.
  - destruct (O a (or_introl eq_refl) E). apply nf_eval, H1; auto. now left.
Qed.
Lemma live_rename k l : existsb (fun cv : Q * label => match snd cv with Some _ => true | None => false end) (rename k l) = existsb (fun cv : Q * label => match snd cv with Some _ => true | None => false end) l.
Proof. unfold rename. rewrite NamingProofs.existsb_map. apply NamingProofs.existsb_eq. intros [q [[[s t] k']|]]; reflexivity. Qed.
Lemma live_flat h : sums h -> existsb (fun cv : Q * label => match snd cv with Some _ => true | None => false end) (flat_map h L') = existsb (fun cv : Q * label => match snd cv with Some _ => true | None => false end) (flat_map h L).
Proof.
  intros [H1 H2 H3]. clear - H2. induction L as [|a l IH]; [reflexivity|]. cbn [flat_map]. rewrite flat_map_app, !existsb_app, IH. f_equal. unfold parts_of.
  destruct (target i a) eqn:E; cbn [flat_map]; rewrite !app_nil_r; [|reflexivity]. rewrite existsb_app, !H2, !live_rename by exact E. apply orb_diag.
Qed.
Lemma exists_flat (g : asset -> bool) : (forall a k q, g (part k q a) = g a) -> existsb g L' = existsb g L.
Proof.
  intros H. induction L as [|a l IH]; [reflexivity|]. cbn [flat_map]. rewrite existsb_app, IH. cbn [existsb]. f_equal. unfold parts_of.
  destruct (target i a); cbn [existsb]; rewrite ?H, ?orb_false_r, ?orb_diag; reflexivity.
Qed.
Lemma flat_filter {A B} (p : A -> bool) (h : A -> list B) l : flat_map h (filter p l) = flat_map (fun a => if p a then h a else []) l.
Proof. induction l as [|a l IH]; [reflexivity|]. cbn [filter flat_map]. destruct (p a); cbn [flat_map app]; now rewrite IH. Qed.
Lemma map_flat {A B} (h : A -> B) l : map h l = flat_map (fun a => [h a]) l.
Proof. induction l as [|a l IH]; [reflexivity|]. cbn [map flat_map app]. now rewrite IH. Qed.
Lemma goes_one c c' : sns c' = sns c -> rhs c' = rhs c -> eval x (lhs c') == eval y (lhs c) -> CapModel.has_term c' = CapModel.has_term c -> goes [c] [c'].
Proof.
  intros E1 E2 E3 E4. assert (H : holds x c' <-> holds y c) by (unfold holds; rewrite E1, E2; destruct (sns c); rewrite E3; reflexivity).
  unfold goes, CapModel.problem. cbn [filter]. rewrite E4. destruct (CapModel.has_term c); [|split; [|intros _]; intros _ b []].
  split; [|intros _]; intros S' b [<-|[]]; apply H; exact (S' _ (or_introl eq_refl)).
Qed.

(* ---------- storage, supplies, losses ---------- *)
Lemma nf_var a v t : of_generator v = false -> nf (StorageModel.var_of a v t).
Proof. intros A. unfold StorageModel.var_of. now apply nf_if. Qed.
Lemma nf_ffill f t : (forall t, nf (f t)) -> nf (StorageModel.ffill f t).
Proof.
  intros H. induction t as [|t IH]; cbn [StorageModel.ffill]; [pose proof (H O) as G; destruct (f O); [exact G|apply nf_none]|].
  pose proof (H (S t)) as G. destruct (f (S t)); [exact G|exact IH].
Qed.
Lemma nf_previous T lev a t : of_generator lev = false -> nf (StorageModel.previous T lev a t).
Proof.
  intros A. unfold StorageModel.previous, StorageModel.where_ at 1. destruct (StorageModel.include_previous a t); [|apply nf_none].
  apply nf_ffill. intros s. unfold StorageModel.roll.
  assert (G : forall s, nf (StorageModel.ffill (StorageModel.where_ (StorageModel.level lev a) (StorageModel.s_active a)) s)).
  { intros u. apply nf_ffill. intros w. unfold StorageModel.where_. destruct (StorageModel.s_active a w); [|apply nf_none]. now apply nf_var. }
  destruct s; apply G.
Qed.
Lemma energy_still T lev a fl infl : of_generator lev = false -> (forall t, nflin (fl t)) -> still (StorageModel.energy_balance T None lev a fl infl).
Proof.
  intros A G. unfold StorageModel.energy_balance. apply still_ac. intros t b _. cbn [lhs]. apply Forall_cons; [cbn [snd]; now apply nf_var|]. apply nflin_app; [apply G|].
  apply Forall_cons; [cbn [snd]; now apply nf_previous|apply Forall_nil].
Qed.
Lemma units_goes : goes (storage_units n) (storage_units n').
Proof.
  unfold storage_units. destruct same_classes as (_ & -> & _). apply goes_still, still_flat. intros a _. apply energy_still; [reflexivity|]. intros t. unfold StorageModel.unit_flows.
  lst; [now apply nf_var|now apply nf_var|]. unfold StorageModel.spill_label. destruct (negb _); [now apply nf_var|apply nf_none].
Qed.
Lemma stores_goes : goes (stores n) (stores n').
Proof. unfold stores. destruct same_classes as (-> & _). apply goes_still, still_flat. intros a _. apply energy_still; [reflexivity|]. intros t. lst. now apply nf_var. Qed.
Lemma option_ac {U} (o : U -> option Q) (r : U -> lin) s us : flat_map (fun u => match o u with Some q => [{| lhs := r u; sns := s; rhs := q |}] | None => [] end) us =
  add_constraints [O] us (fun _ u => match o u with Some _ => true | None => false end) (fun _ u => {| lhs := r u; sns := s; rhs := match o u with Some q => q | None => 0 end |}).
Proof. unfold add_constraints. cbn [flat_map]. rewrite app_nil_r. apply NamingProofs.flat_map_eq. intros u _. destruct (o u); reflexivity. Qed.
Lemma supplies_goes : goes (supplies n) (supplies n').
Proof.
  unfold supplies, CapModel.total_supply. rewrite gens_flat. change (nsnaps n') with (nsnaps n). change (w_gen n') with (w_gen n).
  assert (T1 : forall a k q, CapModel.supply_terms (w_gen n) (seq 0 (nsnaps n)) (sup_view (part k q a)) = rename k (CapModel.supply_terms (w_gen n) (seq 0 (nsnaps n)) (sup_view a))).
  { intros a k q. unfold CapModel.supply_terms, rename. rewrite map_map. apply map_ext. intros t. cbn [sup_view CapModel.u_active CapModel.u_name part nm fst snd]. unfold on. cbn [part flag]. destruct (flag a); reflexivity. }
  assert (T2 : forall a, target i a = true -> gens_only (CapModel.supply_terms (w_gen n) (seq 0 (nsnaps n)) (sup_view a))).
  { intros a E. destruct (target_class a E) as [_ E2]. apply Forall_map'. intros t _. cbn [snd sup_view CapModel.u_active CapModel.u_name]. destruct (on a t); [split; [reflexivity|exact E2]|exact I]. }
  assert (T3 : forall a, nm a <> i -> nm a <> j -> nflin (CapModel.supply_terms (w_gen n) (seq 0 (nsnaps n)) (sup_view a))).
  { intros a A B. apply Forall_map'. intros t _. cbn [snd]. now apply nf_name. }
  rewrite !option_ac. apply goes_app; apply goes_family'; constructor; cbn [lhs sns rhs]; try reflexivity; intros; auto.
  all: cbn [sup_view CapModel.u_min CapModel.u_max part e_min e_max] in *; first [destruct (e_min a); first [reflexivity|discriminate]|destruct (e_max a); first [reflexivity|discriminate]].
Qed.
Lemma losses_goes c : In c ["Line"; "Transformer"] -> agrees (losses n c) (losses n' c).
Proof.
  intros J. unfold losses. assert (E : of_class n' c = of_class n c) by (repeat (destruct J as [<-|J]; [now apply of_class_same|]); destruct J).
  rewrite E. change (lossy n') with (lossy n). change (nsnaps n') with (nsnaps n). change (tangents n') with (tangents n). destruct (lossy n); [|apply goes_still; constructor].
  unfold LossModel.loss_constraints. destruct (map lo_view (of_class n c)) as [|b bs]; [apply goes_still; constructor|]. destruct (forallb _ _); [|exact I]. cbn [agrees]. apply goes_still.
  assert (V : forall v, In v ["-loss"; "-s"] -> of_generator (c ++ v) = false).
  { intros v V. repeat (destruct J as [<-|J]; [repeat (destruct V as [<-|V]; [reflexivity|]); destruct V|]). destruct J. }
  apply still_app; [unfold LossModel.upper; apply still_ac; intros t a _; cbn [lhs]; lst; apply nf_if, V; cbn; tauto|].
  apply still_flat. intros k _. apply still_flat. intros s _. unfold LossModel.tangent. apply still_ac. intros t a _. cbn [lhs]. lst; apply nf_if, V; cbn; tauto.
Qed.

(* ---------- limits ---------- *)
Lemma nf_final lev s sel : of_generator lev = false -> nf (LimitModel.final_label lev s sel).
Proof.
  intros A. unfold LimitModel.final_label. assert (G : nf None) by apply nf_none. revert G. generalize (@None var) as acc. induction sel as [|t sel IH]; intros acc G; [exact G|].
  cbn [fold_left]. apply IH. pose proof (nf_var s lev t A) as H. unfold StorageModel.level. destruct (StorageModel.var_of s lev t); assumption.
Qed.
Lemma lnon {A} (p : A -> bool) l : LimitModel.nonempty (filter p l) = existsb p l.
Proof. induction l as [|a l IH]; [reflexivity|]. cbn [filter existsb]. destruct (p a); [reflexivity|exact IH]. Qed.
Lemma limit_con_goes attr em coef coef' g sel : (forall a k q t, coef' (g_view (part k q a)) t = coef (g_view a) t) -> (forall a t, coef' (g_view a) t = coef (g_view a) t) ->
  agrees (rows_of (LimitModel.limit_con (lim_net n attr) em coef g sel)) (rows_of (LimitModel.limit_con (lim_net n' attr) em coef' g sel)).
Proof.
  intros Hc Hs. unfold LimitModel.limit_con, LimitModel.my_units, LimitModel.my_stores, LimitModel.gen_terms, LimitModel.my_gens. cbn [lim_net LimitModel.gens LimitModel.units LimitModel.stores]. rewrite gens_flat.
  destruct same_classes as (-> & -> & _).
  assert (E : LimitModel.nonempty (filter (fun g => LimitModel.concerned em (LimitModel.g_carrier g)) (map g_view L')) = LimitModel.nonempty (filter (fun g => LimitModel.concerned em (LimitModel.g_carrier g)) (map g_view L))).
  { rewrite !lnon, !NamingProofs.existsb_map. apply exists_flat. reflexivity. }
  rewrite E. destruct (_ || _)%bool; [|apply goes_still; constructor]. cbn [rows_of agrees].
  set (h := fun a => if LimitModel.concerned em (carrier a) then map (fun t => (LimitModel.em_of em (carrier a) * coef (g_view a) t, LimitModel.gen_var (g_view a) t)) sel else []).
  assert (Hh : sums h).
  { constructor.
    - intros a J A B. unfold h. destruct (LimitModel.concerned _ _); [|constructor]. apply Forall_map'. intros t _. cbn [snd]. unfold LimitModel.gen_var. now apply nf_name.
    - intros a k q T. unfold h. cbn [part carrier]. destruct (LimitModel.concerned _ _); [|reflexivity]. unfold rename. rewrite map_map. apply map_ext. intros t. cbn [fst snd].
      rewrite <- (Hs (part k q a)), Hc. unfold LimitModel.gen_var. cbn [g_view LimitModel.g_active LimitModel.g_name]. unfold on. cbn [part flag nm]. destruct (flag a); reflexivity.
    - intros a T. destruct (target_class a T) as [_ E2]. unfold h. destruct (LimitModel.concerned _ _); [|constructor]. apply Forall_map'. intros t _. cbn [snd]. unfold LimitModel.gen_var.
      destruct (LimitModel.g_active _ t); [split; [reflexivity|exact E2]|exact I]. }
  assert (G1 : forall l c, (forall a t, c (g_view a) t = coef (g_view a) t) -> flat_map (fun g0 => map (fun t => (LimitModel.em_of em (LimitModel.g_carrier g0) * c g0 t, LimitModel.gen_var g0 t)) sel) (filter (fun g0 => LimitModel.concerned em (LimitModel.g_carrier g0)) (map g_view l)) = flat_map h l).
  { intros l c Hcc. rewrite flat_filter, NamingProofs.flat_map_map. apply NamingProofs.flat_map_eq. intros a _. unfold h. cbn [g_view LimitModel.g_carrier]. destruct (LimitModel.concerned em (carrier a)); [|reflexivity].
    apply map_ext. intros t. change {| LimitModel.g_name := nm a; LimitModel.g_carrier := carrier a; LimitModel.g_active := on a; LimitModel.g_eff := eff a |} with (g_view a). now rewrite Hcc. }
  rewrite (G1 L' coef' Hs), (G1 L coef (fun _ _ => eq_refl)).
  match goal with |- goes [{| lhs := _ ++ ?r |}] _ => set (rest := r) end.
  assert (R : nflin rest). { apply nflin_app; apply Forall_map'; intros u _; cbn [snd]; now apply nf_final. }
  apply goes_one; cbn [lhs sns rhs]; [reflexivity|reflexivity| |].
  - rewrite !CapProofs.eval_app', (eval_flat h Hh), (nf_eval _ R). reflexivity.
  - unfold CapModel.has_term. cbn [lhs]. rewrite !existsb_app. f_equal. exact (live_flat h Hh).
Qed.
Lemma limit_goes l : agrees (limit_rows n l) (limit_rows n' l).
Proof.
  destruct l as [attr s q|c s q|cs s q|cs s q]; cbn [limit_rows].
  - unfold LimitModel.primary_energy, LimitModel.selected. cbn [LimitModel.inv_period].
    change (LimitModel.emissions (lim_net n' attr)) with (LimitModel.emissions (lim_net n attr)). change (LimitModel.nsnaps (lim_net n' attr)) with (LimitModel.nsnaps (lim_net n attr)).
    destruct (LimitModel.nonempty _); [|apply goes_still; constructor]. now apply limit_con_goes.
  - unfold LimitModel.operational_limit, LimitModel.selected. cbn [LimitModel.inv_period]. change (LimitModel.nsnaps (lim_net n' c)) with (LimitModel.nsnaps (lim_net n c)). now apply limit_con_goes.
  - assert (E : forall c, In c ["Line"; "Transformer"; "Link"] -> CapModel.ext_i (k_net n') c = CapModel.ext_i (k_net n) c).
    { intros c J. rewrite !TurnProofs.kext_base. repeat (destruct J as [<-|J]; [now rewrite of_class_same|]). destruct J. }
    unfold CapModel.volume_limit, CapModel.transmission, CapModel.t_named, CapModel.t_terms. cbn [CapModel.branches existsb flat_map fst snd]. unfold CapModel.t_named. rewrite !E by (cbn; tauto).
    change (CapModel.t_active (k_net n')) with (CapModel.t_active (k_net n)).
    destruct (_ || _)%bool; [|apply goes_still; constructor]. change (CapModel.bad_period (k_net n')) with (CapModel.bad_period (k_net n)). destruct (CapModel.bad_period _ _); [exact I|]. cbn [rows agrees]. apply goes_still.
    constructor; [|constructor]. cbn [lhs]. repeat apply nflin_app; try constructor; (destruct (CapModel.nonempty _); [|constructor]); apply Forall_map'; intros a _; cbn [fst snd]; unfold CapModel.nom_label, CapModel.vname; lab.
  - assert (E : forall c, In c ["Line"; "Transformer"; "Link"] -> CapModel.ext_i (k_net n') c = CapModel.ext_i (k_net n) c).
    { intros c J. rewrite !TurnProofs.kext_base. repeat (destruct J as [<-|J]; [now rewrite of_class_same|]). destruct J. }
    unfold CapModel.cost_limit. change (CapModel.multi (k_net n')) with false. change (CapModel.multi (k_net n)) with false. rewrite !andb_false_r. cbn [andb].
    unfold CapModel.transmission, CapModel.t_named, CapModel.t_terms. cbn [CapModel.branches existsb flat_map fst snd]. unfold CapModel.t_named. rewrite !E by (cbn; tauto).
    change (CapModel.t_active (k_net n')) with (CapModel.t_active (k_net n)). change (CapModel.cost_weight (k_net n')) with (CapModel.cost_weight (k_net n)).
    destruct (_ || _)%bool; [|apply goes_still; constructor]. change (CapModel.bad_period (k_net n')) with (CapModel.bad_period (k_net n)). destruct (CapModel.bad_period _ _); [exact I|]. cbn [rows agrees]. apply goes_still.
    constructor; [|constructor]. cbn [lhs]. repeat apply nflin_app; try constructor; (destruct (CapModel.nonempty _); [|constructor]); apply Forall_map'; intros a _; cbn [fst snd]; unfold CapModel.nom_label, CapModel.vname; lab.
Qed.

(* ---------- columns of the buses ---------- *)
Lemma kext_same c : String.eqb c "Generator" = false -> CapModel.ext_i (k_net n') c = CapModel.ext_i (k_net n) c.
Proof. intros E. now rewrite !TurnProofs.kext_base, of_class_same. Qed.
Lemma filters {A B C} (v : A -> B) (g : B -> C) (e : A -> bool) p1 p2 p3 l :
  map g (filter p1 (filter p2 (filter p3 (map v (filter e l))))) = flat_map (fun a => if e a && p3 (v a) && p2 (v a) && p1 (v a) then [g (v a)] else []) l.
Proof.
  induction l as [|a l IH]; [reflexivity|]. cbn [filter flat_map]. rewrite <- IH. destruct (e a); [|reflexivity]. cbn [map filter]. destruct (p3 (v a)); [|reflexivity]. cbn [filter].
  destruct (p2 (v a)); [|reflexivity]. cbn [filter]. destruct (p1 (v a)); reflexivity.
Qed.
Lemma some_left {A B} (v : A -> B) (e : A -> bool) p2 p3 l : CapModel.nonempty (filter p2 (filter p3 (map v (filter e l)))) = existsb (fun a => e a && p3 (v a) && p2 (v a)) l.
Proof.
  induction l as [|a l IH]; [reflexivity|]. cbn [filter existsb]. rewrite <- IH. destruct (e a); [|reflexivity]. cbn [map filter]. destruct (p3 (v a)); [|reflexivity]. cbn [filter].
  destruct (p2 (v a)); reflexivity.
Qed.
Lemma any_same ca p : CapModel.bus_any (k_net n') ca p = CapModel.bus_any (k_net n) ca p.
Proof.
  unfold CapModel.bus_any. cbn [CapModel.nominal existsb fst]. f_equal.
  - f_equal. unfold CapModel.tech_assets. rewrite !TurnProofs.kext_base, gens_flat, !some_left. apply exists_flat. reflexivity.
  - unfold CapModel.tech_assets. rewrite !kext_same by reflexivity. reflexivity.
Qed.
Lemma column_goes col : agrees (column_rows n col) (column_rows n' col).
Proof.
  unfold column_rows, CapModel.bus_column. change (carriers n') with (carriers n). change (buses n') with (buses n).
  destruct (CapModel.parse _ _ _ _ _) as [s ca p| |]; [|apply goes_still; constructor|exact I]. cbn [agrees]. rewrite any_same.
  destruct (CapModel.bus_any _ _ _); [|apply goes_still; constructor].
  induction (buses n) as [|b l IH]; [apply goes_still; constructor|]. cbn [flat_map]. apply goes_app; [|exact IH]. destruct (CapModel.col_val col b); [|apply goes_still; constructor].
  set (h := fun a => if ext a && String.eqb (CapModel.k_carrier (k_view a)) ca && (match p with Some p => CapModel.k_in (k_view a) p | None => true end) && String.eqb (CapModel.k_bus (k_view a)) b
    then [(1, CapModel.nom_label "Generator" "p_nom" (k_view a))] else []).
  assert (Hh : sums h).
  { constructor.
    - intros a J A B. unfold h. destruct (_ && _)%bool; [|constructor]. constructor; [|constructor]. cbn [snd]. exact (nf_name true _ O _ A B).
    - intros a k q' T. unfold h. cbn [k_view part ext CapModel.k_carrier CapModel.k_in CapModel.k_bus carrier bus0 flag]. destruct (_ && _)%bool; reflexivity.
    - intros a T. destruct (target_class a T) as [_ E2]. unfold h. destruct (_ && _)%bool; [|constructor]. constructor; [|constructor]. split; [reflexivity|exact E2]. }
  assert (R : forall m l, of_class m "Generator" = l -> exists r, CapModel.bus_terms (k_net m) ca p b = flat_map h l ++ r /\
     r = flat_map (fun c => if CapModel.one_port (fst c) && CapModel.has_carrier (k_net m) (fst c) then map (fun a => (1, CapModel.nom_label (fst c) (snd c) a)) (filter (fun a => String.eqb (CapModel.k_bus a) b) (CapModel.tech_assets (k_net m) ca p (fst c))) else []) (tl CapModel.nominal)).
  { intros m l' <-. eexists. split; [|reflexivity]. unfold CapModel.bus_terms. change CapModel.nominal with (("Generator", "p_nom") :: tl CapModel.nominal) at 1. cbn [flat_map fst snd]. apply (f_equal2 (@app _)); [|reflexivity].
    unfold CapModel.tech_assets. rewrite TurnProofs.kext_base.
    change (CapModel.one_port "Generator" && CapModel.has_carrier (k_net m) "Generator")%bool with true. cbn iota. rewrite filters. reflexivity. }
  destruct (R n _ eq_refl) as (r & E1 & Er). destruct (R n' _ gens_flat) as (r' & E2 & Er').
  assert (Err : r' = r).
  { subst r r'. cbn [CapModel.nominal tl flat_map fst snd]. unfold CapModel.tech_assets. rewrite !kext_same by reflexivity. reflexivity. }
  rewrite E1, E2, Err. assert (Nr : nflin r).
  { rewrite Er. apply Forall_flat_map, Forall_forall. intros [c at_] J. cbn [fst snd]. destruct (_ && _)%bool; [|constructor]. apply Forall_map'. intros a _. cbn [snd]. unfold CapModel.nom_label, CapModel.vname.
    repeat (destruct J as [J|J]; [injection J as <- <-; lab|]). destruct J. }
  clear Er Er' E1 E2 R Err.
  apply goes_one; cbn [lhs sns rhs]; [reflexivity|reflexivity| |].
  - rewrite !CapProofs.eval_app', (eval_flat h Hh), (nf_eval _ Nr). reflexivity.
  - unfold CapModel.has_term. cbn [lhs]. rewrite !existsb_app. f_equal. exact (live_flat h Hh).
Qed.

(* ---------- together ---------- *)
Lemma agrees_collect l l' : Forall2 agrees l l' -> agrees (collect l) (collect l').
Proof.
  induction 1 as [|o o' l l' H G IH]; cbn [collect]; [apply goes_still; constructor|].
  destruct o as [cs|], o' as [cs'|]; try contradiction; [|exact I].
  destruct (collect l) as [r1|], (collect l') as [r2|]; try contradiction; [|exact I]. cbn [option_map agrees]. now apply goes_app.
Qed.
Lemma passive_same : filter passive (assets n') = filter passive (assets n).
Proof.
  cbn [split assets]. clear Cl Fj Tg. induction (assets n) as [|a l IH]; [reflexivity|]. cbn [flat_map]. rewrite filter_app, IH. unfold parts_of. destruct (target i a) eqn:E; [|now rewrite <- (filter_app passive [a] l)].
  destruct (target_class a E) as [E1 _]. cbn [filter]. unfold passive. cbn [part cls]. rewrite E1. reflexivity.
Qed.
Lemma model_goes kvl : kvl_flows kvl (filter passive (assets n)) -> agrees (create_model kvl n) (create_model kvl n').
Proof.
  intros K. unfold create_model, parts. apply agrees_collect. apply Forall2_app; [|apply Forall2_app].
  - repeat apply Forall2_cons; try apply Forall2_nil.
    + exact capacity_goes.
    + exact operation_goes.
    + exact balances_goes.
    + rewrite passive_same. assert (H : sat x (CapModel.problem (kvl (filter passive (assets n)))) <-> sat y (CapModel.problem (kvl (filter passive (assets n))))).
      { apply K. intros s t k J. apply Same. left. destruct J as [-> | ->]; reflexivity. }
      split; [|intros _]; apply H.
    + exact units_goes.
    + exact stores_goes.
    + exact supplies_goes.
    + apply losses_goes. cbn; tauto.
    + apply losses_goes. cbn; tauto.
  - cbn [split limits]. induction (limits n) as [|l ls IH]; cbn [map]; constructor; [|exact IH]. apply limit_goes.
  - cbn [split columns]. induction (columns n) as [|l ls IH]; cbn [map]; constructor; [|exact IH]. apply column_goes.
Qed.

(* ---------- objective ---------- *)
Lemma nf_square l : nflin l -> ObjectiveModel.square x l == ObjectiveModel.square y l.
Proof. induction 1 as [|[q v] l H G IH]; [reflexivity|]. cbn [ObjectiveModel.square]. unfold nf in H. cbn [snd] in H. now rewrite IH, H. Qed.
Definition prel (p p' : ObjectiveModel.piece) : Prop :=
  match p, p' with
  | ObjectiveModel.Linear l, ObjectiveModel.Linear l' => eval x l' == eval y l
  | ObjectiveModel.Square l, ObjectiveModel.Square l' => ObjectiveModel.square x l' == ObjectiveModel.square y l
  | ObjectiveModel.Missing, ObjectiveModel.Missing => True
  | _, _ => False
  end.
Definition pstill (p : ObjectiveModel.piece) : Prop := match p with ObjectiveModel.Linear l | ObjectiveModel.Square l => nflin l | _ => True end.
Lemma prel_still ps : Forall pstill ps -> Forall2 prel ps ps.
Proof. induction 1 as [|p l H G IH]; constructor; [|exact IH]. destruct p; cbn [prel pstill] in *; [now apply nf_eval|now apply nf_square|exact I]. Qed.
Lemma f2_flat {R} (g g' : R -> list ObjectiveModel.piece) rs : (forall r, In r rs -> Forall2 prel (g r) (g' r)) -> Forall2 prel (flat_map g rs) (flat_map g' rs).
Proof. induction rs as [|r rs IH]; intros H; cbn [flat_map]; [constructor|]. apply Forall2_app; [apply H; now left|apply IH; intros r' J; apply H; now right]. Qed.
Lemma o_cls m c : ObjectiveModel.cls (o_net m) c = map o_view (of_class m c).
Proof. unfold ObjectiveModel.cls, of_class. cbn [o_net ObjectiveModel.assets]. rewrite NamingProofs.filter_map. reflexivity. Qed.
Lemma o_same c : String.eqb c "Generator" = false -> ObjectiveModel.cls (o_net n') c = ObjectiveModel.cls (o_net n) c.
Proof. intros E. now rewrite !o_cls, of_class_same. Qed.
Lemma onon {A} (p : A -> bool) l : ObjectiveModel.nonempty (filter p l) = existsb p l.
Proof. induction l as [|a l IH]; [reflexivity|]. cbn [filter existsb]. destruct (p a); [reflexivity|exact IH]. Qed.
Lemma onon_flat : ObjectiveModel.nonempty (map o_view L') = ObjectiveModel.nonempty (map o_view L).
Proof. destruct L as [|a l]; [reflexivity|]. cbn [flat_map]. unfold parts_of at 1. destruct (target i a); reflexivity. Qed.
Lemma filter_same (p : asset -> bool) : (forall a k q, In a L -> target i a = true -> p a = false /\ p (part k q a) = false) -> filter p L' = filter p L.
Proof.
  intros H. rewrite filter_flat. assert (G : forall a, In a L -> filter p (sp a) = filter p [a]).
  { intros a J. unfold parts_of. destruct (target i a) eqn:E; [|reflexivity]. cbn [filter]. destruct (H a i th J E) as [-> ->]. destruct (H a j (1 - th) J E) as [_ ->]. reflexivity. }
  rewrite (NamingProofs.flat_map_eq _ _ _ G). rewrite <- filter_flat. f_equal. clear. induction L as [|a l IH]; [reflexivity|]. cbn [flat_map app]. now rewrite IH.
Qed.
Lemma nf_op c attr a t : of_generator (c ++ "-" ++ attr) = false -> nf (ObjectiveModel.op_label c attr a t).
Proof. intros A. unfold ObjectiveModel.op_label, ObjectiveModel.vname. cbn zeta. now apply nf_if. Qed.
Lemma terms_still m f lab_ l : (forall a t, In a l -> nf (lab_ a t)) -> nflin (ObjectiveModel.terms m f lab_ l).
Proof. intros H. unfold ObjectiveModel.terms. apply Forall_flat_map, Forall_forall. intros a J. apply Forall_map'. intros t _. now apply H. Qed.
Lemma oper_gen f : (forall a k q, f (o_view (part k q a)) = f (o_view a)) ->
  Forall2 prel (ObjectiveModel.operation (o_net n) ObjectiveModel.Linear f [("Generator", "p")]) (ObjectiveModel.operation (o_net n') ObjectiveModel.Linear f [("Generator", "p")]).
Proof.
  intros Hf. unfold ObjectiveModel.operation. cbn [flat_map fst snd]. unfold ObjectiveModel.exists_array. change (ObjectiveModel.is_spill (ObjectiveModel.vname "Generator" "p")) with false. cbn iota.
  rewrite !o_cls, gens_flat, !onon, onon_flat, !NamingProofs.existsb_map.
  change (ObjectiveModel.charged (o_net n')) with (ObjectiveModel.charged (o_net n)).
  assert (Hcg : forall a k q, ObjectiveModel.charged (o_net n) f (o_view (part k q a)) = ObjectiveModel.charged (o_net n) f (o_view a)).
  { intros a k q. unfold ObjectiveModel.charged. now rewrite Hf. }
  rewrite (exists_flat (fun a => ObjectiveModel.charged (o_net n) f (o_view a)) Hcg). destruct (existsb _ L); [|constructor].
  destruct (ObjectiveModel.nonempty _); (constructor; [|constructor]); [|exact I]. cbn [prel].
  set (h := fun a => if ObjectiveModel.charged (o_net n) f (o_view a) then map (fun t => (f (o_view a) t * ObjectiveModel.weighting (o_net n) t, ObjectiveModel.op_label "Generator" "p" (o_view a) t)) (seq 0 (nsnaps n)) else []).
  assert (G : forall l, ObjectiveModel.terms (o_net n) f (ObjectiveModel.op_label "Generator" "p") (filter (ObjectiveModel.charged (o_net n) f) (map o_view l)) = flat_map h l).
  { intros l. unfold ObjectiveModel.terms. rewrite flat_filter, NamingProofs.flat_map_map. reflexivity. }
  change (ObjectiveModel.terms (o_net n')) with (ObjectiveModel.terms (o_net n)). rewrite !G. apply eval_flat. constructor.
  - intros a J A B. unfold h. destruct (ObjectiveModel.charged _ _ _); [|constructor]. apply Forall_map'. intros t _. cbn [snd]. unfold ObjectiveModel.op_label. cbn zeta. now apply nf_name.
  - intros a k q T. unfold h. rewrite Hcg, Hf. destruct (ObjectiveModel.charged _ _ _); [|reflexivity]. unfold rename. rewrite map_map. apply map_ext. intros t. cbn [fst snd]. f_equal.
    unfold ObjectiveModel.op_label. cbn zeta. cbn [o_view ObjectiveModel.a_on ObjectiveModel.a_name ObjectiveModel.a_inflow]. unfold on. cbn [part flag nm inflow]. destruct (_ && _)%bool; reflexivity.
  - intros a T. destruct (target_class a T) as [_ E2]. unfold h. destruct (ObjectiveModel.charged _ _ _); [|constructor]. apply Forall_map'. intros t _. cbn [snd]. unfold ObjectiveModel.op_label. cbn zeta.
    destruct (_ && _)%bool; [split; [reflexivity|exact E2]|exact I].
Qed.
Lemma oper_other sq f rs : (forall l, nflin l -> pstill (sq l)) -> (forall r, In r rs -> String.eqb (fst r) "Generator" = false /\ of_generator (fst r ++ "-" ++ snd r) = false) ->
  Forall2 prel (ObjectiveModel.operation (o_net n) sq f rs) (ObjectiveModel.operation (o_net n') sq f rs).
Proof.
  intros S' R. unfold ObjectiveModel.operation. apply f2_flat. intros r J. destruct (R r J) as [R1 R2]. cbn zeta. unfold ObjectiveModel.exists_array. rewrite !o_same by exact R1.
  change (ObjectiveModel.charged (o_net n')) with (ObjectiveModel.charged (o_net n)). change (ObjectiveModel.terms (o_net n')) with (ObjectiveModel.terms (o_net n)).
  change (ObjectiveModel.nsnaps (o_net n')) with (ObjectiveModel.nsnaps (o_net n)).
  apply prel_still. destruct (ObjectiveModel.nonempty _); [|constructor]. constructor; [|constructor].
  match goal with |- pstill (if ?b then _ else _) => destruct b end; [|exact I]. apply S', terms_still. intros a t _. now apply nf_op.
Qed.
Lemma oper_quad : Forall2 prel (ObjectiveModel.operation (o_net n) ObjectiveModel.Square ObjectiveModel.a_quadratic [("Generator", "p")])
  (ObjectiveModel.operation (o_net n') ObjectiveModel.Square ObjectiveModel.a_quadratic [("Generator", "p")]).
Proof.
  unfold ObjectiveModel.operation. cbn [flat_map fst snd]. unfold ObjectiveModel.exists_array. change (ObjectiveModel.is_spill (ObjectiveModel.vname "Generator" "p")) with false. cbn iota.
  rewrite !o_cls, gens_flat, onon_flat. change (ObjectiveModel.charged (o_net n')) with (ObjectiveModel.charged (o_net n)). change (ObjectiveModel.terms (o_net n')) with (ObjectiveModel.terms (o_net n)).
  assert (Z : forall a t, In a L -> target i a = true -> negb (Qeq_bool (quadratic a t) 0) = false).
  { intros a t J T. destruct (target_in a J T) as (_ & _ & Q0). specialize (Q0 t). apply Qeq_bool_iff in Q0. now rewrite Q0. }
  assert (ZC : forall a, In a L -> target i a = true -> existsb (fun t => negb (Qeq_bool (quadratic a t) 0)) (seq 0 (nsnaps n)) = false).
  { intros a J T. induction (seq 0 (nsnaps n)) as [|t l IH]; [reflexivity|]. cbn [existsb]. now rewrite (Z a t J T), IH. }
  rewrite !NamingProofs.filter_map. rewrite (filter_same (fun a => ObjectiveModel.charged (o_net n) ObjectiveModel.a_quadratic (o_view a))) by (intros a k q J T; split; exact (ZC a J T)).
  apply prel_still. rewrite app_nil_r. destruct (ObjectiveModel.nonempty (map o_view (filter _ L))); [|constructor]. constructor; [|constructor]. destruct (ObjectiveModel.nonempty _); [|exact I]. cbn [pstill]. apply terms_still. intros a t J.
  apply in_map_iff in J. destruct J as (a0 & <- & J). apply filter_In in J. destruct J as [J Cg]. destruct (target i a0) eqn:T; [exfalso; change (existsb (fun t => negb (Qeq_bool (quadratic a0 t) 0)) (seq 0 (nsnaps n)) = true) in Cg; rewrite (ZC a0 J T) in Cg; discriminate|].
  destruct (other_gen a0 J T). unfold ObjectiveModel.op_label. cbn zeta. now apply nf_name.
Qed.
Lemma oper_split sq f r rs m : ObjectiveModel.operation m sq f (r :: rs) = ObjectiveModel.operation m sq f [r] ++ ObjectiveModel.operation m sq f rs.
Proof. unfold ObjectiveModel.operation. cbn [flat_map]. now rewrite app_nil_r. Qed.
Lemma com_same c : ObjectiveModel.com (o_net n') c = ObjectiveModel.com (o_net n) c.
Proof.
  unfold ObjectiveModel.com. destruct (String.eqb_spec c "Generator") as [->|N]; [|now rewrite o_same by now apply String.eqb_neq].
  rewrite !o_cls, gens_flat, !NamingProofs.filter_map. f_equal. apply (filter_same (fun a => com a)). intros a k q J T. split; exact (not_com a J T).
Qed.
Lemma invest_rel : Forall2 prel (ObjectiveModel.investment (o_net n)) (ObjectiveModel.investment (o_net n')).
Proof.
  unfold ObjectiveModel.investment. apply f2_flat. intros [c at_] J. cbn [fst snd]. change (ObjectiveModel.annual (o_net n')) with (ObjectiveModel.annual (o_net n)). unfold ObjectiveModel.ext.
  destruct (String.eqb_spec c "Generator") as [->|N].
  - assert (at_ = "p_nom") as -> by (repeat (destruct J as [J|J]; [injection J; congruence|]); destruct J). rewrite !o_cls, gens_flat, !onon, !NamingProofs.existsb_map.
    rewrite (exists_flat (fun a => ObjectiveModel.a_ext (o_view a)) ltac:(reflexivity)). destruct (existsb _ L); constructor; [|constructor]. cbn [prel].
    set (h := fun a => if ext a then [(ObjectiveModel.annual (o_net n) (o_view a), ObjectiveModel.nom_label "Generator" "p_nom" (o_view a))] else []).
    assert (G : forall l, map (fun a => (ObjectiveModel.annual (o_net n) a, ObjectiveModel.nom_label "Generator" "p_nom" a)) (filter ObjectiveModel.a_ext (map o_view l)) = flat_map h l).
    { intros l. rewrite map_flat, flat_filter, NamingProofs.flat_map_map. reflexivity. }
    rewrite !G. apply eval_flat. constructor.
    + intros a I' A B. unfold h. destruct (ext a); [|constructor]. constructor; [|constructor]. exact (nf_name true _ O _ A B).
    + intros a k q T. unfold h. cbn [part ext]. destruct (ext a); reflexivity.
    + intros a T. destruct (target_class a T) as [_ E2]. unfold h. destruct (ext a); [|constructor]. constructor; [|constructor]. split; [reflexivity|exact E2].
  - apply String.eqb_neq in N. rewrite (o_same c N). apply prel_still. destruct (ObjectiveModel.nonempty _); constructor; [|constructor]. cbn [pstill]. apply Forall_map'. intros a _. cbn [snd].
    unfold ObjectiveModel.nom_label, ObjectiveModel.vname. repeat (destruct J as [J|J]; [injection J as <- <-; first [discriminate|lab]|]). destruct J.
Qed.
Lemma constant_same : ObjectiveModel.constant (o_net n') == ObjectiveModel.constant (o_net n).
Proof.
  unfold ObjectiveModel.constant. cbn [ObjectiveModel.nominal fold_right fst]. change (ObjectiveModel.annual (o_net n')) with (ObjectiveModel.annual (o_net n)). unfold ObjectiveModel.ext.
  rewrite !(o_same "Line"), !(o_same "Transformer"), !(o_same "Link"), !(o_same "Store"), !(o_same "StorageUnit") by reflexivity. apply Qplus_comp; [|reflexivity].
  rewrite !o_cls, gens_flat. clear. induction L as [|a l IH]; [reflexivity|]. cbn [flat_map]. rewrite map_app, filter_app, fold_right_app. cbn [map filter o_view ObjectiveModel.a_ext]. fold (o_view a).
  unfold parts_of. destruct (target i a); cbn [map filter o_view ObjectiveModel.a_ext part ext]; destruct (ext a); cbn [fold_right]; try exact IH; rewrite IH; cbn [ObjectiveModel.a_nom o_view part nom];
    change (ObjectiveModel.annual (o_net n) (o_view (part i th a))) with (ObjectiveModel.annual (o_net n) (o_view a)); change (ObjectiveModel.annual (o_net n) (o_view (part j (1 - th) a))) with (ObjectiveModel.annual (o_net n) (o_view a));
    generalize (ObjectiveModel.annual (o_net n) (o_view a)); intros; ring.
Qed.
Lemma pieces_rel : Forall2 prel (ObjectiveModel.pieces (o_net n)) (ObjectiveModel.pieces (o_net n')).
Proof.
  unfold ObjectiveModel.pieces. assert (QE : Qeq_bool (ObjectiveModel.constant (o_net n')) 0 = Qeq_bool (ObjectiveModel.constant (o_net n)) 0) by (apply eq_true_iff_eq; rewrite !Qeq_bool_iff, constant_same; reflexivity). rewrite QE. clear QE.
  repeat match goal with |- Forall2 _ (_ ++ _) _ => apply Forall2_app end.
  - apply prel_still. destruct (Qeq_bool _ 0); constructor; [|constructor]. cbn [pstill]. lst. lab.
  - unfold ObjectiveModel.of_marginal. rewrite (oper_split _ _ _ _ (o_net n)), (oper_split _ _ _ _ (o_net n')). apply Forall2_app; [now apply oper_gen|].
    apply oper_other; [intros l H; exact H|]. intros r J. repeat (destruct J as [<-|J]; [split; reflexivity|]). destruct J.
  - apply oper_other; [intros l H; exact H|]. intros r J. repeat (destruct J as [<-|J]; [split; reflexivity|]). destruct J.
  - apply oper_other; [intros l H; exact H|]. intros r J. repeat (destruct J as [<-|J]; [split; reflexivity|]). destruct J.
  - unfold ObjectiveModel.of_marginal. rewrite (oper_split _ _ _ _ (o_net n)), (oper_split _ _ _ _ (o_net n')). apply Forall2_app; [exact oper_quad|].
    apply oper_other; [intros l H; exact H|]. intros r J. repeat (destruct J as [<-|J]; [split; reflexivity|]). destruct J.
  - unfold ObjectiveModel.standby. apply f2_flat. intros c J. rewrite !com_same. change (ObjectiveModel.charged (o_net n')) with (ObjectiveModel.charged (o_net n)).
    change (ObjectiveModel.terms (o_net n')) with (ObjectiveModel.terms (o_net n)). apply prel_still.
    destruct (ObjectiveModel.nonempty _); constructor; [|constructor]. cbn [pstill]. apply terms_still. intros a t _. destruct J as [<-|[<-|[]]]; now apply nf_op.
  - exact invest_rel.
  - unfold ObjectiveModel.switching. apply f2_flat. intros c J. rewrite !com_same. change (ObjectiveModel.nsnaps (o_net n')) with (ObjectiveModel.nsnaps (o_net n)). apply prel_still. destruct (Qeq_bool _ 0); constructor; [|constructor]. cbn [pstill].
    apply Forall_flat_map, Forall_forall. intros a _. apply Forall_map'. intros t _. cbn [snd]. destruct J as [<-|[<-|[]]]; now apply nf_op.
  - unfold ObjectiveModel.switching. apply f2_flat. intros c J. rewrite !com_same. change (ObjectiveModel.nsnaps (o_net n')) with (ObjectiveModel.nsnaps (o_net n)). apply prel_still. destruct (Qeq_bool _ 0); constructor; [|constructor]. cbn [pstill].
    apply Forall_flat_map, Forall_forall. intros a _. apply Forall_map'. intros t _. cbn [snd]. destruct J as [<-|[<-|[]]]; now apply nf_op.
Qed.
Lemma cost_rel : same_cost (cost n' x) (cost n y).
Proof.
  unfold cost, define_objective, ObjectiveModel.objective. pose proof pieces_rel as F.
  assert (E1 : existsb ObjectiveModel.is_missing (ObjectiveModel.pieces (o_net n')) = existsb ObjectiveModel.is_missing (ObjectiveModel.pieces (o_net n))).
  { induction F as [|p p' l l' H G IH]; [reflexivity|]. cbn [existsb]. rewrite IH. f_equal. destruct p, p'; try contradiction; reflexivity. }
  assert (E2 : ObjectiveModel.nonempty (ObjectiveModel.pieces (o_net n')) = ObjectiveModel.nonempty (ObjectiveModel.pieces (o_net n))) by (destruct F; reflexivity).
  rewrite E1, E2. clear E1 E2. destruct (existsb _ _); [exact I|]. destruct (ObjectiveModel.nonempty _); [|exact I]. cbn [option_map same_cost]. unfold ObjectiveModel.value_of.
  induction F as [|p p' l l' H G IH]; [reflexivity|]. cbn [fold_right]. rewrite IH. apply Qplus_comp; [|reflexivity]. destruct p, p'; try contradiction; cbn [ObjectiveModel.piece_value prel] in *; [exact H|exact H|reflexivity].
Qed.

(* ---------- domains ---------- *)
Lemma every (P : asset -> Prop) : (forall a k q, In a (assets n) -> target i a = true -> P a /\ P (part k q a)) -> ((forall a, In a (assets n') -> P a) <-> (forall a, In a (assets n) -> P a)).
Proof.
  intros H. cbn [split assets]. split; intros G a J.
  - destruct (target i a) eqn:T; [now apply (H a i th)|]. apply G, in_flat_map. exists a. split; [exact J|]. unfold parts_of. rewrite T. now left.
  - apply in_flat_map in J. destruct J as (a0 & J & K). unfold parts_of in K. destruct (target i a0) eqn:T.
    + destruct K as [<-|[<-|[]]]; now apply H.
    + destruct K as [<-|[]]. now apply G.
Qed.
Lemma not_com' a : In a (assets n) -> target i a = true -> com a = false.
Proof. intros J E. destruct (Tg a J E) as (C & _). unfold com. now rewrite C. Qed.
Lemma class_label a s t : In a (assets n) -> In s ["-n_mod"; "-loss"] -> x ((cls a ++ s)%string, t, nm a) == y ((cls a ++ s)%string, t, nm a).
Proof.
  intros J V. apply Same. left. pose proof (Cl a J) as C. repeat (destruct C as [<-|C]; [repeat (destruct V as [<-|V]; [reflexivity|]); destruct V|]). destruct C.
Qed.
Lemma u_label a v t : com a = true -> In v ["status"; "start_up"; "shut_down"] -> nf (CommitModel.uvar (cls a) (u_view a) v t).
Proof.
  intros E V. assert (H : cls a = "Generator" \/ cls a = "Link").
  { unfold com, has_uc in E. apply andb_true_iff in E. destruct E as [_ E]. apply orb_true_iff in E. destruct E as [E|E]; apply String.eqb_eq in E; auto. }
  unfold CommitModel.uvar. apply nf_if; destruct H as [-> | ->]; repeat (destruct V as [<-|V]; [reflexivity|]); destruct V.
Qed.
Lemma uc_rel a T : com a = true -> (CommitModel.relaxed (cls a) (u_view a) T x <-> CommitModel.relaxed (cls a) (u_view a) T y) /\
  (CommitModel.binary (cls a) (u_view a) T x <-> CommitModel.binary (cls a) (u_view a) T y).
Proof.
  intros E. pose proof (fun t => u_label a "status" t E (or_introl eq_refl)) as U1. pose proof (fun t => u_label a "start_up" t E (or_intror (or_introl eq_refl))) as U2.
  pose proof (fun t => u_label a "shut_down" t E (or_intror (or_intror (or_introl eq_refl)))) as U3. unfold nf in U1, U2, U3.
  unfold CommitModel.relaxed, CommitModel.binary, CommitModel.is_relaxed, CommitModel.is_binary, CommitModel.status, CommitModel.start_up, CommitModel.shut_down.
  split; split; intros (A & B & D); (split; [|split]); intros t Ht Ha; specialize (A t Ht Ha); specialize (B t Ht Ha); specialize (D t Ht Ha); specialize (U1 t); specialize (U2 t); specialize (U3 t);
    first [rewrite U1 in A; exact A|rewrite U2 in B; exact B|rewrite U3 in D; exact D|rewrite U1; exact A|rewrite U2; exact B|rewrite U3; exact D].
Qed.
Lemma domains_rel : domains n' x <-> domains n y.
Proof.
  unfold domains. change (lossy n') with (lossy n). change (linear n') with (linear n). change (nsnaps n') with (nsnaps n). change (unit_data n') with (unit_data n).
  assert (Q1 : (forall a, In a (assets n') -> ext a = true -> Qle_bool (nom_mod a) 0 = false -> exists z : nat, x ((cls a ++ "-n_mod")%string, O, nm a) == inject_Z (Z.of_nat z)) <->
    (forall a, In a (assets n) -> ext a = true -> Qle_bool (nom_mod a) 0 = false -> exists z : nat, y ((cls a ++ "-n_mod")%string, O, nm a) == inject_Z (Z.of_nat z))).
  { rewrite every.
    - split; intros G a J E M; destruct (G a J E M) as [z Z]; exists z; pose proof (class_label a "-n_mod" O J (or_introl eq_refl)) as S1; [now rewrite <- S1|now rewrite S1].
    - intros a k q J T. destruct (Tg a J T) as (_ & M & _). apply Qle_bool_iff in M. split; intros _ M'; cbn [part nom_mod] in M'; congruence. }
  assert (Q2 : (forall a, In a (assets n') -> com a = true -> if linear n then CommitModel.relaxed (cls a) (u_view a) (nsnaps n) x else CommitModel.binary (cls a) (u_view a) (nsnaps n) x) <->
    (forall a, In a (assets n) -> com a = true -> if linear n then CommitModel.relaxed (cls a) (u_view a) (nsnaps n) y else CommitModel.binary (cls a) (u_view a) (nsnaps n) y)).
  { rewrite every.
    - split; intros G a J E; specialize (G a J E); destruct (uc_rel a (nsnaps n) E) as [U1 U2]; destruct (linear n); tauto.
    - intros a k q J T. pose proof (not_com' a J T) as C. split; intros E; [congruence|]. change (com (part k q a)) with (com a) in E. congruence. }
  assert (Q3 : (forall a, In a (assets n') -> cls a = "StorageUnit" -> StorageModel.spill_bounds (nsnaps n) (s_view a) (unit_data n a) x) <->
    (forall a, In a (assets n) -> cls a = "StorageUnit" -> StorageModel.spill_bounds (nsnaps n) (s_view a) (unit_data n a) y)).
  { rewrite every.
    - split; intros G a J E t v T V; specialize (G a J E t v T V); unfold StorageModel.spill_label, StorageModel.var_of in V; (destruct (negb _); [|discriminate]); (destruct (StorageModel.s_active _ t); [|discriminate]);
        injection V as <-; match type of G with context [x (?s, ?t, ?k)] => pose proof (Same s t k (or_introl eq_refl)) as W | context [y (?s, ?t, ?k)] => pose proof (Same s t k (or_introl eq_refl)) as W end; [rewrite <- W|rewrite W]; exact G.
    - intros a k q J T. destruct (target_class a T) as [E1 _]. split; intros E; cbn [part cls] in E; rewrite E1 in E; discriminate. }
  assert (Q4 : (forall a t, In a (assets n') -> passive a = true -> lossy n = true -> (t < nsnaps n)%nat -> flag a = true -> 0 <= x ((cls a ++ "-loss")%string, t, nm a)) <->
    (forall a t, In a (assets n) -> passive a = true -> lossy n = true -> (t < nsnaps n)%nat -> flag a = true -> 0 <= y ((cls a ++ "-loss")%string, t, nm a))).
  { transitivity (forall a, In a (assets n') -> forall t, passive a = true -> lossy n = true -> (t < nsnaps n)%nat -> flag a = true -> 0 <= x ((cls a ++ "-loss")%string, t, nm a)); [split; auto|]. rewrite every.
    - split; intros G a; [intros t J|intros J t]; intros P1 P2 P3 P4; pose proof (class_label a "-loss" t J (or_intror (or_introl eq_refl))) as S1; [rewrite <- S1|rewrite S1]; auto.
    - intros a k q J T. destruct (target_class a T) as [E1 _]. split; intros t P1; unfold passive in P1; cbn [part cls] in P1; rewrite E1 in P1; discriminate. }
  assert (Q5 : ObjectiveModel.const_fixed (o_net n') x <-> ObjectiveModel.const_fixed (o_net n) y).
  { unfold ObjectiveModel.const_fixed. assert (QE : Qeq_bool (ObjectiveModel.constant (o_net n')) 0 = Qeq_bool (ObjectiveModel.constant (o_net n)) 0) by (apply eq_true_iff_eq; rewrite !Qeq_bool_iff, constant_same; reflexivity).
    rewrite QE. assert (W : val x ObjectiveModel.const_label == val y ObjectiveModel.const_label) by (apply Same; now left).
    split; intros G H; specialize (G H); [rewrite <- W, <- constant_same|rewrite W, constant_same]; exact G. }
  rewrite Q1, Q2, Q3, Q4, Q5. reflexivity.
Qed.
End XY.

Variable kvl : list asset -> list con.
Hypothesis K : kvl_flows kvl (filter passive (assets n)).
Lemma joined_same x s t k : of_generator s = false \/ (k <> i /\ k <> j) -> x (s, t, k) == joined i j x (s, t, k).
Proof. unfold joined. intros [-> | [N _]]; [reflexivity|]. apply String.eqb_neq in N. rewrite N, andb_false_r. reflexivity. Qed.
Lemma joined_sum x s t : of_generator s = true -> joined i j x (s, t, i) == x (s, t, i) + x (s, t, j).
Proof. unfold joined. intros ->. rewrite String.eqb_refl. reflexivity. Qed.
Lemma shared_same y s t k : of_generator s = false \/ (k <> i /\ k <> j) -> shared i j th y (s, t, k) == y (s, t, k).
Proof. unfold shared. intros [-> | [N M]]; [reflexivity|]. apply String.eqb_neq in N, M. rewrite N, M, !andb_false_r. reflexivity. Qed.
Lemma shared_i y s t : of_generator s = true -> shared i j th y (s, t, i) == th * y (s, t, i).
Proof. unfold shared. intros ->. rewrite String.eqb_refl. reflexivity. Qed.
Lemma shared_j y s t : of_generator s = true -> shared i j th y (s, t, j) == (1 - th) * y (s, t, i).
Proof. unfold shared. intros ->. rewrite String.eqb_refl. assert (N : String.eqb j i = false) by (apply String.eqb_neq; auto). rewrite N. reflexivity. Qed.
Lemma shared_sum y s t : of_generator s = true -> y (s, t, i) == shared i j th y (s, t, i) + shared i j th y (s, t, j).
Proof. intros E. rewrite (shared_i y s t E), (shared_j y s t E). ring. Qed.

Lemma join_feasible x : feasible kvl n' x -> feasible kvl n (joined i j x).
Proof.
  intros (cs & E & S' & D). pose proof (model_goes x (joined i j x) (joined_same x) (joined_sum x) kvl K) as M. rewrite E in M.
  destruct (create_model kvl n) as [cs0|] eqn:E0; [|contradiction]. exists cs0. split; [exact E0|]. split; [now apply M|]. now apply (domains_rel x _ (joined_same x)).
Qed.
Lemma share_feasible y : feasible kvl n y -> feasible kvl n' (shared i j th y).
Proof.
  intros (cs & E & S' & D). pose proof (model_goes (shared i j th y) y (shared_same y) (shared_sum y) kvl K) as M. rewrite E in M.
  destruct (create_model kvl n') as [cs0|] eqn:E0; [|contradiction]. exists cs0. split; [exact E0|]. split; [|now apply (domains_rel _ y (shared_same y))].
  apply M; [|exact S']. split; intros s t G; [now apply shared_i|now apply shared_j].
Qed.
Lemma join_cost x : same_cost (cost n' x) (cost n (joined i j x)).
Proof. apply cost_rel; [apply joined_same|apply joined_sum]. Qed.
Lemma share_cost y : same_cost (cost n' (shared i j th y)) (cost n y).
Proof. apply cost_rel; [apply shared_same|apply shared_sum]. Qed.
Lemma join_optimal x : optimal kvl n' x -> optimal kvl n (joined i j x).
Proof.
  intros (F & q & E & H). split; [now apply join_feasible|]. pose proof (join_cost x) as C. rewrite E in C. destruct (cost n (joined i j x)) as [r|]; [|contradiction].
  exists r. split; [reflexivity|]. intros y q' Fy Ey. pose proof (share_cost y) as D. rewrite Ey in D. destruct (cost n' (shared i j th y)) as [r'|] eqn:E'; [|contradiction].
  cbn [same_cost] in *. rewrite <- C, <- D. exact (H _ _ (share_feasible y Fy) E').
Qed.
Lemma share_optimal y : optimal kvl n y -> optimal kvl n' (shared i j th y).
Proof.
  intros (F & q & E & H). split; [now apply share_feasible|]. pose proof (share_cost y) as C. rewrite E in C. destruct (cost n' (shared i j th y)) as [r|]; [|contradiction].
  exists r. split; [reflexivity|]. intros x q' Fx Ex. pose proof (join_cost x) as D. rewrite Ex in D. destruct (cost n (joined i j x)) as [r'|] eqn:E'; [|contradiction].
  cbn [same_cost] in *. rewrite C, D. exact (H _ _ (join_feasible x Fx) E').
Qed.
Lemma split_defined : create_model kvl n' = None <-> create_model kvl n = None.
Proof.
  pose proof (model_goes (fun _ => 0) (fun _ => 0) ltac:(reflexivity) ltac:(reflexivity) kvl K) as M. destruct (create_model kvl n), (create_model kvl n'); try contradiction; split; congruence.
Qed.
End S.

(* ---------- the voltage law of the code reads flows only ---------- *)
Lemma kirchhoff_flows place fin weight basis T l : (forall a, In a l -> passive a = true) -> kvl_flows (KirchhoffModel.kirchhoff place fin weight basis T) l.
Proof.
  intros P x y H. assert (G : forall c, In c (KirchhoffModel.kirchhoff place fin weight basis T l) -> (holds x c <-> holds y c)).
  { intros c J. unfold KirchhoffModel.kirchhoff in J. destruct (CyclesModel.find_cycles _ _) as [cols|]; [|destruct J]. apply in_flat_map in J. destruct J as (t & _ & J). apply in_map_iff in J. destruct J as (col & <- & _).
    assert (E : eval x (KirchhoffModel.entries_of weight l col t) == eval y (KirchhoffModel.entries_of weight l col t)); [|unfold holds; cbn [sns lhs rhs]; rewrite E; reflexivity].
    unfold KirchhoffModel.entries_of. assert (N : forall ia, In ia (CyclesModel.numbered l) -> passive (snd ia) = true).
    { intros [k a] J. apply P. exact (in_combine_r _ _ _ _ J). }
    induction (CyclesModel.numbered l) as [|[k a] r IH]; [reflexivity|]. cbn [flat_map]. rewrite !CapProofs.eval_app', IH by (intros ia J; apply N; now right). apply Qplus_comp; [|reflexivity].
    destruct (Z.eqb _ 0); [reflexivity|]. cbn [eval]. destruct (on a t); [|reflexivity]. cbn [val]. pose proof (N (k, a) (or_introl eq_refl)) as Pa. cbn [snd] in Pa. rewrite (H (cls a ++ "-s")%string t (nm a)); [reflexivity|].
    unfold passive in Pa. apply orb_true_iff in Pa. destruct Pa as [E|E]; apply String.eqb_eq in E; rewrite E; auto. }
  split; intros S' c J; pose proof (proj1 (filter_In _ _ _) J) as [J' _]; apply (G c J'), S', J.
Qed.

(* ---------- the same with the condition in one piece ---------- *)
Lemma join_ok i j q kvl n x : splittable i j q n -> kvl_flows kvl (filter passive (assets n)) -> feasible kvl (split i j q n) x -> feasible kvl n (joined i j x).
Proof. intros (A & B & C & D & E) K. eapply join_feasible; eauto. Qed.
Lemma share_ok i j q kvl n y : splittable i j q n -> kvl_flows kvl (filter passive (assets n)) -> feasible kvl n y -> feasible kvl (split i j q n) (shared i j q y).
Proof. intros (A & B & C & D & E) K. eapply share_feasible; eauto. Qed.
Lemma cost_ok i j q n x : splittable i j q n -> same_cost (cost (split i j q n) x) (cost n (joined i j x)) /\ same_cost (cost (split i j q n) (shared i j q x)) (cost n x).
Proof. intros (A & B & C & D & E). split; [eapply join_cost|eapply share_cost]; eauto. Qed.
Lemma optimal_ok i j q kvl n : splittable i j q n -> kvl_flows kvl (filter passive (assets n)) ->
  (forall x, optimal kvl (split i j q n) x -> optimal kvl n (joined i j x)) /\ (forall y, optimal kvl n y -> optimal kvl (split i j q n) (shared i j q y)).
Proof. intros (A & B & C & D & E) K. split; intros z; [eapply join_optimal|eapply share_optimal]; eauto. Qed.
Lemma defined_ok i j q kvl n : splittable i j q n -> kvl_flows kvl (filter passive (assets n)) -> (create_model kvl (split i j q n) = None <-> create_model kvl n = None).
Proof. intros (A & B & C & D & E) K. eapply split_defined; eauto. Qed.
