From Coq Require Import List String Bool QArith Qabs Lqa ZArith Arith Lia.
From Verif Require Import LinModel WholeModel IdleSpec TurnSpec.
From Verif Require DispatchModel RampModel CommitModel BalanceModel StorageModel LimitModel CapModel LossModel ObjectiveModel UnitProofs NamingProofs.
Import ListNotations.
Open Scope string_scope.
Open Scope list_scope.
Open Scope Q_scope.

Lemma and_both A A' B B' : (A <-> A') -> (B <-> B') -> (A /\ B <-> A' /\ B').
Proof. tauto. Qed.

Section T.
Variable d : choice.
Variable n : net.
Notation n' := (turned d n).
Notation ag := (against d).

(* ---------- labels that are no flows ---------- *)
Definition nf (l : label) : Prop := forall x, val (ag x) l = val x l.
Definition nflin (l : lin) : Prop := Forall (fun cv => nf (snd cv)) l.
Definition still (cs : list con) : Prop := Forall (fun c => nflin (lhs c)) cs.
Lemma nf_none : nf None.
Proof. intros x. reflexivity. Qed.
Lemma nf_some s t i : String.eqb s "Line-s" = false -> String.eqb s "Transformer-s" = false -> nf (Some (s, t, i)).
Proof. intros A B x. cbn [val against]. now rewrite A, B. Qed.
Lemma nf_if (b : bool) s t i : String.eqb s "Line-s" = false -> String.eqb s "Transformer-s" = false -> nf (if b then Some (s, t, i) else None).
Proof. intros A B. destruct b; [now apply nf_some|apply nf_none]. Qed.
Lemma nf_eval x l : nflin l -> eval (ag x) l = eval x l.
Proof. induction 1 as [|[q v] l H F IH]; [reflexivity|]. cbn [eval]. rewrite IH. cbn [snd] in H. now rewrite H. Qed.
Lemma still_sat x cs : still cs -> (sat (ag x) (CapModel.problem cs) <-> sat x (CapModel.problem cs)).
Proof.
  intros S. assert (E : forall c, In c cs -> (holds (ag x) c <-> holds x c)).
  { intros c I. unfold still in S. rewrite Forall_forall in S. unfold holds. now rewrite (nf_eval x _ (S c I)). }
  unfold sat. split; intros H c I; apply E; try (now apply filter_In in I); now apply H.
Qed.
Lemma still_app a b : still a -> still b -> still (a ++ b).
Proof. intros A B. now apply Forall_app. Qed.
Lemma still_flat {A} (f : A -> list con) l : (forall a, In a l -> still (f a)) -> still (flat_map f l).
Proof. intros H. unfold still. rewrite Forall_forall. intros c I. apply in_flat_map in I. destruct I as (a & I & J). specialize (H a I). unfold still in H. rewrite Forall_forall in H. auto. Qed.
Lemma still_ac {A} ts (l : list A) mask f : (forall t a, nflin (lhs (f t a))) -> still (add_constraints ts l mask f).
Proof.
  intros H. unfold add_constraints. apply still_flat. intros t _. apply still_flat. intros a _. destruct (mask t a); constructor; [apply H|constructor].
Qed.
Lemma nflin_app a b : nflin a -> nflin b -> nflin (a ++ b).
Proof. intros A B. now apply Forall_app. Qed.
Lemma nf_shift f t : (forall t, nf (f t)) -> nf (shift f t).
Proof. intros H. destruct t; [apply nf_none|apply H]. Qed.

Ltac sapp1 := match goal with |- still (_ ++ _) => apply still_app end.
Ltac sapp := repeat sapp1.
Ltac lab := first [apply nf_none | apply nf_some; reflexivity | apply nf_if; reflexivity].
Ltac lst := repeat (apply Forall_cons; [cbn [snd]|]); [..|apply Forall_nil].

(* ---------- turned assets ---------- *)
Notation F := (turn d).
Lemma F_cls a : cls (F a) = cls a.
Proof. unfold turn. destruct (_ && _)%bool; reflexivity. Qed.
Lemma of_class_turn c : of_class n' c = map F (of_class n c).
Proof.
  unfold of_class. cbn [turned assets]. rewrite NamingProofs.filter_map. f_equal. apply filter_ext. intros a. now rewrite F_cls.
Qed.
Lemma in_class a c : In a (of_class n c) -> cls a = c.
Proof. intros I. apply filter_In in I. destruct I as [_ E]. now apply String.eqb_eq in E. Qed.
Lemma of_class_same c : String.eqb c "Line" = false -> String.eqb c "Transformer" = false -> of_class n' c = of_class n c.
Proof.
  intros A B. rewrite of_class_turn. rewrite <- map_id. apply map_ext_in. intros a I. apply in_class in I. unfold turn, passive. rewrite I, A, B. reflexivity.
Qed.
Lemma view_same {V} (view : asset -> V) c : (forall a, view (F a) = view a) -> map view (of_class n' c) = map view (of_class n c).
Proof. intros H. rewrite of_class_turn, map_map. now apply map_ext. Qed.
Ltac flip := intros ?; unfold turn; destruct (_ && _)%bool; reflexivity.

(* ---------- capacity ---------- *)
Lemma capacity_turn : capacity n' = capacity n.
Proof.
  unfold capacity. apply NamingProofs.flat_map_eq. intros [c na] _. unfold capacity_of. cbn [fst snd]. rewrite (view_same (d_view "") c) by flip. reflexivity.
Qed.
Lemma capacity_still : still (capacity n).
Proof.
  unfold capacity. apply still_flat. intros [c na] I. unfold capacity_of. cbn [fst snd]. cbn zeta.
  unfold DispatchModel.nominal, DispatchModel.fixed_nominal, DispatchModel.modular, DispatchModel.cap, DispatchModel.n_mod, DispatchModel.vname, DispatchModel.mk.
  sapp; apply still_ac; intros t a; cbn [lhs];
    (repeat (destruct I as [I|I]; [injection I as <- <-; lst; lab|])); destruct I.
Qed.

(* ---------- operation ---------- *)
Definition other_rows : list (string * string * string * DispatchModel.kind) :=
  [("Generator", "p", "p_nom", DispatchModel.Other); ("Link", "p", "p_nom", DispatchModel.Other);
   ("Store", "e", "e_nom", DispatchModel.Other); ("StorageUnit", "p_dispatch", "p_nom", DispatchModel.Storage_dispatch);
   ("StorageUnit", "p_store", "p_nom", DispatchModel.Storage_store);
   ("StorageUnit", "state_of_charge", "p_nom", DispatchModel.Storage_soc)].
Lemma commitment_still c : In c ["Generator"; "Link"; "Store"; "StorageUnit"] -> still (commitment_of n c).
Proof.
  intros I. unfold commitment_of.
  assert (U : forall u v t, In v ["status"; "start_up"; "shut_down"; "p"] -> nf (CommitModel.uvar c u v t)).
  { intros u v t V. unfold CommitModel.uvar.
    repeat (destruct I as [<-|I]; [repeat (destruct V as [<-|V]; [lab|]); destruct V|]). destruct I. }
  assert (W : forall u v t k, In v ["status"; "start_up"; "shut_down"; "p"] -> nflin (CommitModel.window (CommitModel.uvar c u v) t k)).
  { intros u v t k V. unfold CommitModel.window, nflin. rewrite Forall_forall. intros cv J. apply in_map_iff in J. destruct J as (j & <- & _). cbn [snd]. now apply U. }
  apply still_app; apply still_flat; intros a _.
  - unfold CommitModel.commitment, CommitModel.transition, CommitModel.up_time, CommitModel.down_time, CommitModel.stay_up, CommitModel.stay_down,
      CommitModel.con1, CommitModel.status, CommitModel.start_up, CommitModel.shut_down, CommitModel.power.
    repeat (sapp1 || (destruct (Nat.eqb _ 0); [constructor|]) || (apply still_ac; intros t b; cbn [lhs])).
    all: repeat (apply nflin_app || (apply Forall_cons; [cbn [snd]|]) || apply Forall_nil).
    all: first [apply U; cbn; tauto | apply nf_shift; intros; apply U; cbn; tauto | apply W; cbn; tauto].
  - destruct (tightened n a); [|constructor]. unfold CommitModel.tighten, CommitModel.con1, CommitModel.status, CommitModel.start_up, CommitModel.shut_down, CommitModel.power. cbn zeta.
    repeat (sapp1 || (apply still_ac; intros t b; cbn [lhs])).
    all: repeat (apply nflin_app || (apply Forall_cons; [cbn [snd]|]) || apply Forall_nil).
    all: first [apply U; cbn; tauto | apply nf_shift; intros; apply U; cbn; tauto | apply W; cbn; tauto].
Qed.
Lemma other_same row : In row other_rows -> operation_of n' row = operation_of n row.
Proof.
  intros I. destruct row as [[[c attr] na] k]. unfold operation_of, commitment_of.
  assert (E : of_class n' c = of_class n c).
  { repeat (destruct I as [I|I]; [injection I as <- _ _ _; now apply of_class_same|]). destruct I. }
  rewrite E. reflexivity.
Qed.
Lemma other_still row : In row other_rows -> still (operation_of n row).
Proof.
  intros I. destruct row as [[[c attr] na] k]. unfold operation_of. cbn zeta.
  assert (Cm : still (commitment_of n c)).
  { apply commitment_still. repeat (destruct I as [I|I]; [injection I as <- _ _ _; cbn; tauto|]). destruct I. }
  assert (O : forall v a t, In v [attr; "status"; "loss"; "p"] -> nf (DispatchModel.op c v a t)).
  { intros v a t V. unfold DispatchModel.op, DispatchModel.vname.
    repeat (destruct I as [I|I]; [injection I as <- <- _ _; repeat (destruct V as [<-|V]; [lab|]); destruct V|]). destruct I. }
  assert (Cp : forall a, nf (DispatchModel.cap c na a)).
  { intros a. unfold DispatchModel.cap, DispatchModel.vname. repeat (destruct I as [I|I]; [injection I as <- _ <- _; lab|]). destruct I. }
  assert (Ls : forall k s a t, nflin (DispatchModel.loss_term c k (lossy n) s a t)).
  { intros k0 s a t. unfold DispatchModel.loss_term. destruct (_ && _)%bool; [|constructor]. lst. apply O. cbn; tauto. }
  clear I. unfold DispatchModel.non_extendables, DispatchModel.extendables, DispatchModel.committables, DispatchModel.fixed_operation, DispatchModel.mk.
  sapp; try exact Cm; try (destruct (has_uc c); [unfold RampModel.ramps; destruct (RampModel.early_return _ _); [constructor|];
     unfold RampModel.fixed_ramps, RampModel.extendable_ramps, RampModel.com_ramps, RampModel.p, RampModel.status, DispatchModel.mk; cbn zeta; sapp|constructor]).
  all: apply still_ac; intros t a; cbn [lhs].
  all: repeat (apply Ls || (apply Forall_cons; [cbn [snd]|]) || apply Forall_nil).
  all: first [apply Cp | apply O; cbn; tauto | apply nf_shift; intros; apply O; cbn; tauto].
Qed.

(* ---------- rows of the branches themselves ---------- *)
Lemma sat_ac {A} x ts (l : list A) mask f : sat x (CapModel.problem (add_constraints ts l mask f)) <->
  (forall t a, In t ts -> In a l -> mask t a = true -> CapModel.has_term (f t a) = true -> holds x (f t a)).
Proof.
  unfold CapModel.problem, sat. split.
  - intros H t a It Ia M T. apply H, filter_In. split; [|exact T]. unfold add_constraints. apply in_flat_map. exists t. split; [exact It|].
    apply in_flat_map. exists a. split; [exact Ia|]. rewrite M. now left.
  - intros H c I. apply filter_In in I. destruct I as [I T]. unfold add_constraints in I. apply in_flat_map in I. destruct I as (t & It & I).
    apply in_flat_map in I. destruct I as (a & Ia & I). destruct (mask t a) eqn:M; [|destruct I]. destruct I as [<-|[]]. now apply H.
Qed.
Lemma sat_app x a b : sat x (CapModel.problem (a ++ b)) <-> sat x (CapModel.problem a) /\ sat x (CapModel.problem b).
Proof. apply NamingProofs.sat_problem_app. Qed.

Definition sgn_of (c i : string) : Q := if d c i then -(1) else 1.
Lemma ag_flow x c t i : c = "Line" \/ c = "Transformer" -> ag x ((c ++ "-s")%string, t, i) == sgn_of c i * x ((c ++ "-s")%string, t, i).
Proof.
  intros [-> | ->]; unfold sgn_of; cbn [append]; unfold against; cbn [andb orb String.eqb Ascii.eqb Bool.eqb]; [destruct (d "Line" i)|destruct (d "Transformer" i)]; cbn [orb]; ring.
Qed.
Lemma ag_loss x c t i : c = "Line" \/ c = "Transformer" -> ag x ((c ++ "-loss")%string, t, i) = x ((c ++ "-loss")%string, t, i).
Proof. intros [-> | ->]; reflexivity. Qed.
Lemma ag_nom x c t i : c = "Line" \/ c = "Transformer" -> ag x ((c ++ "-s_nom")%string, t, i) = x ((c ++ "-s_nom")%string, t, i).
Proof. intros [-> | ->]; reflexivity. Qed.

Lemma F_fields a : cls a = "Line" \/ cls a = "Transformer" ->
  forall t, DispatchModel.fix_set (d_view "s" (F a)) t = if d (cls a) (nm a) then option_map Qopp (op_set a "s" t) else op_set a "s" t.
Proof.
  intros H t. unfold turn. assert (P : passive a = true) by (unfold passive; destruct H as [-> | ->]; reflexivity). rewrite P. cbn [andb].
  destruct (d (cls a) (nm a)); reflexivity.
Qed.

Section Branch.
Variable c : string.
Hypothesis Hc : c = "Line" \/ c = "Transformer".
Notation l := (of_class n c).

(* bounds: the two families together *)
Lemma dv_same a : DispatchModel.name (d_view "s" (F a)) = nm a /\ DispatchModel.nom (d_view "s" (F a)) = nom a /\ DispatchModel.ext (d_view "s" (F a)) = ext a /\
  DispatchModel.com (d_view "s" (F a)) = com a /\ DispatchModel.active (d_view "s" (F a)) = on a /\ DispatchModel.max_pu (d_view "s" (F a)) = max_pu a.
Proof. unfold turn. destruct (_ && _)%bool; repeat split. Qed.

Definition box (x : sol) (t : nat) (a : asset) (u : Q) : Prop :=
  - u <= x ((c ++ "-s")%string, t, nm a) - (if lossy n then x ((c ++ "-loss")%string, t, nm a) else 0) /\
  x ((c ++ "-s")%string, t, nm a) + (if lossy n then x ((c ++ "-loss")%string, t, nm a) else 0) <= u.
Lemma box_ag x t a u : box (ag x) t a u <-> box x t a u.
Proof.
  unfold box. rewrite (ag_flow x c t (nm a) Hc), (ag_loss x c t (nm a) Hc). unfold sgn_of. destruct (d c (nm a)); split; intros [A B]; split; lra.
Qed.
Lemma non_ext_box x v : (forall a, DispatchModel.name (v a) = nm a /\ DispatchModel.nom (v a) = nom a /\ DispatchModel.ext (v a) = ext a /\
    DispatchModel.com (v a) = com a /\ DispatchModel.active (v a) = on a /\ DispatchModel.max_pu (v a) = max_pu a) ->
  (sat x (CapModel.problem (DispatchModel.non_extendables c "s" DispatchModel.Passive (lossy n) (nsnaps n) (map v l))) <->
   forall t a, In t (seq 0 (nsnaps n)) -> In a l -> ext a = false -> com a = false -> flag a = true -> box x t a (max_pu a t * nom a)).
Proof.
  intros V. unfold DispatchModel.non_extendables. rewrite sat_app, !sat_ac. unfold DispatchModel.fixed_assets, DispatchModel.snaps.
  assert (X : forall t a, flag a = true -> DispatchModel.op c "s" (v a) t = Some ((c ++ "-s")%string, t, nm a) /\
    (forall s, DispatchModel.loss_term c DispatchModel.Passive (lossy n) s (v a) t = if lossy n then [(s, Some ((c ++ "-loss")%string, t, nm a))] else [])).
  { intros t a Fa. destruct (V a) as (E1 & _ & _ & _ & E5 & _). unfold DispatchModel.loss_term, DispatchModel.op. rewrite E1, E5. unfold on. rewrite Fa. split; [reflexivity|].
    intros s. cbn [DispatchModel.is_passive andb]. destruct (lossy n); reflexivity. }
  split.
  - intros [A B] t a It Ia E C Fa. destruct (X t a Fa) as [X1 X2]. destruct (V a) as (E1 & E2 & E3 & E4 & E5 & E6).
    assert (I : In (v a) (filter (fun b => negb (DispatchModel.ext b) && negb (DispatchModel.com b)) (map v l))).
    { apply filter_In. split; [now apply in_map|]. now rewrite E3, E4, E, C. }
    assert (M : DispatchModel.active (v a) t = true) by (rewrite E5; exact Fa).
    specialize (A t (v a) It I M). specialize (B t (v a) It I M). unfold holds, DispatchModel.mk in A, B. cbn [lhs sns rhs] in A, B. rewrite X1, X2 in A, B.
    specialize (A eq_refl). specialize (B eq_refl). cbn [DispatchModel.bounds_pu fst snd] in A, B. rewrite E2, E6 in A, B. unfold box.
    destruct (lossy n); cbn [eval val] in A, B; split; lra.
  - intros H. split; intros t b It I M _; apply filter_In in I; destruct I as [I K]; apply in_map_iff in I; destruct I as (a & <- & I);
      destruct (V a) as (E1 & E2 & E3 & E4 & E5 & E6); rewrite E3, E4 in K; apply andb_true_iff in K; destruct K as [K1 K2]; apply negb_true_iff in K1, K2;
      rewrite E5 in M; destruct (H t a It I K1 K2 M) as [B1 B2]; destruct (X t a M) as [X1 X2]; unfold holds, DispatchModel.mk; cbn [lhs sns rhs]; rewrite X1, X2;
      cbn [DispatchModel.bounds_pu fst snd]; rewrite E2, E6; destruct (lossy n); cbn [eval val]; lra.
Qed.
Definition xbox (x : sol) (t : nat) (a : asset) : Prop := box x t a (max_pu a t * x ((c ++ "-s_nom")%string, O, nm a)).
Lemma xbox_ag x t a : xbox (ag x) t a <-> xbox x t a.
Proof. unfold xbox. rewrite (ag_nom x c O (nm a) Hc). apply box_ag. Qed.
Lemma ext_box x v : (forall a, DispatchModel.name (v a) = nm a /\ DispatchModel.nom (v a) = nom a /\ DispatchModel.ext (v a) = ext a /\
    DispatchModel.com (v a) = com a /\ DispatchModel.active (v a) = on a /\ DispatchModel.max_pu (v a) = max_pu a) ->
  (sat x (CapModel.problem (DispatchModel.extendables c "s" "s_nom" DispatchModel.Passive (lossy n) (nsnaps n) (map v l))) <->
   forall t a, In t (seq 0 (nsnaps n)) -> In a l -> ext a = true -> flag a = true -> xbox x t a).
Proof.
  intros V. unfold DispatchModel.extendables. rewrite sat_app, !sat_ac. unfold DispatchModel.ext_assets, DispatchModel.snaps.
  assert (X : forall t a, flag a = true -> DispatchModel.op c "s" (v a) t = Some ((c ++ "-s")%string, t, nm a) /\
    DispatchModel.cap c "s_nom" (v a) = Some ((c ++ "-s_nom")%string, O, nm a) /\
    (forall s, DispatchModel.loss_term c DispatchModel.Passive (lossy n) s (v a) t = if lossy n then [(s, Some ((c ++ "-loss")%string, t, nm a))] else [])).
  { intros t a Fa. destruct (V a) as (E1 & _ & _ & _ & E5 & _). unfold DispatchModel.loss_term, DispatchModel.op, DispatchModel.cap. rewrite E1, E5. unfold on. rewrite Fa. split; [reflexivity|].
    split; [reflexivity|]. intros s. cbn [DispatchModel.is_passive andb]. destruct (lossy n); reflexivity. }
  split.
  - intros [A B] t a It Ia E Fa. destruct (X t a Fa) as (X1 & X3 & X2). destruct (V a) as (E1 & E2 & E3 & E4 & E5 & E6).
    assert (I : In (v a) (filter DispatchModel.ext (map v l))).
    { apply filter_In. split; [now apply in_map|]. now rewrite E3. }
    assert (M : DispatchModel.active (v a) t = true) by (rewrite E5; exact Fa).
    specialize (A t (v a) It I M). specialize (B t (v a) It I M). unfold holds, DispatchModel.mk in A, B. cbn [lhs sns rhs] in A, B. rewrite X1, X2, X3 in A, B.
    specialize (A eq_refl). specialize (B eq_refl). cbn [DispatchModel.bounds_pu fst snd] in A, B. rewrite E6 in A, B. unfold xbox, box.
    destruct (lossy n); cbn [eval val] in A, B; split; lra.
  - intros H. split; intros t b It I M _; apply filter_In in I; destruct I as [I K]; apply in_map_iff in I; destruct I as (a & <- & I);
      destruct (V a) as (E1 & E2 & E3 & E4 & E5 & E6); rewrite E3 in K;
      rewrite E5 in M; destruct (H t a It I K M) as [B1 B2]; destruct (X t a M) as (X1 & X3 & X2); unfold holds, DispatchModel.mk; cbn [lhs sns rhs]; rewrite X1, X2, X3;
      cbn [DispatchModel.bounds_pu fst snd]; rewrite E6; destruct (lossy n); cbn [eval val]; lra.
Qed.

(* prescribed flows *)
Lemma set_turn x : sat x (CapModel.problem (DispatchModel.fixed_operation c "s" (nsnaps n) (map (d_view "s") (of_class n' c)))) <->
  sat (ag x) (CapModel.problem (DispatchModel.fixed_operation c "s" (nsnaps n) (map (d_view "s") l))).
Proof.
  rewrite of_class_turn, map_map. unfold DispatchModel.fixed_operation. rewrite !sat_ac.
  assert (X : forall t a, In a l -> on a t = true -> val x (DispatchModel.op c "s" (d_view "s" (F a)) t) = x ((c ++ "-s")%string, t, nm a) /\
     val (ag x) (DispatchModel.op c "s" (d_view "s" a) t) == sgn_of c (nm a) * x ((c ++ "-s")%string, t, nm a)).
  { intros t a I M. destruct (dv_same a) as (E1 & _ & _ & _ & E5 & _). unfold DispatchModel.op. rewrite E1, E5. cbn [d_view DispatchModel.active DispatchModel.name].
    rewrite M. split; [reflexivity|]. exact (ag_flow x c t (nm a) Hc). }
  assert (Cl : forall a, In a l -> cls a = "Line" \/ cls a = "Transformer") by (intros a I; apply in_class in I; rewrite I; exact Hc).
  split.
  - intros H t b It I M _. apply in_map_iff in I. destruct I as (a & <- & I). cbn [d_view DispatchModel.fix_set DispatchModel.active] in M.
    destruct (op_set a "s" t) as [u|] eqn:U; [|discriminate]. destruct (X t a I M) as [X1 X2].
    specialize (H t (d_view "s" (F a)) It (in_map (fun a => d_view "s" (F a)) _ _ I)). rewrite (F_fields a (Cl a I) t), U in H. rewrite (in_class a c I) in H.
    destruct (dv_same a) as (E1 & _ & _ & _ & E5 & _).
    assert (Mk : match (if d c (nm a) then option_map Qopp (Some u) else Some u) with None => false | _ => DispatchModel.active (d_view "s" (F a)) t end = true).
    { rewrite E5. destruct (d c (nm a)); exact M. }
    specialize (H Mk). assert (Ht : CapModel.has_term (DispatchModel.mk [(1, DispatchModel.op c "s" (d_view "s" (F a)) t)] Eq match (if d c (nm a) then option_map Qopp (Some u) else Some u) with Some u0 => u0 | None => 0 end) = true).
    { unfold DispatchModel.op. rewrite E5, M. reflexivity. }
    specialize (H Ht). unfold holds, DispatchModel.mk in *. cbn [lhs sns rhs eval d_view DispatchModel.fix_set] in *. rewrite U, X2. rewrite X1 in H. unfold sgn_of. destruct (d c (nm a)); cbn [option_map] in H; lra.
  - intros H t b It I M _. apply in_map_iff in I. destruct I as (a & <- & I). destruct (dv_same a) as (E1 & _ & _ & _ & E5 & _).
    rewrite (F_fields a (Cl a I) t), (in_class a c I), E5 in M.
    specialize (H t (d_view "s" a) It (in_map _ _ _ I)). cbn [d_view DispatchModel.fix_set DispatchModel.active] in H.
    destruct (op_set a "s" t) as [u|] eqn:U; [|destruct (d c (nm a)); discriminate].
    assert (M' : on a t = true) by (destruct (d c (nm a)); exact M). destruct (X t a I M') as [X1 X2]. specialize (H M').
    assert (Ht : CapModel.has_term (DispatchModel.mk [(1, DispatchModel.op c "s" (d_view "s" a) t)] Eq u) = true).
    { unfold DispatchModel.op. cbn [d_view DispatchModel.active]. rewrite M'. reflexivity. }
    specialize (H Ht). unfold holds, DispatchModel.mk in *. cbn [lhs sns rhs eval] in *. rewrite (F_fields a (Cl a I) t), U, (in_class a c I), X1. unfold d_view in X2. rewrite X2 in H.
    unfold sgn_of in H. destruct (d c (nm a)); cbn [option_map]; lra.
Qed.

Lemma no_com m (L : list asset) : (forall a, In a L -> cls a = c) -> filter DispatchModel.com (map (d_view m) L) = [] /\ filter com L = [].
Proof.
  intros H. induction L as [|a L IH]; [split; reflexivity|]. destruct IH as [A B]; [intros; apply H; now right|].
  assert (E : com a = false). { unfold com. rewrite (H a (or_introl eq_refl)). destruct Hc as [-> | ->]; apply andb_false_r. }
  split; cbn [map filter]; [change (DispatchModel.com (d_view m a)) with (com a)|]; rewrite E; assumption.
Qed.
Lemma F_class a : In a (of_class n' c) -> cls a = c.
Proof. intros I. rewrite of_class_turn in I. apply in_map_iff in I. destruct I as (b & <- & I). rewrite F_cls. now apply in_class. Qed.
Lemma branch_op m : (forall a, In a (of_class m c) -> cls a = c) ->
  operation_of m (c, "s", "s_nom", DispatchModel.Passive) =
  DispatchModel.non_extendables c "s" DispatchModel.Passive (lossy m) (nsnaps m) (map (d_view "s") (of_class m c)) ++
  DispatchModel.extendables c "s" "s_nom" DispatchModel.Passive (lossy m) (nsnaps m) (map (d_view "s") (of_class m c)) ++
  DispatchModel.fixed_operation c "s" (nsnaps m) (map (d_view "s") (of_class m c)).
Proof.
  intros H. unfold operation_of, commitment_of, DispatchModel.committables, DispatchModel.com_assets. cbn zeta. destruct (no_com "s" _ H) as [-> ->].
  assert (U : has_uc c = false) by (destruct Hc as [-> | ->]; reflexivity). rewrite U. cbn [flat_map app].
  assert (Z : forall (A : Type) ts mask f, @add_constraints A ts [] mask f = []).
  { intros A ts mask f. unfold add_constraints. induction ts as [|t ts IH]; [reflexivity|exact IH]. }
  rewrite !Z. reflexivity.
Qed.
Lemma branch_turn x : sat x (CapModel.problem (operation_of n' (c, "s", "s_nom", DispatchModel.Passive))) <->
  sat (ag x) (CapModel.problem (operation_of n (c, "s", "s_nom", DispatchModel.Passive))).
Proof.
  rewrite (branch_op n' F_class), (branch_op n) by (intros a; apply in_class). rewrite !sat_app.
  change (lossy n') with (lossy n). change (nsnaps n') with (nsnaps n). rewrite set_turn. rewrite of_class_turn, map_map.
  rewrite (non_ext_box x (fun a => d_view "s" (F a)) dv_same), (ext_box x (fun a => d_view "s" (F a)) dv_same).
  rewrite (non_ext_box (ag x) (d_view "s")), (ext_box (ag x) (d_view "s")) by (intros a; repeat split).
  split; intros (A & B & D); (split; [|split; [|exact D]]); intros t a; [intros I1 I2 I3 I4 I5|intros I1 I2 I3 I4|intros I1 I2 I3 I4 I5|intros I1 I2 I3 I4].
  - now apply box_ag, A. 
  - now apply xbox_ag, B.
  - now apply box_ag, A.
  - now apply xbox_ag, B.
Qed.

(* losses *)
Lemma loss_rows_same : losses n' c = losses n c.
Proof. unfold losses. change (lossy n') with (lossy n). rewrite (view_same lo_view c) by flip. reflexivity. Qed.
Lemma tangent_ag x k bs : (sat x (CapModel.problem (LossModel.tangent c (tangents n) (nsnaps n) k (-(1)) bs)) /\
    sat x (CapModel.problem (LossModel.tangent c (tangents n) (nsnaps n) k 1 bs))) <->
  (sat (ag x) (CapModel.problem (LossModel.tangent c (tangents n) (nsnaps n) k (-(1)) bs)) /\
    sat (ag x) (CapModel.problem (LossModel.tangent c (tangents n) (nsnaps n) k 1 bs))).
Proof.
  unfold LossModel.tangent. rewrite !sat_ac.
  assert (X : forall b t, LossModel.b_active b t = true -> (LossModel.loss c b t = Some ((c ++ "-loss")%string, t, LossModel.b_name b)) /\
     LossModel.flow c b t = Some ((c ++ "-s")%string, t, LossModel.b_name b)).
  { intros b t M. unfold LossModel.loss, LossModel.flow. now rewrite M. }
  split; intros [A B]; split; intros t b It I M _; destruct (X b t M) as [X1 X2];
    specialize (A t b It I M); specialize (B t b It I M); unfold CapModel.has_term, holds in *; cbn [lhs sns rhs] in *; rewrite X1, X2 in A, B |- *;
    specialize (A eq_refl); specialize (B eq_refl); cbn [eval val] in *; rewrite (ag_loss x c t _ Hc), (ag_flow x c t _ Hc) in *; unfold sgn_of in *;
    destruct (d c (LossModel.b_name b)); lra.
Qed.
Lemma loss_ag x cs : losses n c = Some cs -> (sat x (CapModel.problem cs) <-> sat (ag x) (CapModel.problem cs)).
Proof.
  unfold losses. destruct (lossy n); [|intros E; injection E as <-; split; intros _ b []]. unfold LossModel.loss_constraints.
  destruct (map lo_view (of_class n c)) as [|b0 bs0]; [intros E; injection E as <-; split; intros _ b []|]. set (bs := b0 :: bs0). destruct (forallb _ bs); [|discriminate].
  intros E. injection E as <-. rewrite !sat_app. apply and_both.
  - symmetry. apply still_sat. unfold LossModel.upper. apply still_ac. intros t a. cbn [lhs]. lst. unfold LossModel.loss. destruct Hc as [-> | ->]; lab.
  - induction (seq 1 (tangents n)) as [|k ks IH]; [split; intros _ b []|]. cbn [flat_map]. rewrite !app_nil_r. rewrite !sat_app, IH. pose proof (tangent_ag x k bs). tauto.
Qed.
End Branch.

Lemma operation_turn x : sat x (CapModel.problem (operation n')) <-> sat (ag x) (CapModel.problem (operation n)).
Proof.
  unfold operation, operations. cbn [flat_map]. rewrite !sat_app.
  rewrite (branch_turn "Line" (or_introl eq_refl)), (branch_turn "Transformer" (or_intror eq_refl)).
  assert (O : forall row, In row other_rows -> (sat x (CapModel.problem (operation_of n' row)) <-> sat (ag x) (CapModel.problem (operation_of n row)))).
  { intros row I. rewrite (other_same row I). symmetry. apply still_sat. now apply other_still. }
  rewrite !O by (cbn; tauto). split; intros H; repeat (destruct H as [? H]); repeat (split; [assumption|]); intros b [].
Qed.

(* ---------- balances ---------- *)
Fixpoint ssum (h : BalanceModel.entry -> Q) (l : list BalanceModel.entry) : Q := match l with [] => 0 | e :: r => h e + ssum h r end.
Lemma ssum_app h a b : ssum h (a ++ b) == ssum h a + ssum h b.
Proof. induction a as [|e a IH]; cbn [app ssum]; [ring|]. rewrite IH. ring. Qed.
Definition at_bus (x : sol) (b : string) (e : BalanceModel.entry) : Q := if String.eqb (fst e) b then fst (snd e) * val x (snd (snd e)) else 0.
Lemma lhs_sum m ls x b t : eval x (BalanceModel.balance_lhs m ls b t) == ssum (at_bus x b) (BalanceModel.entries m ls t).
Proof.
  unfold BalanceModel.balance_lhs. induction (BalanceModel.entries m ls t) as [|[b' [q v]] l IH]; [reflexivity|]. cbn [filter ssum]. unfold at_bus at 1. cbn [fst snd].
  destruct (String.eqb b' b); cbn [map eval snd]; rewrite IH; ring.
Qed.
Lemma ssum_br h s0 s1 v L t : ssum h (BalanceModel.br s0 s1 v (map br_view L) t) ==
  fold_right (fun a q => h (bus0 a, (s0, BalanceModel.lab (on a) v (nm a) t)) + h (bus1 a, (s1, BalanceModel.lab (on a) v (nm a) t)) + q) 0 L.
Proof.
  unfold BalanceModel.br. rewrite ssum_app. induction L as [|a L IH]; cbn [map ssum fold_right]; [ring|]. rewrite <- IH. cbn [br_view BalanceModel.b_bus0 BalanceModel.b_bus1 BalanceModel.b_active BalanceModel.b_name]. ring.
Qed.
Definition same_ends (a : asset) : Prop := on (F a) = on a /\ nm (F a) = nm a /\
  ((passive a && d (cls a) (nm a) = false /\ bus0 (F a) = bus0 a /\ bus1 (F a) = bus1 a) \/ (passive a && d (cls a) (nm a) = true /\ bus0 (F a) = bus1 a /\ bus1 (F a) = bus0 a))%bool.
Lemma ends a : same_ends a.
Proof. unfold same_ends, turn. destruct (_ && _)%bool; repeat split; auto. Qed.
Lemma fold_eq {A} (f g : A -> Q -> Q) L : (forall a q q', In a L -> q == q' -> f a q == g a q') -> fold_right f 0 L == fold_right g 0 L.
Proof. induction L as [|a L IH]; intros H; [reflexivity|]. cbn [fold_right]. apply H; [now left|]. apply IH. intros; apply H; [now right|assumption]. Qed.
Lemma br_flow x b t c : c = "Line" \/ c = "Transformer" ->
  ssum (at_bus x b) (BalanceModel.br (-(1)) 1 (c ++ "-s") (map br_view (of_class n' c)) t) ==
  ssum (at_bus (ag x) b) (BalanceModel.br (-(1)) 1 (c ++ "-s") (map br_view (of_class n c)) t).
Proof.
  intros Hc. rewrite !ssum_br, of_class_turn, NamingProofs.fold_right_map. apply fold_eq. intros a q q' I ->. apply Qplus_comp; [|reflexivity].
  assert (Pa : passive a = true) by (unfold passive; rewrite (in_class a c I); destruct Hc as [-> | ->]; reflexivity).
  destruct (ends a) as (E1 & E2 & E3). rewrite E1, E2. unfold at_bus. cbn [fst snd].
  assert (V : val (ag x) (BalanceModel.lab (on a) (c ++ "-s") (nm a) t) == sgn_of c (nm a) * val x (BalanceModel.lab (on a) (c ++ "-s") (nm a) t)).
  { unfold BalanceModel.lab. destruct (on a t); cbn [val]; [now apply ag_flow|ring]. }
  rewrite Pa, (in_class a c I) in E3. unfold sgn_of in V. cbn [andb] in E3.
  destruct E3 as [(D & -> & ->)|(D & -> & ->)]; rewrite D in V; destruct (String.eqb (bus0 a) b), (String.eqb (bus1 a) b); rewrite ?V; ring.
Qed.
Lemma br_loss x b t c : c = "Line" \/ c = "Transformer" ->
  ssum (at_bus x b) (BalanceModel.br (-(1#2)) (-(1#2)) (c ++ "-loss") (map br_view (of_class n' c)) t) ==
  ssum (at_bus (ag x) b) (BalanceModel.br (-(1#2)) (-(1#2)) (c ++ "-loss") (map br_view (of_class n c)) t).
Proof.
  intros Hc. rewrite !ssum_br, of_class_turn, NamingProofs.fold_right_map. apply fold_eq. intros a q q' I ->. apply Qplus_comp; [|reflexivity].
  destruct (ends a) as (E1 & E2 & E3). rewrite E1, E2. unfold at_bus. cbn [fst snd].
  assert (V : val (ag x) (BalanceModel.lab (on a) (c ++ "-loss") (nm a) t) = val x (BalanceModel.lab (on a) (c ++ "-loss") (nm a) t)).
  { unfold BalanceModel.lab. destruct (on a t); cbn [val]; [now apply ag_loss|reflexivity]. }
  rewrite V. destruct E3 as [(_ & -> & ->)|(_ & -> & ->)]; destruct (String.eqb (bus0 a) b), (String.eqb (bus1 a) b); ring.
Qed.
Lemma ssum_nf x b L : Forall (fun e => nf (snd (snd e))) L -> ssum (at_bus x b) L == ssum (at_bus (ag x) b) L.
Proof. induction 1 as [|e L H G IH]; [reflexivity|]. cbn [ssum]. rewrite IH. unfold at_bus. now rewrite H. Qed.
Lemma nf_lab f v i t : String.eqb v "Line-s" = false -> String.eqb v "Transformer-s" = false -> nf (BalanceModel.lab f v i t).
Proof. intros A B. unfold BalanceModel.lab. now apply nf_if. Qed.

Lemma same5 : of_class n' "Generator" = of_class n "Generator" /\ of_class n' "Store" = of_class n "Store" /\ of_class n' "StorageUnit" = of_class n "StorageUnit" /\
  of_class n' "Link" = of_class n "Link".
Proof. repeat split; now apply of_class_same. Qed.
Lemma Forall_map' {A B} (Pp : B -> Prop) (g : A -> B) L : (forall a, Pp (g a)) -> Forall Pp (map g L).
Proof. intros H. induction L; constructor; auto. Qed.

Lemma sum_turn x b t : ssum (at_bus x b) (BalanceModel.entries (b_net n') (lossy n') t) == ssum (at_bus (ag x) b) (BalanceModel.entries (b_net n) (lossy n) t).
Proof.
  unfold BalanceModel.entries. cbn [b_net BalanceModel.gens BalanceModel.stores BalanceModel.units BalanceModel.lines BalanceModel.trafos BalanceModel.links].
  destruct same5 as (-> & -> & -> & ->). change (lossy n') with (lossy n). rewrite !ssum_app.
  repeat (apply Qplus_comp; [|]).
  1-4: unfold BalanceModel.one; apply ssum_nf, Forall_map'; intros a; cbn [snd]; now apply nf_lab.
  - exact (br_flow x b t "Line" (or_introl eq_refl)).
  - exact (br_flow x b t "Transformer" (or_intror eq_refl)).
  - apply ssum_nf, Forall_map'. intros a. now apply nf_lab.
  - apply ssum_nf, Forall_map'. intros a. now apply nf_lab.
  - apply ssum_nf. apply Forall_flat_map, Forall_forall. intros l _. apply Forall_map'. intros a. now apply nf_lab.
  - destruct (lossy n); [|reflexivity]. rewrite !ssum_app. apply Qplus_comp; [exact (br_loss x b t "Line" (or_introl eq_refl))|exact (br_loss x b t "Transformer" (or_intror eq_refl))].
Qed.

(* which buses are reached *)
Lemma reach_br (p : string -> label -> bool) s0 s1 s0' s1' v c t :
  existsb (fun e => p (fst e) (snd (snd e))) (BalanceModel.br s0 s1 v (map br_view (of_class n' c)) t) =
  existsb (fun e => p (fst e) (snd (snd e))) (BalanceModel.br s0' s1' v (map br_view (of_class n c)) t).
Proof.
  assert (G : forall s0 s1 L, existsb (fun e => p (fst e) (snd (snd e))) (BalanceModel.br s0 s1 v (map br_view L) t) =
    existsb (fun a => p (bus0 a) (BalanceModel.lab (on a) v (nm a) t) || p (bus1 a) (BalanceModel.lab (on a) v (nm a) t))%bool L).
  { intros q0 q1 L. unfold BalanceModel.br. rewrite existsb_app, !map_map, !NamingProofs.existsb_map. cbn [fst snd br_view BalanceModel.b_bus0 BalanceModel.b_bus1 BalanceModel.b_active BalanceModel.b_name].
    induction L as [|a L IH]; [reflexivity|]. cbn [existsb]. rewrite <- IH. destruct (p (bus0 a) _), (p (bus1 a) _), (existsb _ L); cbn [orb]; rewrite ?orb_true_r; reflexivity. }
  rewrite !G, of_class_turn, NamingProofs.existsb_map. apply NamingProofs.existsb_eq. intros a. destruct (ends a) as (-> & -> & [(_ & -> & ->)|(_ & -> & ->)]); [reflexivity|apply orb_comm].
Qed.
Lemma reach (p : string -> label -> bool) t : existsb (fun e => p (fst e) (snd (snd e))) (BalanceModel.entries (b_net n') (lossy n') t) =
  existsb (fun e => p (fst e) (snd (snd e))) (BalanceModel.entries (b_net n) (lossy n) t).
Proof.
  unfold BalanceModel.entries. cbn [b_net BalanceModel.gens BalanceModel.stores BalanceModel.units BalanceModel.lines BalanceModel.trafos BalanceModel.links].
  destruct same5 as (-> & -> & -> & ->). change (lossy n') with (lossy n). rewrite !existsb_app.
  rewrite (reach_br p (-(1)) 1 (-(1)) 1 "Line-s" "Line"), (reach_br p (-(1)) 1 (-(1)) 1 "Transformer-s" "Transformer").
  destruct (lossy n); [|reflexivity]. rewrite ?existsb_app.
  rewrite (reach_br p (-(1#2)) (-(1#2)) (-(1#2)) (-(1#2)) "Line-loss" "Line"), (reach_br p (-(1#2)) (-(1#2)) (-(1#2)) (-(1#2)) "Transformer-loss" "Transformer"). reflexivity.
Qed.
Definition live (l : label) : bool := match l with Some _ => true | None => false end.
Lemma empty_reach m ls b t : BalanceModel.is_empty (BalanceModel.balance_lhs m ls b t) =
  negb (existsb (fun e => String.eqb (fst e) b && live (snd (snd e))) (BalanceModel.entries m ls t)).
Proof.
  unfold BalanceModel.is_empty, BalanceModel.balance_lhs. induction (BalanceModel.entries m ls t) as [|[b' [q v]] l IH]; [reflexivity|]. cbn [filter existsb fst snd].
  destruct (String.eqb b' b); cbn [map forallb snd andb orb]; [|exact IH]. rewrite IH. destruct v; reflexivity.
Qed.
Lemma empty_turn b t : BalanceModel.is_empty (BalanceModel.balance_lhs (b_net n') (lossy n') b t) = BalanceModel.is_empty (BalanceModel.balance_lhs (b_net n) (lossy n) b t).
Proof. rewrite !empty_reach. f_equal. exact (reach (fun b' l => String.eqb b' b && live l)%bool t). Qed.

Definition agrees (o o' : option (list con)) : Prop :=
  match o, o' with
  | Some cs, Some cs' => forall x, sat x (CapModel.problem cs') <-> sat (ag x) (CapModel.problem cs)
  | None, None => True
  | _, _ => False
  end.
Lemma has_empty (l : lin) q : CapModel.has_term {| lhs := l; sns := Eq; rhs := q |} = negb (BalanceModel.is_empty l).
Proof. unfold CapModel.has_term, BalanceModel.is_empty. cbn [lhs]. induction l as [|[c [v|]] l IH]; [reflexivity|reflexivity|exact IH]. Qed.
Lemma balances_turn : agrees (balances n) (balances n').
Proof.
  unfold balances, BalanceModel.balance.
  assert (E1 : BalanceModel.no_terms (b_net n') (lossy n') (buses n') = BalanceModel.no_terms (b_net n) (lossy n) (buses n)).
  { unfold BalanceModel.no_terms. f_equal. exact (reach (fun b _ => existsb (String.eqb b) (buses n)) 0). }
  assert (E2 : BalanceModel.empty_demand (b_net n') (lossy n') (buses n') (nsnaps n') = BalanceModel.empty_demand (b_net n) (lossy n) (buses n) (nsnaps n)).
  { unfold BalanceModel.empty_demand. cbn [turned buses nsnaps]. apply NamingProofs.existsb_eq. intros t. apply NamingProofs.existsb_eq. intros b.
    now rewrite empty_turn. }
  rewrite E1, E2. destruct (_ || _)%bool; [exact I|]. cbn [agrees]. intros x. rewrite !sat_ac. cbn [turned buses nsnaps]. fold n'.
  split; intros H t b It Ib M _; specialize (H t b It Ib).
  - rewrite has_empty, empty_turn, M in H. specialize (H eq_refl eq_refl). unfold holds in *. cbn [lhs sns rhs] in *. rewrite lhs_sum, sum_turn, <- lhs_sum in H. exact H.
  - rewrite empty_turn in M. rewrite has_empty, M in H. specialize (H eq_refl eq_refl). unfold holds in *. cbn [lhs sns rhs] in *. rewrite lhs_sum, sum_turn, <- lhs_sum. exact H.
Qed.

(* ---------- storage, supplies ---------- *)
Lemma nf_var a v t : String.eqb v "Line-s" = false -> String.eqb v "Transformer-s" = false -> nf (StorageModel.var_of a v t).
Proof. intros A B. unfold StorageModel.var_of. now apply nf_if. Qed.
Lemma nf_ffill f t : (forall t, nf (f t)) -> nf (StorageModel.ffill f t).
Proof.
  intros H. induction t as [|t IH]; cbn [StorageModel.ffill]; [pose proof (H O) as G; destruct (f O); [exact G|apply nf_none]|].
  pose proof (H (S t)) as G. destruct (f (S t)); [exact G|exact IH].
Qed.
Lemma nf_previous T lev a t : String.eqb lev "Line-s" = false -> String.eqb lev "Transformer-s" = false -> nf (StorageModel.previous T lev a t).
Proof.
  intros A B. unfold StorageModel.previous, StorageModel.where_ at 1. destruct (StorageModel.include_previous a t); [|apply nf_none].
  apply nf_ffill. intros s. unfold StorageModel.roll.
  assert (G : forall s, nf (StorageModel.ffill (StorageModel.where_ (StorageModel.level lev a) (StorageModel.s_active a)) s)).
  { intros u. apply nf_ffill. intros w. unfold StorageModel.where_. destruct (StorageModel.s_active a w); [|apply nf_none]. now apply nf_var. }
  destruct s; apply G.
Qed.
Lemma energy_still T lev a fl infl : String.eqb lev "Line-s" = false -> String.eqb lev "Transformer-s" = false -> (forall t, nflin (fl t)) ->
  still (StorageModel.energy_balance T None lev a fl infl).
Proof.
  intros A B G. unfold StorageModel.energy_balance. apply still_ac. intros t b. cbn [lhs]. apply Forall_cons; [cbn [snd]; now apply nf_var|]. apply nflin_app; [apply G|].
  apply Forall_cons; [cbn [snd]; now apply nf_previous|apply Forall_nil].
Qed.
Lemma units_still : still (storage_units n).
Proof.
  unfold storage_units. apply still_flat. intros a _. apply energy_still; [reflexivity|reflexivity|]. intros t. unfold StorageModel.unit_flows.
  lst; [now apply nf_var|now apply nf_var|]. unfold StorageModel.spill_label. destruct (negb _); [now apply nf_var|apply nf_none].
Qed.
Lemma stores_still : still (stores n).
Proof. unfold stores. apply still_flat. intros a _. apply energy_still; [reflexivity|reflexivity|]. intros t. lst. now apply nf_var. Qed.
Lemma units_turn : storage_units n' = storage_units n.
Proof. unfold storage_units. destruct same5 as (_ & _ & -> & _). reflexivity. Qed.
Lemma stores_turn : stores n' = stores n.
Proof. unfold stores. destruct same5 as (_ & -> & _ & _). reflexivity. Qed.
Lemma supplies_turn : supplies n' = supplies n.
Proof. unfold supplies. destruct same5 as (-> & _). reflexivity. Qed.
Lemma supplies_still : still (supplies n).
Proof.
  unfold supplies, CapModel.total_supply.
  assert (G : forall w ts u, nflin (CapModel.supply_terms w ts u)).
  { intros w ts u. unfold CapModel.supply_terms. apply Forall_map'. intros t. cbn [snd]. now apply nf_if. }
  apply still_app; apply still_flat; intros u _; [destruct (CapModel.u_min u)|destruct (CapModel.u_max u)]; constructor; try constructor; apply G.
Qed.

(* ---------- limits ---------- *)
Definition ostill (o : option (list con)) : Prop := match o with Some cs => still cs | None => True end.
Lemma nf_final lev s sel : String.eqb lev "Line-s" = false -> String.eqb lev "Transformer-s" = false -> nf (LimitModel.final_label lev s sel).
Proof.
  intros A B. unfold LimitModel.final_label. assert (G : nf None) by apply nf_none. revert G. generalize (@None var) as acc. induction sel as [|t sel IH]; intros acc G; [exact G|].
  cbn [fold_left]. apply IH. pose proof (nf_var s lev t A B) as H. unfold StorageModel.level. destruct (StorageModel.var_of s lev t); assumption.
Qed.
Lemma limit_con_still m em coef g sel : ostill (rows_of (LimitModel.limit_con m em coef g sel)).
Proof.
  unfold LimitModel.limit_con. destruct (_ || _)%bool; [|constructor]. cbn [rows_of ostill]. constructor; [|constructor]. cbn [lhs]. apply nflin_app; [|apply nflin_app].
  - unfold LimitModel.gen_terms. apply Forall_flat_map, Forall_forall. intros u _. apply Forall_map'. intros t. cbn [snd]. unfold LimitModel.gen_var. now apply nf_if.
  - apply Forall_map'. intros u. cbn [snd]. now apply nf_final.
  - apply Forall_map'. intros u. cbn [snd]. now apply nf_final.
Qed.
Lemma lim_net_same attr : lim_net n' attr = lim_net n attr.
Proof. unfold lim_net. destruct same5 as (-> & -> & -> & _). reflexivity. Qed.

Lemma kext_base m c : CapModel.ext_i (k_net m) c = map k_view (filter (fun a => ext a) (of_class m c)).
Proof.
  unfold CapModel.ext_i, CapModel.cls, of_class. cbn [k_net CapModel.assets]. rewrite !NamingProofs.filter_map. cbn [k_view CapModel.k_class CapModel.k_ext]. reflexivity.
Qed.
Lemma kext_turn c : CapModel.ext_i (k_net n') c = map (fun a => k_view (F a)) (filter (fun a => ext a) (of_class n c)).
Proof.
  rewrite kext_base, of_class_turn, NamingProofs.filter_map, map_map. erewrite filter_ext; [reflexivity|]. intros a. unfold turn. destruct (_ && _)%bool; reflexivity.
Qed.
Lemma kF a : CapModel.k_carrier (k_view (F a)) = carrier a /\ CapModel.k_in (k_view (F a)) = (fun _ => flag a) /\ CapModel.k_length (k_view (F a)) = len a /\
  CapModel.k_capital (k_view (F a)) = capital a /\ CapModel.k_name (k_view (F a)) = nm a.
Proof. unfold turn. destruct (_ && _)%bool; repeat split. Qed.
Lemma named_nonempty g c : CapModel.nonempty (CapModel.t_named (k_net n') g c) = CapModel.nonempty (CapModel.t_named (k_net n) g c).
Proof.
  unfold CapModel.t_named. rewrite kext_turn, kext_base, !NamingProofs.filter_map, !NamingProofs.cnonempty_map. f_equal. apply filter_ext. intros a.
  destruct (kF a) as (-> & _). reflexivity.
Qed.
Lemma ext_nonempty c : CapModel.nonempty (CapModel.ext_i (k_net n') c) = CapModel.nonempty (CapModel.ext_i (k_net n) c).
Proof. now rewrite kext_turn, kext_base, !NamingProofs.cnonempty_map. Qed.
Lemma t_terms_turn g coef coef' ca : CapModel.t_period g = None -> (forall a, coef' (k_view (F a)) = coef (k_view a)) ->
  CapModel.t_terms (k_net n') g coef' ca = CapModel.t_terms (k_net n) g coef ca.
Proof.
  intros Pg H. unfold CapModel.t_terms, CapModel.t_named. rewrite kext_turn, kext_base, !NamingProofs.filter_map, !map_map.
  assert (E : filter (fun a => CapModel.t_active (k_net n') (CapModel.t_period g) (k_view (F a))) (filter (fun a => CapModel.mem (CapModel.k_carrier (k_view (F a))) (CapModel.carrier_list (CapModel.t_carriers g))) (filter (fun a => ext a) (of_class n (fst ca)))) =
    filter (fun a => CapModel.t_active (k_net n) (CapModel.t_period g) (k_view a)) (filter (fun a => CapModel.mem (CapModel.k_carrier (k_view a)) (CapModel.carrier_list (CapModel.t_carriers g))) (filter (fun a => ext a) (of_class n (fst ca))))).
  { rewrite Pg. erewrite filter_ext; [|intros a; unfold turn; destruct (_ && _)%bool; reflexivity]. f_equal. apply filter_ext. intros a. destruct (kF a) as (-> & _). reflexivity. }
  rewrite E. apply map_ext. intros a. rewrite H. unfold CapModel.nom_label. destruct (kF a) as (_ & _ & _ & _ & ->). reflexivity.
Qed.
Lemma limit_turn l : limit_rows n' l = limit_rows n l.
Proof.
  destruct l as [attr s q|c s q|cs s q|cs s q]; cbn [limit_rows]; rewrite ?lim_net_same; [reflexivity|reflexivity| |].
  - f_equal. unfold CapModel.volume_limit, CapModel.transmission. cbn [CapModel.branches existsb flat_map fst]. rewrite !named_nonempty.
    rewrite !(t_terms_turn _ CapModel.k_length CapModel.k_length) by (first [reflexivity | intros a; now destruct (kF a) as (_ & _ & -> & _)]). reflexivity.
  - f_equal. unfold CapModel.cost_limit, CapModel.transmission. cbn [k_net CapModel.multi]. rewrite !andb_false_r. cbn [andb]. cbn [CapModel.branches existsb flat_map fst]. rewrite !ext_nonempty.
    rewrite !(t_terms_turn _ (fun a => CapModel.k_capital a * CapModel.cost_weight (k_net n) None a) (fun a => CapModel.k_capital a * CapModel.cost_weight (k_net n') None a))
      by (first [reflexivity | intros a; destruct (kF a) as (_ & _ & _ & -> & _); reflexivity]). reflexivity.
Qed.
Lemma limit_still l : ostill (limit_rows n l).
Proof.
  assert (T : forall g pres coef, ostill (rows (CapModel.transmission (k_net n) g pres coef))).
  { intros g pres coef. unfold CapModel.transmission. destruct (existsb _ _); [|constructor]. destruct (CapModel.bad_period _ _); [exact I|]. cbn [rows ostill].
    constructor; [|constructor]. cbn [lhs]. apply Forall_flat_map, Forall_forall. intros [c at_] J. cbn [fst]. destruct (pres c); [|constructor]. unfold CapModel.t_terms. apply Forall_map'. intros a.
    cbn [fst snd]. unfold CapModel.nom_label, CapModel.vname. repeat (destruct J as [J|J]; [injection J as <- <-; lab|]). destruct J. }
  destruct l as [attr s q|c s q|cs s q|cs s q]; cbn [limit_rows].
  - unfold LimitModel.primary_energy. destruct (LimitModel.selected _ _); [|constructor]. destruct (LimitModel.nonempty _); [apply limit_con_still|constructor].
  - unfold LimitModel.operational_limit. destruct (LimitModel.selected _ _); [apply limit_con_still|constructor].
  - apply T.
  - unfold CapModel.cost_limit. destruct (_ && _)%bool; [exact I|apply T].
Qed.

(* columns: only one-port classes *)
Lemma one_port_ext c : CapModel.one_port c = true -> CapModel.ext_i (k_net n') c = CapModel.ext_i (k_net n) c.
Proof.
  intros O. rewrite !kext_base, of_class_same; [reflexivity| |]; (destruct (String.eqb_spec c "Line") as [->|N1]; [discriminate|]; destruct (String.eqb_spec c "Transformer") as [->|N2]; [discriminate|]); reflexivity.
Qed.
Lemma column_turn col : column_rows n' col = column_rows n col.
Proof.
  unfold column_rows, CapModel.bus_column.
  change (CapModel.parse (k_net n') (carriers n') false (fun _ => None) (CapModel.col_name col)) with
    (CapModel.parse (k_net n) (carriers n) false (fun _ => None) (CapModel.col_name col)).
  destruct (CapModel.parse _ _ _ _ _) as [s ca p| |]; [|reflexivity|reflexivity]. f_equal.
  assert (B : CapModel.bus_any (k_net n') ca p = CapModel.bus_any (k_net n) ca p).
  { unfold CapModel.bus_any. apply NamingProofs.existsb_eq. intros [c at_]. cbn [fst]. destruct (CapModel.one_port c) eqn:O; [|reflexivity]. unfold CapModel.tech_assets. now rewrite one_port_ext. }
  assert (G : forall b, CapModel.bus_terms (k_net n') ca p b = CapModel.bus_terms (k_net n) ca p b).
  { intros b. unfold CapModel.bus_terms. apply NamingProofs.flat_map_eq. intros [c at_] _. cbn [fst snd]. destruct (CapModel.one_port c) eqn:O; [|reflexivity]. unfold CapModel.tech_assets. now rewrite one_port_ext. }
  rewrite B. destruct (CapModel.bus_any (k_net n) ca p); [|reflexivity]. apply NamingProofs.flat_map_eq. intros b _. rewrite G. reflexivity.
Qed.
Lemma column_still col : ostill (column_rows n col).
Proof.
  unfold column_rows, CapModel.bus_column. destruct (CapModel.parse _ _ _ _ _) as [s ca p| |]; [|constructor|exact I]. cbn [ostill]. destruct (CapModel.bus_any _ _ _); [|constructor].
  apply still_flat. intros b _. destruct (CapModel.col_val col b); constructor; [|constructor]. cbn [lhs]. unfold CapModel.bus_terms. apply Forall_flat_map, Forall_forall. intros [c at_] J.
  cbn [fst snd]. destruct (_ && _)%bool; [|constructor]. apply Forall_map'. intros a. cbn [snd]. unfold CapModel.nom_label, CapModel.vname.
  repeat (destruct J as [J|J]; [injection J as <- <-; lab|]). destruct J.
Qed.

(* ---------- together ---------- *)
Lemma agrees_collect l l' : Forall2 agrees l l' -> agrees (collect l) (collect l').
Proof.
  induction 1 as [|o o' l l' H G IH]; cbn [collect]; [intros x; split; intros _ b []|].
  destruct o as [cs|], o' as [cs'|]; try contradiction; [|exact I].
  destruct (collect l) as [r1|], (collect l') as [r2|]; try contradiction; [|exact I]. cbn [option_map agrees]. intros x.
  rewrite !sat_app, (H x), (IH x). reflexivity.
Qed.
Lemma agrees_still o : ostill o -> agrees o o.
Proof. destruct o as [cs|]; [|trivial]. intros S x. symmetry. now apply still_sat. Qed.
Lemma passive_turn : filter passive (assets n') = map F (filter passive (assets n)).
Proof.
  cbn [turned assets]. rewrite NamingProofs.filter_map. f_equal. apply filter_ext. intros a. unfold passive. now rewrite F_cls.
Qed.

Variable kvl : list asset -> list con.
Hypothesis K : kvl_follows d kvl (filter passive (assets n)).
Lemma model_turn : agrees (create_model kvl n) (create_model kvl n').
Proof.
  unfold create_model, parts. apply agrees_collect. apply Forall2_app; [|apply Forall2_app].
  - repeat apply Forall2_cons; try apply Forall2_nil.
    + rewrite capacity_turn. apply agrees_still, capacity_still.
    + intros x. apply operation_turn.
    + apply balances_turn.
    + intros x. rewrite passive_turn. apply K.
    + rewrite units_turn. apply agrees_still, units_still.
    + rewrite stores_turn. apply agrees_still, stores_still.
    + rewrite supplies_turn. apply agrees_still, supplies_still.
    + rewrite loss_rows_same. destruct (losses n "Line") as [cs|] eqn:E; [|exact I]. intros x. apply (loss_ag "Line" (or_introl eq_refl) x cs E).
    + rewrite loss_rows_same. destruct (losses n "Transformer") as [cs|] eqn:E; [|exact I]. intros x. apply (loss_ag "Transformer" (or_intror eq_refl) x cs E).
  - cbn [turned limits]. induction (limits n) as [|l ls IH]; cbn [map]; constructor; [|exact IH]. rewrite limit_turn. apply agrees_still, limit_still.
  - cbn [turned columns]. induction (columns n) as [|l ls IH]; cbn [map]; constructor; [|exact IH]. rewrite column_turn. apply agrees_still, column_still.
Qed.

(* ---------- objective ---------- *)
Lemma o_net_same : o_net n' = o_net n.
Proof. unfold o_net. cbn [turned assets]. rewrite map_map. erewrite map_ext; [reflexivity|]. flip. Qed.
Lemma nf_square x l : nflin l -> ObjectiveModel.square (ag x) l = ObjectiveModel.square x l.
Proof. induction 1 as [|[q v] l H G IH]; [reflexivity|]. cbn [ObjectiveModel.square]. cbn [snd] in H. now rewrite IH, H. Qed.
Definition pstill (p : ObjectiveModel.piece) : Prop := match p with ObjectiveModel.Linear l | ObjectiveModel.Square l => nflin l | _ => True end.
Lemma nf_op c attr a t : String.eqb (c ++ "-" ++ attr) "Line-s" = false -> String.eqb (c ++ "-" ++ attr) "Transformer-s" = false -> nf (ObjectiveModel.op_label c attr a t).
Proof. intros A B. unfold ObjectiveModel.op_label, ObjectiveModel.vname. cbn zeta. now apply nf_if. Qed.
Lemma terms_still m f lab_ l : (forall a t, nf (lab_ a t)) -> nflin (ObjectiveModel.terms m f lab_ l).
Proof. intros H. unfold ObjectiveModel.terms. apply Forall_flat_map, Forall_forall. intros a _. apply Forall_map'. intros t. apply H. Qed.
Lemma oper_still sq f rws : (forall l, nflin l -> pstill (sq l)) ->
  (forall ca, In ca rws -> String.eqb (fst ca ++ "-" ++ snd ca) "Line-s" = false /\ String.eqb (fst ca ++ "-" ++ snd ca) "Transformer-s" = false) ->
  Forall pstill (ObjectiveModel.operation (o_net n) sq f rws).
Proof.
  intros S R. unfold ObjectiveModel.operation. apply Forall_flat_map, Forall_forall. intros ca J. cbn zeta. destruct (ObjectiveModel.nonempty _); [|constructor]. constructor; [|constructor].
  destruct (ObjectiveModel.exists_array _ _ _); [|exact I]. apply S, terms_still. intros a t. destruct (R ca J). now apply nf_op.
Qed.
Lemma pieces_still : Forall pstill (ObjectiveModel.pieces (o_net n)).
Proof.
  unfold ObjectiveModel.pieces.
  assert (W : forall attr f, In attr ["start_up"; "shut_down"] -> Forall pstill (ObjectiveModel.switching (o_net n) attr f)).
  { intros attr f J. unfold ObjectiveModel.switching. apply Forall_flat_map, Forall_forall. intros c Jc. destruct (Qeq_bool _ 0); constructor; [|constructor]. cbn [pstill].
    apply Forall_flat_map, Forall_forall. intros a _. apply Forall_map'. intros t. cbn [snd]. destruct J as [<-|[<-|[]]]; destruct Jc as [<-|[<-|[]]]; now apply nf_op. }
  apply Forall_app. split; [destruct (Qeq_bool _ 0); constructor; [|constructor]; lst; lab|].
  do 4 (apply Forall_app; split; [apply oper_still; [intros l H; exact H|intros ca J; repeat (destruct J as [<-|J]; [split; reflexivity|]); destruct J]|]).
  apply Forall_app; split.
  { unfold ObjectiveModel.standby. apply Forall_flat_map, Forall_forall. intros c J. destruct (ObjectiveModel.nonempty _); constructor; [|constructor]. cbn [pstill]. apply terms_still.
    intros a t. destruct J as [<-|[<-|[]]]; now apply nf_op. }
  apply Forall_app; split.
  { unfold ObjectiveModel.investment. apply Forall_flat_map, Forall_forall. intros [c at_] J. cbn [fst snd]. destruct (ObjectiveModel.nonempty _); constructor; [|constructor]. cbn [pstill].
    apply Forall_map'. intros a. cbn [snd]. unfold ObjectiveModel.nom_label, ObjectiveModel.vname. repeat (destruct J as [J|J]; [injection J as <- <-; lab|]). destruct J. }
  apply Forall_app; split; apply W; cbn; tauto.
Qed.
Lemma cost_turn x : cost n' x = cost n (ag x).
Proof.
  unfold cost, define_objective. rewrite o_net_same. unfold ObjectiveModel.objective. destruct (existsb _ _); [reflexivity|]. destruct (ObjectiveModel.nonempty _); [|reflexivity].
  cbn [option_map]. f_equal. unfold ObjectiveModel.value_of. induction pieces_still as [|p l H G IH]; [reflexivity|]. cbn [fold_right]. rewrite IH. f_equal.
  destruct p as [q|q|]; cbn [ObjectiveModel.piece_value pstill] in *; [now rewrite nf_eval|now rewrite nf_square|reflexivity].
Qed.

(* ---------- domains ---------- *)
Hypothesis C : forall a, In a (assets n) -> In (cls a) classes.
Lemma ag_mod x a : In a (assets n) -> ag x ((cls a ++ "-n_mod")%string, O, nm a) = x ((cls a ++ "-n_mod")%string, O, nm a).
Proof. intros J. specialize (C a J). repeat (destruct C as [<-|C0]; [reflexivity|]; clear C; rename C0 into C). destruct C. Qed.
Lemma ag_loss' x a t : In a (assets n) -> ag x ((cls a ++ "-loss")%string, t, nm a) = x ((cls a ++ "-loss")%string, t, nm a).
Proof. intros J. specialize (C a J). repeat (destruct C as [<-|C0]; [reflexivity|]; clear C; rename C0 into C). destruct C. Qed.
Lemma ag_u x a v t : com a = true -> In v ["status"; "start_up"; "shut_down"] -> val (ag x) (CommitModel.uvar (cls a) (u_view a) v t) = val x (CommitModel.uvar (cls a) (u_view a) v t).
Proof.
  intros E V. assert (H : cls a = "Generator" \/ cls a = "Link").
  { unfold com, has_uc in E. apply andb_true_iff in E. destruct E as [_ E]. apply orb_true_iff in E. destruct E as [E|E]; apply String.eqb_eq in E; auto. }
  unfold CommitModel.uvar. apply nf_if; destruct H as [-> | ->]; repeat (destruct V as [<-|V]; [reflexivity|]); destruct V.
Qed.
Lemma uc_ag x a T : com a = true -> (CommitModel.relaxed (cls a) (u_view a) T (ag x) <-> CommitModel.relaxed (cls a) (u_view a) T x) /\
  (CommitModel.binary (cls a) (u_view a) T (ag x) <-> CommitModel.binary (cls a) (u_view a) T x).
Proof.
  intros E. unfold CommitModel.relaxed, CommitModel.binary, CommitModel.is_relaxed, CommitModel.is_binary, CommitModel.status, CommitModel.start_up, CommitModel.shut_down.
  split; split; intros (A & B & D); (split; [|split]); intros t Ht Ha; [specialize (A t Ht Ha)|specialize (B t Ht Ha)|specialize (D t Ht Ha)|specialize (A t Ht Ha)|specialize (B t Ht Ha)|specialize (D t Ht Ha)|specialize (A t Ht Ha)|specialize (B t Ht Ha)|specialize (D t Ht Ha)|specialize (A t Ht Ha)|specialize (B t Ht Ha)|specialize (D t Ht Ha)];
    rewrite ?(ag_u x a _ t E) in * by (cbn; tauto); assumption.
Qed.
Lemma F_rest a : nm (F a) = nm a /\ ext (F a) = ext a /\ nom_mod (F a) = nom_mod a /\ com (F a) = com a /\ u_view (F a) = u_view a /\ s_view (F a) = s_view a /\
  unit_data n' (F a) = unit_data n a /\ passive (F a) = passive a /\ flag (F a) = flag a.
Proof. unfold turn. destruct (_ && _)%bool; repeat split. Qed.
Lemma domains_turn x : domains n' x <-> domains n (ag x).
Proof.
  unfold domains. change (lossy n') with (lossy n). change (linear n') with (linear n). change (nsnaps n') with (nsnaps n). rewrite o_net_same. cbn [turned assets].
  assert (Q5 : ObjectiveModel.const_fixed (o_net n) (ag x) <-> ObjectiveModel.const_fixed (o_net n) x) by reflexivity. rewrite Q5.
  split; intros (D1 & D2 & D3 & D4 & D5); (split; [|split; [|split; [|split; [|exact D5]]]]).
  - intros a J E M. destruct (F_rest a) as (R1 & R2 & R3 & _). rewrite ag_mod by exact J. specialize (D1 (F a) (in_map _ _ _ J)). rewrite F_cls, R1, R2, R3 in D1. now apply D1.
  - intros a J E. destruct (F_rest a) as (_ & _ & _ & R4 & R5 & _). specialize (D2 (F a) (in_map _ _ _ J)). rewrite F_cls, R4, R5 in D2. specialize (D2 E).
    destruct (uc_ag x a (nsnaps n) E) as [U1 U2]. destruct (linear n); [now apply U1|now apply U2].
  - intros a J E t v T V. destruct (F_rest a) as (_ & _ & _ & _ & _ & R6 & R7 & _). specialize (D3 (F a) (in_map _ _ _ J)). rewrite F_cls, R6, R7 in D3.
    specialize (D3 E t v T V). unfold StorageModel.spill_label, StorageModel.var_of in V. destruct (negb _); [|discriminate]. destruct (StorageModel.s_active _ t); [|discriminate]. injection V as <-. exact D3.
  - intros a t J Pa L T G. destruct (F_rest a) as (R1 & _ & _ & _ & _ & _ & _ & R8 & R9). rewrite ag_loss' by exact J. specialize (D4 (F a) t (in_map _ _ _ J)). rewrite F_cls, R1, R8, R9 in D4. now apply D4.
  - intros a' J E M. apply in_map_iff in J. destruct J as (a & <- & J). destruct (F_rest a) as (R1 & R2 & R3 & _). rewrite F_cls, R1. rewrite R2 in E. rewrite R3 in M.
    specialize (D1 a J E M). now rewrite ag_mod in D1.
  - intros a' J E. apply in_map_iff in J. destruct J as (a & <- & J). destruct (F_rest a) as (_ & _ & _ & R4 & R5 & _). rewrite F_cls, R5. rewrite R4 in E. specialize (D2 a J E).
    destruct (uc_ag x a (nsnaps n) E) as [U1 U2]. destruct (linear n); [now apply U1|now apply U2].
  - intros a' J E t v T V. apply in_map_iff in J. destruct J as (a & <- & J). destruct (F_rest a) as (_ & _ & _ & _ & _ & R6 & R7 & _). rewrite F_cls in E. rewrite R6, R7 in V. rewrite R7.
    specialize (D3 a J E t v T V). unfold StorageModel.spill_label, StorageModel.var_of in V. destruct (negb _); [|discriminate]. destruct (StorageModel.s_active _ t); [|discriminate]. injection V as <-. exact D3.
  - intros a' t J Pa L T G. apply in_map_iff in J. destruct J as (a & <- & J). destruct (F_rest a) as (R1 & _ & _ & _ & _ & _ & _ & R8 & R9). rewrite F_cls, R1. rewrite R8 in Pa. rewrite R9 in G.
    specialize (D4 a t J Pa L T G). now rewrite ag_loss' in D4.
Qed.

Lemma feasible_turn x : feasible kvl n' x <-> feasible kvl n (ag x).
Proof.
  assert (M := model_turn). unfold feasible. split.
  - intros (cs & E & S' & D). rewrite E in M. destruct (create_model kvl n) as [cs0|]; [|contradiction]. exists cs0. split; [reflexivity|].
    split; [now apply M|now apply domains_turn].
  - intros (cs & E & S' & D). rewrite E in M. destruct (create_model kvl n') as [cs0|]; [|contradiction]. exists cs0. split; [reflexivity|].
    split; [now apply M|now apply domains_turn].
Qed.
Lemma ag_ag x v : ag (ag x) v == x v.
Proof. destruct v as [[s t] i]. unfold against. destruct (_ || _)%bool; [ring|reflexivity]. Qed.
Lemma ag_only x s t i : s <> "Line-s" -> s <> "Transformer-s" -> ag x (s, t, i) = x (s, t, i).
Proof. intros A B. apply String.eqb_neq in A, B. unfold against. now rewrite A, B. Qed.
Lemma ag_abs x v : Qabs.Qabs (ag x v) == Qabs.Qabs (x v).
Proof. destruct v as [[s t] i]. unfold against. destruct (_ || _)%bool; [apply Qabs.Qabs_opp|reflexivity]. Qed.
Lemma optimal_turn x : optimal kvl n' x <-> optimal kvl n (ag x).
Proof.
  unfold optimal. rewrite feasible_turn, cost_turn. split; intros (G & q & E & H); (split; [exact G|]; exists q; split; [exact E|]); intros y q' Fy Ey.
  - assert (X : forall v, y v == ag (ag y) v) by (intros v; symmetry; apply ag_ag).
    destruct (cost n (ag (ag y))) as [q2|] eqn:E2.
    + assert (Q : q2 == q').
      { unfold cost in *. destruct (define_objective n) as [ps|]; [|discriminate]. cbn [option_map] in *. injection E2 as <-. injection Ey as <-.
        symmetry. now apply UnitProofs.value_ext. }
      rewrite <- Q. apply (H (ag y)); [|now rewrite cost_turn]. apply feasible_turn. now apply (UnitProofs.feasible_ext kvl n y).
    + exfalso. unfold cost in *. destruct (define_objective n); discriminate.
  - rewrite cost_turn in Ey. apply (H (ag y)); [now apply feasible_turn|exact Ey].
Qed.
Lemma defined_turn : create_model kvl n' = None <-> create_model kvl n = None.
Proof. assert (M := model_turn). destruct (create_model kvl n), (create_model kvl n'); try contradiction; split; congruence. Qed.
End T.
