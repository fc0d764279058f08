From Coq Require Import List String Bool Arith Lia.
From Verif Require Import Assoc KwargsModel.
Import ListNotations.

(* ----- specification vocabulary ----- *)
Section S.
Context {V : Type}.

(* an alias table as written in a decorator: a Python keyword dict has distinct keys, and no
   replacement name is itself deprecated *)
Definition good_table (al : list (string * string)) : Prop :=
  NoDup (map fst al) /\ forall a n, In (a, n) al -> ~ In n (map fst al).

(* the deprecated name a (meaning new) is used together with new, or with another deprecated name
   for the same new *)
Definition conflict (al : list (string * string)) (kw : dict V) : Prop :=
  exists a n, In (a, n) al /\ In a (dkeys kw) /\
    (In n (dkeys kw) \/ exists a', a' <> a /\ In (a', n) al /\ In a' (dkeys kw)).

(* what the wrapped function must see under keyword k *)
Definition seen (al : list (string * string)) (kw : dict V) (k : string) (o : option V) : Prop :=
  (In k (map fst al) -> o = None) /\
  (forall a v, In (a, k) al -> dget kw a = Some v -> o = Some v) /\
  (~ In k (map fst al) -> (forall a, In (a, k) al -> dget kw a = None) -> o = dget kw k).

End S.

Section P.
Context {V : Type}.
Implicit Types (al : list (string * string)) (kw : dict V).

Lemma In_dkeys_dset kw p x q : In q (dkeys (dset kw p x)) <-> q = p \/ In q (dkeys kw).
Proof.
  destruct (in_dec string_dec p (dkeys kw)) as [H|H].
  - rewrite dkeys_dset_in by exact H. split; [tauto|]. intros [->|]; auto.
  - rewrite dkeys_dset_notin by exact H. rewrite in_app_iff. simpl. intuition.
Qed.

Lemma rename_loop_nodup al : forall kw kw', NoDup (dkeys kw) ->
  rename_loop al kw = inl kw' -> NoDup (dkeys kw').
Proof.
  induction al as [|[a n] al IH]; simpl; intros kw kw' ND H.
  - now injection H as <-.
  - destruct (dget kw a) as [v|]; [|eauto]. destruct (dmem kw n); [discriminate|].
    eapply IH; [|exact H]. apply NoDup_dset, NoDup_ddel, ND.
Qed.

Lemma good_tail a n al : good_table ((a, n) :: al) -> good_table al /\ ~ In a (map fst al) /\
  ~ In n (map fst al) /\ n <> a /\ (forall a', ~ In (a', a) al).
Proof.
  intros [ND H]. inversion ND as [|? ? NI ND']; subst. repeat split; auto.
  - intros a' n' Hin Hx. apply (H a' n'); [now right|now right].
  - intros Hx. apply (H a n); [now left|now right].
  - intros ->. apply (H a a); [now left|now left].
  - intros a' Hin. apply (H a' a); [now right|now left].
Qed.

Lemma rename_loop_spec al : forall kw, good_table al ->
  match rename_loop al kw with
  | inl kw' => ~ conflict al kw /\ forall k, seen al kw k (dget kw' k)
  | inr e => (exists a n, e = BothGiven a n) /\ conflict al kw
  end.
Proof.
  induction al as [|[a n] al IH]; intros kw G; simpl.
  - split; [intros (a & n & [] & _)|]. intros k. split; [intros []|]. split; [intros a v []|auto].
  - destruct (good_tail _ _ _ G) as (G' & Ha & Hn & Hna & Hra).
    destruct (dget kw a) as [v|] eqn:Ea.
    + destruct (dmem kw n) eqn:En.
      * split; [eauto|]. exists a, n. split; [now left|]. split; [eapply dget_Some_keys; eauto|].
        left. now apply dmem_In.
      * apply dmem_false in En. specialize (IH (dset (ddel kw a) n v) G').
        set (kw1 := dset (ddel kw a) n v) in *.
        assert (K1 : forall k, In k (dkeys kw1) <-> k = n \/ (In k (dkeys kw) /\ k <> a)).
        { intros k. unfold kw1. rewrite In_dkeys_dset, dkeys_ddel. tauto. }
        assert (D1 : forall k, k <> n -> k <> a -> dget kw1 k = dget kw k).
        { intros k N1 N2. unfold kw1. rewrite dget_dset_neq by congruence.
          now rewrite dget_ddel_neq by congruence. }
        destruct (rename_loop al kw1) as [kw'|e].
        -- destruct IH as (IHc & IHs). split.
           ++ intros (b & m & Hin & Hb & Hm). apply IHc.
              destruct Hin as [X|Hin].
              ** injection X as <- <-. destruct Hm as [Hm|(b' & Nb & Hb' & Kb')].
                 { apply dget_None_keys in En. contradiction. }
                 destruct Hb' as [X|Hb']; [injection X as ->; congruence|].
                 exists b', n. split; [exact Hb'|]. split.
                 { apply K1. right. split; auto. }
                 left. apply K1. now left.
              ** assert (b <> a) by (intros ->; apply Ha; now apply (in_map fst) in Hin).
                 exists b, m. split; [exact Hin|]. split; [apply K1; auto|].
                 destruct Hm as [Hm|(b' & Nb & Hb' & Kb')].
                 { left. apply K1. right. split; [exact Hm|]. intros ->. now apply (Hra b). }
                 destruct Hb' as [X|Hb'].
                 { injection X as <- <-. left. apply K1. now left. }
                 right. exists b'. split; [exact Nb|]. split; [exact Hb'|]. apply K1. right.
                 split; [exact Kb'|]. intros ->. apply Ha. now apply (in_map fst) in Hb'.
           ++ intros k. destruct (IHs k) as (S1 & S2 & S3). split; [|split].
              ** intros [X|X]; [|auto]. simpl in X. subst k.
                 rewrite S3; [|exact Ha|intros a0 X; now apply Hra in X].
                 unfold kw1. rewrite dget_dset_neq by congruence. apply dget_ddel_eq.
              ** intros b w [X|X] Hw.
                 { injection X as <- <-. rewrite Ea in Hw. injection Hw as <-.
                   assert (Hnone : forall a0, In (a0, n) al -> dget kw1 a0 = None).
                   { intros a0 Hin. destruct (dget kw1 a0) as [u|] eqn:Eu; [|reflexivity].
                     exfalso. apply IHc. exists a0, n. split; [exact Hin|].
                     split; [eapply dget_Some_keys; eauto|]. left. apply K1. now left. }
                   rewrite S3; [|exact Hn|exact Hnone]. unfold kw1. apply dget_dset_eq. }
                 apply (S2 b w X). rewrite D1; [exact Hw| |].
                 { intros ->. apply Hn. now apply (in_map fst) in X. }
                 { intros ->. apply Ha. now apply (in_map fst) in X. }
              ** intros Nk Hk. simpl in Nk.
                 assert (k <> a) by (intros ->; apply Nk; now left).
                 assert (k <> n).
                 { intros ->. specialize (Hk a (or_introl eq_refl)). congruence. }
                 rewrite S3; [now apply D1|tauto|].
                 intros a0 X. rewrite D1; [apply Hk; now right| |].
                 { intros ->. apply Hn. now apply (in_map fst) in X. }
                 { intros ->. apply Ha. now apply (in_map fst) in X. }
        -- destruct IH as (He & (b & m & Hin & Hb & Hm)). split; [exact He|].
           assert (Nb : b <> a) by (intros ->; apply Ha; now apply (in_map fst) in Hin).
           assert (Nn : b <> n) by (intros ->; apply Hn; now apply (in_map fst) in Hin).
           apply K1 in Hb. destruct Hb as [?|[Hb _]]; [congruence|].
           destruct Hm as [Hm|(b' & Nb' & Hb' & Kb')].
           ++ apply K1 in Hm. destruct Hm as [->|[Hm _]].
              ** exists b, n. split; [now right|]. split; [exact Hb|]. right. exists a.
                 split; [congruence|]. split; [now left|]. eapply dget_Some_keys; eauto.
              ** exists b, m. split; [now right|]. auto.
           ++ exists b, m. split; [now right|]. split; [exact Hb|]. right. exists b'.
              split; [exact Nb'|]. split; [now right|]. apply K1 in Kb'.
              destruct Kb' as [->|[Kb' _]]; [|exact Kb'].
              exfalso. apply Hn. now apply (in_map fst) in Hb'.
    + specialize (IH kw G'). apply dget_None_keys in Ea as Ea'.
      destruct (rename_loop al kw) as [kw'|e].
      * destruct IH as (IHc & IHs). split.
        -- intros (b & m & Hin & Hb & Hm). apply IHc.
           destruct Hin as [X|Hin]; [injection X as <- <-; contradiction|].
           exists b, m. split; [exact Hin|]. split; [exact Hb|].
           destruct Hm as [Hm|(b' & Nb & Hb' & Kb')]; [now left|].
           destruct Hb' as [X|Hb']; [injection X as <- <-; contradiction|]. right. eauto.
        -- intros k. destruct (IHs k) as (S1 & S2 & S3). split; [|split].
           ++ intros [X|X]; [|auto]. simpl in X. subst k.
              rewrite S3; [exact Ea|exact Ha|intros a0 X; now apply Hra in X].
           ++ intros b w [X|X] Hw; [injection X as <- <-; congruence|eauto].
           ++ intros Nk Hk. apply S3; [simpl in Nk; tauto|]. intros b X. apply Hk. now right.
      * destruct IH as (He & (b & m & Hin & Hb & Hm)). split; [exact He|].
        exists b, m. split; [now right|]. split; [exact Hb|].
        destruct Hm as [Hm|(b' & Nb' & Hb' & Kb')]; [now left|]. right. exists b'.
        split; [exact Nb'|]. split; [now right|exact Kb'].
Qed.

Lemma call_wrapped_spec {R} (f : dict V -> R) al kw :
  good_table al -> NoDup (dkeys kw) ->
  (conflict al kw -> exists a n, call_wrapped false al f kw = inr (BothGiven a n)) /\
  (~ conflict al kw -> exists kw', call_wrapped false al f kw = inl (f kw') /\
      NoDup (dkeys kw') /\ forall k, seen al kw k (dget kw' k)).
Proof.
  intros G ND. unfold call_wrapped, rename_deprecated_kwargs.
  pose proof (rename_loop_spec al kw G) as H.
  destruct (rename_loop al kw) as [kw'|e] eqn:E.
  - destruct H as [H1 H2]. split; [tauto|]. intros _. exists kw'. split; [reflexivity|].
    split; [eapply rename_loop_nodup; eauto|exact H2].
  - destruct H as [(a & n & ->) H2]. split; [eauto|tauto].
Qed.

Lemma rename_loop_no_version al (kw : dict V) : rename_loop al kw <> inr VersionError.
Proof.
  revert kw. induction al as [|[a n] r IH]; intros kw; cbn [rename_loop]; [discriminate|].
  destruct (dget kw a); [|apply IH]. destruct (dmem kw n); [discriminate|apply IH].
Qed.

Lemma call_wrapped_version {R} (f : dict V -> R) al kw t :
  call_wrapped t al f kw = inr VersionError <-> t = true.
Proof.
  unfold call_wrapped, rename_deprecated_kwargs. destruct t; [tauto|].
  split; [|discriminate]. intros H. exfalso. apply (rename_loop_no_version al kw).
  destruct (rename_loop al kw); [discriminate|]. injection H as ->. reflexivity.
Qed.

End P.
