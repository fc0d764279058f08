From Coq Require Import List String Bool QArith Arith Lqa Lia.
From Verif Require Import StatsModel StatsProofs BalanceProofs GroupModel GroupSpec.
Import ListNotations.
Open Scope string_scope.
Open Scope list_scope.

Lemma key_eqb_ok a b : key_eqb a b = true <-> a = b.
Proof. unfold key_eqb. destruct (list_eq_dec string_dec a b); split; intros; auto; try discriminate; contradiction. Qed.
Definition ck_eqb (a b : string * list string) : bool := String.eqb (fst a) (fst b) && key_eqb (snd a) (snd b).
Lemma ck_eqb_ok a b : ck_eqb a b = true <-> a = b.
Proof. unfold ck_eqb. rewrite andb_true_iff, String.eqb_eq, key_eqb_ok. destruct a, b. cbn. split; [intros [-> ->]; auto|intros E; injection E; auto]. Qed.
Lemma in_eqb s l : existsb (String.eqb s) l = true <-> In s l.
Proof. rewrite existsb_exists. split; [intros [x [I E]]; apply String.eqb_eq in E; now subst|intros I; exists s; split; auto; apply String.eqb_refl]. Qed.
Lemma is_text_ok s o : is_text s o = true <-> o = Some s.
Proof. destruct o; cbn; [rewrite String.eqb_eq; split; congruence|split; discriminate]. Qed.

Lemma bind_done {A B} (x : outcome A) (f : A -> outcome B) b : bind x f = Done b <-> exists a, x = Done a /\ f a = Done b.
Proof. destruct x; cbn; split; intros H; try discriminate; [exists a; auto|destruct H as [? [E H]]; congruence|destruct H as [? [E H]]; discriminate|destruct H as [? [E H]]; discriminate]. Qed.
Lemma all_done_iff {A} (l : list (outcome A)) s : all_done l = Done s <-> l = map Done s.
Proof.
  revert s. induction l as [|x l IH]; intros s; cbn [all_done].
  - split; [intros E; injection E as <-; reflexivity|destruct s; [reflexivity|discriminate]].
  - rewrite bind_done. split.
    + intros [a [-> H]]. apply bind_done in H. destruct H as [s' [H E]]. injection E as <-. apply IH in H. now rewrite H.
    + destruct s as [|a s]; [discriminate|]. intros E. injection E as -> E. exists a. split; auto. apply bind_done. exists s. split; auto. now apply IH.
Qed.
Lemma all_done_total {A B} (f : A -> outcome B) l : (forall a, In a l -> exists b, f a = Done b) -> exists s, all_done (map f l) = Done s.
Proof.
  induction l as [|a l IH]; intros H; [exists []; reflexivity|]. destruct (H a (or_introl eq_refl)) as [b E]. destruct IH as [s Es]; [intros; apply H; simpl; auto|].
  exists (b :: s). cbn [map all_done]. now rewrite E, Es.
Qed.
Lemma all_done_each {A B} (f : A -> outcome B) l s : all_done (map f l) = Done s -> Forall2 (fun a b => f a = Done b) l s.
Proof.
  rewrite all_done_iff. revert s. induction l as [|a l IH]; intros [|b s] E; try discriminate; [constructor|]. injection E as E1 E2. constructor; auto.
Qed.

Section N.
Variable n : net.
Variable search : string -> string -> bool.
Notation at_bus := (at_bus n).

Lemma at_bus_iff c port col row v : at_bus col (port_bus c port row) = Some v <-> bus_entry n c port col row v.
Proof.
  unfold at_bus, port_bus, bus_entry. destruct (k_cell c ("bus" ++ port) row) as [b|] eqn:E.
  - destruct (existsb (String.eqb b) (t_rows (n_buses n))) eqn:F.
    + apply in_eqb in F. split; [intros G; exists b; auto|intros [b' [X [_ G]]]; congruence].
    + split; [discriminate|]. intros [b' [X [I _]]]. injection X as <-. apply in_eqb in I. congruence.
  - split; [discriminate|]. intros [b' [X _]]. discriminate.
Qed.

(* selection *)
Lemma matches_iff p ex k (known : string -> Prop) : (forall s, p = One s -> (ex = true <-> known s)) -> matches search p ex k = true <-> wanted search p known k.
Proof.
  intros H. destruct p as [|s|l]; cbn [matches wanted]; [tauto| |apply in_eqb]. specialize (H s eq_refl). destruct ex.
  - rewrite String.eqb_eq. tauto.
  - assert (~ known s) by (intros K; apply H in K; discriminate). tauto.
Qed.
Lemma filter_bus_iff r c port rows row :
  In row (filter_bus_carrier n search c port (g_bus_carrier r) rows) <-> In row rows /\ on_wanted_bus n search r c port row.
Proof.
  unfold filter_bus_carrier, on_wanted_bus. destruct (g_bus_carrier r) as [|s|l] eqn:P; [tauto| |]; rewrite filter_In.
  - assert (M : forall k, matches search (One s) (existsb (fun b => is_text s (t_cell (n_buses n) "carrier" b)) (t_rows (n_buses n))) k = true <->
        wanted search (One s) (fun s => exists b, In b (t_rows (n_buses n)) /\ t_cell (n_buses n) "carrier" b = Some s) k).
    { intros k. apply matches_iff. intros s' E. injection E as <-. rewrite existsb_exists. split; intros [b [I E]]; exists b; (split; [exact I|]); now apply is_text_ok. }
    split; intros [I H]; (split; [exact I|]).
    + right. destruct (at_bus "carrier" (port_bus c port row)) as [k|] eqn:E; [|discriminate]. exists k. apply at_bus_iff in E. split; auto. now apply M.
    + destruct H as [H|[k [E H]]]; [discriminate|]. apply at_bus_iff in E. rewrite E. now apply M.
  - assert (M : forall k, matches search (Many l) true k = true <-> wanted search (Many l) (fun s => exists b, In b (t_rows (n_buses n)) /\ t_cell (n_buses n) "carrier" b = Some s) k).
    { intros k. apply matches_iff. intros s' E. discriminate. }
    split; intros [I H]; (split; [exact I|]).
    + right. destruct (at_bus "carrier" (port_bus c port row)) as [k|] eqn:E; [|discriminate]. exists k. apply at_bus_iff in E. split; auto. now apply M.
    + destruct H as [H|[k [E H]]]; [discriminate|]. apply at_bus_iff in E. rewrite E. now apply M.
Qed.
Lemma candidate_iff r c port row : In row (filter_bus_carrier n search c port (g_bus_carrier r) (filter (k_active c) (k_rows c))) <-> candidate n search r c port row.
Proof. rewrite filter_bus_iff, filter_In. unfold candidate. tauto. Qed.
Lemma has_iff c col : k_has c col = true <-> In col (k_cols c). Proof. apply in_eqb. Qed.

Lemma selection_iff r c port row : In row (selection n search r c port) <-> selected n search r c port row.
Proof.
  unfold selection, selected. set (rows := filter_bus_carrier n search c port (g_bus_carrier r) (filter (k_active c) (k_rows c))).
  assert (C : forall row, In row rows <-> candidate n search r c port row) by (intros; apply candidate_iff).
  unfold filter_carrier. destruct (g_carrier r) as [|s|l] eqn:P; [rewrite C; tauto| |].
  - destruct (k_has c "carrier") eqn:H.
    + apply has_iff in H. rewrite filter_In, C.
      assert (M : forall k, matches search (One s) (existsb (fun row => is_text s (k_cell c "carrier" row)) rows) k = true <->
          wanted search (One s) (fun s => exists row', candidate n search r c port row' /\ k_cell c "carrier" row' = Some s) k).
      { intros k. apply matches_iff. intros s' E. injection E as <-. rewrite existsb_exists. split; intros [b [I E]]; exists b; (split; [now apply C|]); now apply is_text_ok. }
      split; intros [I K]; (split; [exact I|]).
      * right. right. destruct (k_cell c "carrier" row) as [k|]; [|discriminate]. exists k. split; auto. now apply M.
      * destruct K as [K|[K|[k [E K]]]]; [discriminate|contradiction|]. rewrite E. now apply M.
    + assert (~ In "carrier" (k_cols c)) by (rewrite <- has_iff; congruence). rewrite C. tauto.
  - destruct (k_has c "carrier") eqn:H.
    + apply has_iff in H. rewrite filter_In, C.
      assert (M : forall k, matches search (Many l) true k = true <-> wanted search (Many l) (fun s => exists row', candidate n search r c port row' /\ k_cell c "carrier" row' = Some s) k).
      { intros k. apply matches_iff. intros s' E. discriminate. }
      split; intros [I K]; (split; [exact I|]).
      * right. right. destruct (k_cell c "carrier" row) as [k|]; [|discriminate]. exists k. split; auto. now apply M.
      * destruct K as [K|[K|[k [E K]]]]; [discriminate|contradiction|]. rewrite E. now apply M.
    + assert (~ In "carrier" (k_cols c)) by (rewrite <- has_iff; congruence). rewrite C. tauto.
Qed.

(* keys *)
Hypothesis ND : NoDup (map fst (n_nice n)).
Lemma nice_entry s t t' : In (s, t) (n_nice n) -> In (s, t') (n_nice n) -> t = t'.
Proof.
  clear -ND. induction (n_nice n) as [|[a b] l IH]; [intros []|]. cbn [map fst] in ND. inversion ND as [|? ? NI ND']; subst.
  intros [E|I] [E'|I'].
  - congruence.
  - injection E as -> ->. exfalso. apply NI. apply in_map_iff. exists (s, t'). auto.
  - injection E' as -> ->. exfalso. apply NI. apply in_map_iff. exists (s, t). auto.
  - auto.
Qed.
Lemma nice_iff s s' : nice n s = s' <-> shown n true s s'.
Proof.
  unfold nice, shown. destruct (find _ (n_nice n)) as [[a b]|] eqn:F.
  - apply find_some in F. destruct F as [I E]. cbn [fst snd] in *. apply andb_true_iff in E. destruct E as [E1 E2]. apply String.eqb_eq in E1. subst a.
    rewrite negb_true_iff in E2. rewrite E2. apply String.eqb_neq in E2. split.
    + intros <-. auto.
    + intros [N [J|[J _]]]; [eapply nice_entry; eauto|]. specialize (J b I). contradiction.
  - assert (G : forall t, In (s, t) (n_nice n) -> t = "").
    { intros t I. pose proof (find_none _ _ F _ I) as X. cbn [fst snd] in X. rewrite String.eqb_refl in X. cbn [andb] in X. apply negb_false_iff in X. now apply String.eqb_eq in X. }
    destruct (String.eqb_spec s "") as [->|NE].
    + split; [intros <-; split; [discriminate|auto]|]. intros [N [J|[_ [J|[_ J]]]]]; [specialize (G _ J); contradiction|contradiction|auto].
    + split; [intros <-; auto|]. intros [N [J|[_ [J|[J _]]]]]; [specialize (G _ J); contradiction|auto|contradiction].
Qed.
Lemma named_iff b o s' : named n b o = Some s' <-> exists s, o = Some s /\ shown n b s s'.
Proof.
  unfold named. destruct b, o as [s|]; cbn [option_map]; split; intros H.
  - exists s. split; auto. apply nice_iff. congruence.
  - destruct H as [t [E H]]. injection E as <-. apply nice_iff in H. now rewrite H.
  - discriminate.
  - destruct H as [t [E _]]. discriminate.
  - exists s. split; auto. injection H as <-. reflexivity.
  - destruct H as [t [E H]]. injection E as <-. cbn in H. now rewrite H.
  - discriminate.
  - destruct H as [t [E _]]. discriminate.
Qed.

Ltac keyed K := destruct (String.eqb_spec K "carrier") as [->|N1]; [|destruct (String.eqb_spec K "bus_carrier") as [->|N2]; [|destruct (String.eqb_spec K "bus") as [->|N3];
  [|destruct (String.eqb_spec K "country") as [->|N4]; [|destruct (String.eqb_spec K "location") as [->|N5]; [|destruct (String.eqb_spec K "unit") as [->|N6];
  [|destruct (String.eqb_spec K "name") as [->|N7]]]]]]].
Ltac inv H := inversion H; subst; clear H.
Ltac close := try solve [match goal with I : In _ _ |- _ => cbn in I; intuition discriminate end | match goal with I : ~ In _ _ |- _ => cbn in I; exfalso; tauto end].

Lemma grouper_iff c port b key f row s : grouper n c port b key = Done f -> f row = Some s <-> entry_of n c port row b key s.
Proof.
  unfold grouper. keyed key.
  - intros E. injection E as <-. rewrite named_iff. unfold class_carrier. split.
    + intros [t [E H]]. apply (Of_carrier _ _ _ _ _ t); auto. destruct (in_dec _ _ _) as [I|I]; destruct (k_has c "carrier") eqn:K; auto; try congruence.
      * apply has_iff in I. congruence.
      * apply has_iff in K. contradiction.
    + intros H. inv H; close. exists s0. split; auto. destruct (in_dec _ _ _) as [I|I]; destruct (k_has c "carrier") eqn:K; auto; try congruence.
      * apply has_iff in I. congruence.
      * apply has_iff in K. contradiction.
  - intros E. injection E as <-. rewrite named_iff. split.
    + intros [t [E H]]. apply (Of_bus_carrier _ _ _ _ _ t); auto. now apply at_bus_iff.
    + intros H. inv H; close. exists s0. split; auto. now apply at_bus_iff.
  - intros E. injection E as <-. split; [intros H; now apply Of_bus|]. intros H. inv H; close. auto.
  - destruct (t_has _ _); intros E; [|discriminate]. injection E as <-. rewrite at_bus_iff. split; [intros H; apply Of_place; auto; cbn; auto|intros H; inv H; close; auto].
  - destruct (t_has _ _); intros E; [|discriminate]. injection E as <-. rewrite at_bus_iff. split; [intros H; apply Of_place; auto; cbn; auto|intros H; inv H; close; auto].
  - destruct (t_has _ _); intros E; [|discriminate]. injection E as <-. rewrite at_bus_iff. split; [intros H; apply Of_place; auto; cbn; auto|intros H; inv H; close; auto].
  - intros E. injection E as <-. split; [intros H; injection H as <-; apply Of_name|intros H; inv H; close; auto].
  - destruct (k_has c key); intros E; [|discriminate]. injection E as <-. split.
    + intros H. apply Of_column; auto. cbn. intuition.
    + intros H. inv H; try congruence. cbn in *. exfalso. intuition.
Qed.
Lemma grouper_known c port b key : (exists f, grouper n c port b key = Done f) <-> known_key n c key.
Proof.
  unfold grouper, known_key. keyed key; try solve [split; [intros _; left; cbn; auto|intros _; eexists; reflexivity]].
  1-3: destruct (t_has _ _) eqn:T; split; [intros _; right; left; cbn; auto|intros _; eexists; reflexivity|intros [f E]; discriminate|
    intros [I|[[_ I]|[I _]]]; [cbn in I; intuition discriminate|congruence|exfalso; apply I; cbn; auto]].
  destruct (k_has c key) eqn:K.
  - split; [intros _|intros _; eexists; reflexivity]. apply has_iff in K. right. right. split; auto. cbn. intuition.
  - split; [intros [f E]; discriminate|]. intros [I|[[I _]|[_ I]]]; [cbn in I; intuition congruence|cbn in I; intuition congruence|apply has_iff in I; congruence].
Qed.

Lemma complete_iff l k : complete l = Some k <-> l = map Some k.
Proof.
  revert k. induction l as [|o l IH]; intros k; cbn [complete].
  - split; [intros E; injection E as <-; reflexivity|destruct k; [reflexivity|discriminate]].
  - destruct o as [s|]; [|split; [discriminate|destruct k; discriminate]]. destruct (complete l) as [k'|] eqn:E.
    + pose proof (proj1 (IH k') eq_refl) as ->. split.
      * intros F. injection F as <-. reflexivity.
      * destruct k as [|s' k]; [discriminate|]. intros F. injection F as -> F. apply IH in F. congruence.
    + split; [discriminate|]. destruct k as [|s' k]; [discriminate|]. intros F. injection F as -> F. apply IH in F. discriminate.
Qed.
Lemma keys_iff r c port f row k : keys n c port (g_nice r) (g_groupby r) = Done f -> f row = Some k <-> grouped_as n r c port row k.
Proof.
  unfold keys, grouped_as. destruct (g_groupby r) as [ks|].
  - intros E. apply bind_done in E. destruct E as [gs [E F]]. injection F as <-. apply all_done_each in E. rewrite complete_iff.
    revert k. induction E as [|key g ks gs G E IH]; intros k.
    + split; [destruct k; [constructor|discriminate]|intros H; inversion H; reflexivity].
    + cbn [map]. split.
      * destruct k as [|s k]; [discriminate|]. intros X. injection X as X1 X2. constructor; [eapply grouper_iff; eauto|now apply IH].
      * intros H. inversion H as [|? s ? k' H1 H2]; subst. cbn [map]. f_equal; [eapply grouper_iff; eauto|now apply IH].
  - intros E. injection E as <-. split; [intros E; congruence|intros ->; reflexivity].
Qed.
Lemma keys_known r c port : (exists f, keys n c port (g_nice r) (g_groupby r) = Done f) <-> (forall ks key, g_groupby r = Some ks -> In key ks -> known_key n c key).
Proof.
  unfold keys. destruct (g_groupby r) as [ks|].
  - split.
    + intros [f E] ks' key X I. injection X as <-. apply bind_done in E. destruct E as [gs [E _]]. apply all_done_each in E.
      apply (grouper_known c port (g_nice r)). clear f. induction E as [|a g ks gs G E IH]; [destruct I|]. destruct I as [->|I]; eauto.
    + intros H. destruct (all_done_total (grouper n c port (g_nice r)) ks) as [gs E]; [intros a I; apply grouper_known; eauto|]. rewrite E. eexists. reflexivity.
  - split; [intros _ ks key X; discriminate|intros _; eexists; reflexivity].
Qed.

(* values *)
Variable quantity : string -> string -> string -> Q.
Open Scope Q_scope.
Definition keyf (r : args) (c : class) (port : string) : string -> option (list string) :=
  match keys n c port (g_nice r) (g_groupby r) with Done f => f | _ => fun _ => None end.

(* sums over the entries whose keys satisfy P *)
Definition part {K} (P : K -> bool) (l : list (K * Q)) : Q := total (fun e => if P (fst e) then snd e else 0) l.
Lemma part_app {K} (P : K -> bool) l l' : part P (l ++ l') == part P l + part P l'. Proof. apply total_app. Qed.
Lemma part_concat {K} (P : K -> bool) ls : part P (List.concat ls) == total (part P) ls.
Proof. induction ls as [|l ls IH]; [reflexivity|]. cbn [List.concat]. rewrite part_app, IH. reflexivity. Qed.
Lemma part_map {K K'} (P : K' -> bool) (g : K -> K') l : part P (map (fun e => (g (fst e), snd e)) l) = part (fun k => P (g k)) l.
Proof. unfold part. rewrite total_map. reflexivity. Qed.
Lemma part_group {K} eqb (eqb_ok : forall a b : K, eqb a b = true <-> a = b) (P : K -> bool) l : part P (group_sum eqb l) == part P l.
Proof.
  assert (G : forall l ks, NoDup ks -> (forall e, In e l -> In (fst e) ks) -> part P l == total (fun k => if P k then at_key eqb k l else 0) ks).
  { clear l. intros l ks N. induction l as [|e l IH]; intros H.
    - symmetry. apply total_zero. intros k _. destruct (P k); reflexivity.
    - change (part P (e :: l)) with ((if P (fst e) then snd e else 0) + part P l). rewrite IH by (intros; apply H; simpl; auto).
      rewrite (total_ext (fun k => if P k then at_key eqb k (e :: l) else 0) (fun k => (if eqb (fst e) k then (if P k then snd e else 0) else 0) + (if P k then at_key eqb k l else 0))).
      2:{ intros k _. destruct (P k) eqn:PK; [rewrite at_key_cons|destruct (eqb (fst e) k); ring]. destruct (eqb (fst e) k) eqn:E.
          - apply eqb_ok in E. rewrite E. assert (X : eqb k k = true) by (apply eqb_ok; auto). rewrite X. ring.
          - destruct (eqb k (fst e)) eqn:F; [apply eqb_ok in F; subst k; assert (X : eqb (fst e) (fst e) = true) by (apply eqb_ok; auto); congruence|]. ring. }
      rewrite total_plus. pose proof (StatsProofs.pick eqb eqb_ok (fst e) (fun k => if P k then snd e else 0) ks N (or_introl (H e (or_introl eq_refl)))) as X. cbv beta in X. rewrite X. reflexivity. }
  unfold group_sum. unfold part at 1. rewrite total_map. cbn [fst snd]. rewrite (G l (distinct eqb (map fst l))).
  - apply total_ext. intros k _. destruct (P k); [apply sum_filter|reflexivity].
  - apply distinct_NoDup; auto.
  - intros e I. apply distinct_In; auto. now apply in_map.
Qed.

Definition share (P : list string -> bool) (o : option (list string)) (q : Q) : Q := match o with Some k => if P k then q else 0 | None => 0 end.
Definition entry (r : args) (c : class) (P : list string -> bool) : Q :=
  total (fun port => total (fun row => share P (keyf r c port row) (quantity (k_name c) port row)) (selection n search r c port)) (ports r c).

Lemma flat_part (f : string -> option (list string)) (q : string -> Q) P rows :
  part P (flat_map (fun row => match f row with Some k' => [(k', q row)] | None => [] end) rows) == total (fun row => share P (f row) (q row)) rows.
Proof.
  unfold part. rewrite total_flat. apply total_ext. intros row _. destruct (f row) as [k'|]; unfold share; cbn [BalanceSpec.total fold_right fst snd]; [ring|reflexivity].
Qed.
Lemma port_part r c port l P : port_values n search quantity r c port = Done l ->
  part P l == total (fun row => share P (keyf r c port row) (quantity (k_name c) port row)) (selection n search r c port).
Proof.
  unfold port_values. remember (selection n search r c port) as rows. destruct (empty rows) eqn:S.
  - destruct rows; [|discriminate]. intros E. injection E as <-. reflexivity.
  - intros E. apply bind_done in E. destruct E as [f [F E]]. injection E as <-. unfold keyf. rewrite F. destruct (g_groupby r).
    + rewrite (part_group key_eqb key_eqb_ok). apply (flat_part f (quantity (k_name c) port)).
    + apply (flat_part f (quantity (k_name c) port)).
Qed.
Lemma class_part r c l P : class_values n search quantity r c = Done l -> part P l == entry r c P.
Proof.
  unfold class_values. intros E. apply bind_done in E. destruct E as [vs [E F]]. apply all_done_each in E.
  assert (X : part P (List.concat vs) == entry r c P).
  { rewrite part_concat. unfold entry. clear F. induction E as [|p v ps vs H E IH]; [reflexivity|]. cbn [BalanceSpec.total fold_right]. fold (total (part P) vs).
    rewrite IH, (port_part r c p v P H). reflexivity. }
  destruct (unique key_eqb (map fst (List.concat vs))); injection F as <-; [exact X|]. now rewrite (part_group key_eqb key_eqb_ok).
Qed.
Lemma class_nodup r c l : class_values n search quantity r c = Done l -> NoDup (map fst l).
Proof.
  unfold class_values. intros E. apply bind_done in E. destruct E as [vs [_ F]].
  destruct (unique key_eqb (map fst (List.concat vs))) eqn:U; injection F as <-; [now apply (unique_NoDup key_eqb key_eqb_ok)|].
  rewrite group_keys. apply (distinct_NoDup key_eqb key_eqb_ok).
Qed.

Definition whole (r : args) : outcome (list ((string * list string) * Q)) :=
  bind (all_done (map (fun c => bind (class_values n search quantity r c) (fun l => Done (map (fun e => ((k_name c, fst e), snd e)) l)))
    (filter (fun c => negb (empty (k_rows c))) (n_classes n)))) (fun d => Done (List.concat d)).
Lemma aggregate_whole r : aggregate n search quantity r =
  bind (whole r) (fun df => Done (if g_across r then group_sum ck_eqb (map (fun e => (("", snd (fst e)), snd e)) df) else df)).
Proof. unfold aggregate, whole. destruct (all_done _); reflexivity. Qed.

Lemma empty_selection r c port : k_rows c = [] -> selection n search r c port = [].
Proof.
  intros E. destruct (selection n search r c port) as [|row s] eqn:S; auto. exfalso. assert (I : In row (selection n search r c port)) by (rewrite S; simpl; auto).
  apply selection_iff in I. destruct I as [[I _] _]. rewrite E in I. destruct I.
Qed.
Lemma empty_entry r c P : k_rows c = [] -> entry r c P == 0.
Proof. intros E. unfold entry. apply total_zero. intros port _. rewrite empty_selection by auto. reflexivity. Qed.
Lemma whole_part r l P : whole r = Done l -> part P l == total (fun cl => entry r cl (fun k => P (k_name cl, k))) (n_classes n).
Proof.
  unfold whole. intros E. apply bind_done in E. destruct E as [d [E F]]. injection F as <-. apply all_done_each in E.
  assert (T : total (fun cl => entry r cl (fun k => P (k_name cl, k))) (n_classes n) ==
     total (fun cl => entry r cl (fun k => P (k_name cl, k))) (filter (fun c => negb (empty (k_rows c))) (n_classes n))).
  { rewrite total_filter. apply total_ext. intros cl _. destruct (k_rows cl) eqn:R; cbn [empty negb]; [|reflexivity]. now rewrite empty_entry. }
  rewrite T. clear T. induction E as [|cl lc cs d H E IH]; [reflexivity|]. cbn [List.concat]. rewrite part_app, IH. cbn [BalanceSpec.total fold_right].
  apply bind_done in H. destruct H as [l [H F]]. injection F as <-. rewrite (part_map P (fun k => (k_name cl, k))). rewrite (class_part r cl l _ H). reflexivity.
Qed.
Definition label (r : args) (c : class) : string := if g_across r then "" else k_name c.
Lemma master r l P : aggregate n search quantity r = Done l -> part P l == total (fun cl => entry r cl (fun k => P (label r cl, k))) (n_classes n).
Proof.
  rewrite aggregate_whole. intros E. apply bind_done in E. destruct E as [d [E F]]. injection F as <-. unfold label. destruct (g_across r).
  - rewrite (part_group ck_eqb ck_eqb_ok), (part_map P (fun k => ("", snd k))). now rewrite (whole_part r d _ E).
  - now apply whole_part.
Qed.

Lemma whole_nodup r l : NoDup (map k_name (n_classes n)) -> whole r = Done l -> NoDup (map fst l).
Proof.
  intros NC E. unfold whole in E. apply bind_done in E. destruct E as [d [E F]]. injection F as <-. apply all_done_each in E.
  assert (NC' : NoDup (map k_name (filter (fun c => negb (empty (k_rows c))) (n_classes n)))).
  { clear -NC. induction (n_classes n) as [|c l IH]; [constructor|]. cbn [map] in NC. inversion NC as [|? ? A B]; subst. cbn [filter]. destruct (negb _); cbn [map]; auto.
    constructor; auto. intros I. apply A. apply in_map_iff in I. destruct I as [x [<- I]]. apply filter_In in I. apply in_map. tauto. }
  clear NC. revert NC'. induction E as [|cl lc cs d H E IH]; intros NC'; [constructor|]. cbn [map] in NC'. inversion NC' as [|? ? A B]; subst.
  assert (K2 : forall e, In e (List.concat d) -> exists cl, In cl cs /\ fst (fst e) = k_name cl).
  { clear -E. induction E as [|cl lc cs d H E IH]; [intros e []|]. intros e I. cbn [List.concat] in I. apply in_app_or in I. destruct I as [I|I].
    - apply bind_done in H. destruct H as [l [_ F]]. injection F as <-. apply in_map_iff in I. destruct I as [x [<- _]]. exists cl. cbn; auto.
    - destruct (IH e I) as [x [J G]]. exists x. cbn; auto. }
  cbn [List.concat]. rewrite map_app. apply bind_done in H. destruct H as [l [H F]]. injection F as <-.
  assert (G : forall (x y : list (string * list string)), NoDup x -> NoDup y -> (forall a, In a x -> ~ In a y) -> NoDup (x ++ y)).
  { clear. induction x as [|a x IH]; intros y X Y D; [exact Y|]. inversion X; subst. cbn. constructor.
    - intros I. apply in_app_or in I. destruct I as [I|I]; [contradiction|]. apply (D a); cbn; auto.
    - apply IH; auto. intros b I. apply D. cbn. auto. }
  apply G; [|apply IH; auto|].
  - rewrite map_map. cbn [fst]. pose proof (class_nodup r cl l H) as L. clear -L. induction l as [|e l IH]; [constructor|]. cbn [map] in *. inversion L as [|? ? A B]; subst. constructor; auto.
    intros I. apply A. apply in_map_iff in I. destruct I as [x [X I]]. injection X as X. apply in_map_iff. exists x. auto.
  - intros a I J. rewrite map_map in I. apply in_map_iff in I. destruct I as [x [<- _]]. apply in_map_iff in J. destruct J as [e [X J]]. destruct (K2 e J) as [cl' [I' Y]].
    rewrite X in Y. cbn in Y. apply A. rewrite Y. now apply in_map.
Qed.
Lemma aggregate_nodup r l : NoDup (map k_name (n_classes n)) -> aggregate n search quantity r = Done l -> NoDup (map fst l).
Proof.
  intros NC. rewrite aggregate_whole. intros E. apply bind_done in E. destruct E as [d [E F]]. injection F as <-. destruct (g_across r).
  - rewrite group_keys. apply (distinct_NoDup ck_eqb ck_eqb_ok).
  - eapply whole_nodup; eauto.
Qed.

(* the ports *)
Lemma append_inj a b c : (a ++ b = a ++ c)%string -> b = c.
Proof. induction a as [|x a IH]; cbn; intros E; auto. injection E. auto. Qed.
Lemma substring_all s : substring 0 (String.length s) s = s.
Proof. induction s as [|x s IH]; cbn; [reflexivity|now rewrite IH]. Qed.
Lemma bus_prefix col : prefix "bus" col = true -> ("bus" ++ substring 3 (String.length col - 3) col)%string = col.
Proof.
  destruct col as [|a [|b [|c col]]].
  - discriminate.
  - cbn [prefix]. destruct (Ascii.ascii_dec _ a); discriminate.
  - cbn [prefix]. destruct (Ascii.ascii_dec _ a); [|discriminate]. destruct (Ascii.ascii_dec _ b); discriminate.
  - cbn [prefix]. destruct (Ascii.ascii_dec _ a) as [<-|]; [|discriminate]. destruct (Ascii.ascii_dec _ b) as [<-|]; [|discriminate].
    destruct (Ascii.ascii_dec _ c) as [<-|]; [|discriminate]. intros _. cbn [String.length substring Nat.sub append]. now rewrite Nat.sub_0_r, substring_all.
Qed.
Lemma ports_columns r c : map (append "bus") (ports r c) = bus_columns r c.
Proof.
  unfold ports, bus_columns, all_ports. assert (E : map (append "bus") (map (fun col => substring 3 (String.length col - 3) col) (filter (prefix "bus") (k_cols c))) = filter (prefix "bus") (k_cols c)).
  { rewrite map_map. induction (k_cols c) as [|col l IH]; [reflexivity|]. cbn [filter]. destruct (prefix "bus" col) eqn:P; auto. cbn [map]. now rewrite bus_prefix, IH. }
  destruct (g_at_port r); [exact E|]. destruct (filter _ _) as [|p l]; [reflexivity|]. cbn [map] in E. assert (E' : ("bus" ++ substring 3 (String.length p - 3) p)%string = p) by congruence. cbn [map firstn]. now rewrite E'.
Qed.
Lemma ports_unique r c ps : map (append "bus") ps = bus_columns r c -> ps = ports r c.
Proof.
  rewrite <- ports_columns. generalize (ports r c). induction ps as [|p ps IH]; intros [|q qs] E; try discriminate; auto. pose proof (f_equal (hd "") E) as E1. pose proof (f_equal (@tl string) E) as E2. cbn [map hd tl] in E1, E2.
  f_equal; [apply (append_inj "bus"); exact E1|auto].
Qed.

(* defined *)
Lemma defined r : (exists l, aggregate n search quantity r = Done l) <->
  (forall c ks key port, In c (n_classes n) -> g_groupby r = Some ks -> In key ks -> In ("bus" ++ port)%string (bus_columns r c) ->
     (exists row, selected n search r c port row) -> known_key n c key).
Proof.
  assert (P : forall c port, (exists l, port_values n search quantity r c port = Done l) <->
     ((exists row, selected n search r c port row) -> forall ks key, g_groupby r = Some ks -> In key ks -> known_key n c key)).
  { intros c port. rewrite <- keys_known with (port := port). unfold port_values. destruct (selection n search r c port) as [|row rows] eqn:S; cbn [empty].
    - split; [|intros _; eexists; reflexivity]. intros _ [row I]. apply selection_iff in I. rewrite S in I. destruct I.
    - assert (I : exists row, selected n search r c port row) by (exists row; apply selection_iff; rewrite S; simpl; auto).
      split; [intros [l E] _; apply bind_done in E; destruct E as [f [E _]]; eauto|]. intros H. destruct (H I) as [f ->]. eexists. reflexivity. }
  assert (C : forall c, (exists l, class_values n search quantity r c = Done l) <-> (forall port, In port (ports r c) -> exists l, port_values n search quantity r c port = Done l)).
  { intros c. unfold class_values. split.
    - intros [l E] port I. apply bind_done in E. destruct E as [vs [E _]]. apply all_done_each in E. clear l. induction E as [|p v ps vs H E IH]; [destruct I|]. destruct I as [->|I]; eauto.
    - intros H. destruct (all_done_total _ _ H) as [vs E]. rewrite E. eexists. reflexivity. }
  assert (PI : forall c port, In ("bus" ++ port)%string (bus_columns r c) <-> In port (ports r c)).
  { intros c port. rewrite <- ports_columns, in_map_iff. split; [intros [x [E I]]; apply append_inj in E; now subst|intros I; eauto]. }
  assert (W : (exists l, aggregate n search quantity r = Done l) <-> (forall c, In c (n_classes n) -> k_rows c <> [] -> exists l, class_values n search quantity r c = Done l)).
  { unfold aggregate. split.
    - intros [l E] c I R. apply bind_done in E. destruct E as [vs [E _]]. apply all_done_each in E. assert (I' : In c (filter (fun c => negb (empty (k_rows c))) (n_classes n))).
      { apply filter_In. split; auto. destruct (k_rows c); [contradiction|reflexivity]. }
      clear l I R. induction E as [|p v ps vs H E IH]; [destruct I'|]. destruct I' as [->|I']; auto. apply bind_done in H. destruct H as [l [H _]]. eauto.
    - intros H. edestruct (all_done_total (fun c => bind (class_values n search quantity r c) (fun l => Done (map (fun e => ((k_name c, fst e), snd e)) l)))
        (filter (fun c => negb (empty (k_rows c))) (n_classes n))) as [vs E].
      + intros c I. apply filter_In in I. destruct I as [I R]. destruct (H c I) as [l ->]; [destruct (k_rows c); [discriminate|intros X; discriminate]|]. eexists. reflexivity.
      + rewrite E. eexists. reflexivity. }
  rewrite W. split.
  - intros H c ks key port I G J B S. assert (R : k_rows c <> []) by (destruct S as [row [[X _] _]]; intros E; rewrite E in X; destruct X).
    apply (proj1 (P c port)) with (ks := ks); auto. apply (proj1 (C c)); [auto|now apply PI].
  - intros H c I _. apply C. intros port B. apply P. intros S ks key G J. apply PI in B. eauto.
Qed.

(* values of keys *)
Lemma keyf_iff r l c port row k : aggregate n search quantity r = Done l -> In c (n_classes n) -> In port (ports r c) -> In row (selection n search r c port) ->
  keyf r c port row = Some k <-> grouped_as n r c port row k.
Proof.
  intros E I J S. unfold keyf. assert (K : exists f, keys n c port (g_nice r) (g_groupby r) = Done f).
  { apply keys_known. intros ks key G X. assert (D : exists l, aggregate n search quantity r = Done l) by eauto. apply (proj1 (defined r) D c ks key port I G X).
    - rewrite <- ports_columns. now apply in_map.
    - exists row. now apply selection_iff. }
  destruct K as [f F]. rewrite F. now apply keys_iff.
Qed.
Lemma selection_filter r c port : exists f, selection n search r c port = filter f (k_rows c).
Proof.
  assert (FF : forall (f g : string -> bool) l, filter f (filter g l) = filter (fun x => g x && f x) l).
  { intros f g l. induction l as [|x l IH]; [reflexivity|]. cbn [filter]. destruct (g x) eqn:G; cbn [filter andb]; [destruct (f x)|]; rewrite IH; auto. }
  unfold selection. set (rows := filter_bus_carrier n search c port (g_bus_carrier r) (filter (k_active c) (k_rows c))).
  assert (R : exists f, rows = filter f (k_rows c)).
  { subst rows. unfold filter_bus_carrier. destruct (g_bus_carrier r); [eexists; reflexivity| |]; eexists; apply FF. }
  destruct R as [f ->]. unfold filter_carrier. destruct (g_carrier r); [eexists; reflexivity| |]; (destruct (k_has c "carrier"); [eexists; apply FF|eexists; reflexivity]).
Qed.
Lemma entry_rows r l c (P : list string -> bool) (sel : string -> string -> bool) ps :
  aggregate n search quantity r = Done l -> In c (n_classes n) -> map (append "bus") ps = bus_columns r c ->
  (forall port row, sel port row = true <-> selected n search r c port row /\ exists k, grouped_as n r c port row k /\ P k = true) ->
  entry r c P == total (fun port => total (fun row => if sel port row then quantity (k_name c) port row else 0) (k_rows c)) ps.
Proof.
  intros E I B H. apply ports_unique in B. subst ps. unfold entry. apply total_ext. intros port J.
  destruct (selection_filter r c port) as [f F]. rewrite F, total_filter. apply total_ext. intros row R.
  destruct (f row) eqn:X.
  - assert (S : In row (selection n search r c port)) by (rewrite F; apply filter_In; auto). pose proof (fun k => keyf_iff r l c port row k E I J S) as K. apply selection_iff in S.
    unfold share. destruct (keyf r c port row) as [k|] eqn:KF.
    + assert (G : grouped_as n r c port row k) by now apply K. destruct (P k) eqn:PK.
      * assert (Y : sel port row = true) by (apply H; eauto). rewrite Y. reflexivity.
      * destruct (sel port row) eqn:Y; [|reflexivity]. apply H in Y. destruct Y as [_ [k' [G' PK']]]. apply K in G'. congruence.
    + destruct (sel port row) eqn:Y; [|reflexivity]. apply H in Y. destruct Y as [_ [k' [G' PK']]]. apply K in G'. discriminate.
  - destruct (sel port row) eqn:Y; [|reflexivity]. apply H in Y. destruct Y as [S _]. apply selection_iff in S. rewrite F in S. apply filter_In in S. destruct S; congruence.
Qed.

Definition is_key (c : string) (k : list string) (e : string * list string) : bool := ck_eqb (c, k) e.
Lemma reported_part c k l : reported c k l == part (is_key c k) l.
Proof.
  unfold reported, part, is_key, ck_eqb, key_eqb. apply total_ext. intros e _. cbn [fst snd]. destruct (string_dec c (fst (fst e))) as [->|N].
  - rewrite String.eqb_refl. cbn [andb]. destruct (list_eq_dec string_dec k (snd (fst e))); reflexivity.
  - apply String.eqb_neq in N. rewrite N. reflexivity.
Qed.
Lemma entry_ext r c P P' : (forall k, P k = P' k) -> entry r c P == entry r c P'.
Proof. intros H. unfold entry. apply total_ext. intros port _. apply total_ext. intros row _. unfold share. destruct (keyf r c port row); [rewrite H|]; reflexivity. Qed.
Lemma entry_none r c P : (forall k, P k = false) -> entry r c P == 0.
Proof. intros H. unfold entry. apply total_zero. intros port _. apply total_zero. intros row _. unfold share. destruct (keyf r c port row); [rewrite H|]; reflexivity. Qed.
Lemma is_key_label c k c' k' : is_key c k (c', k') = String.eqb c c' && key_eqb k k'.
Proof. reflexivity. Qed.
Lemma only_class (f : class -> Q) c : NoDup (map k_name (n_classes n)) -> In c (n_classes n) ->
  total (fun cl => if String.eqb (k_name c) (k_name cl) then f cl else 0) (n_classes n) == f c.
Proof.
  induction (n_classes n) as [|a l IH]; intros N I; [destruct I|]. cbn [map] in N. inversion N as [|? ? A B]; subst. cbn [BalanceSpec.total fold_right].
  fold (total (fun cl => if String.eqb (k_name c) (k_name cl) then f cl else 0) l). destruct I as [->|I].
  - rewrite String.eqb_refl. rewrite total_zero; [ring|]. intros cl J. destruct (String.eqb_spec (k_name c) (k_name cl)) as [E|]; [|reflexivity]. exfalso. apply A. rewrite E. now apply in_map.
  - destruct (String.eqb_spec (k_name c) (k_name a)) as [E|_]; [exfalso; apply A; rewrite <- E; now apply in_map|]. rewrite IH by auto. ring.
Qed.

(* C78 *)
Lemma value r l c k sel ps : NoDup (map k_name (n_classes n)) -> aggregate n search quantity r = Done l -> g_across r = false -> In c (n_classes n) ->
  map (append "bus") ps = bus_columns r c -> (forall port row, sel port row = true <-> selected n search r c port row /\ grouped_as n r c port row k) ->
  reported (k_name c) k l == total (fun port => total (fun row => if sel port row then quantity (k_name c) port row else 0) (k_rows c)) ps.
Proof.
  intros NC E A I B H. rewrite reported_part, (master r l _ E).
  rewrite (total_ext _ (fun cl => if String.eqb (k_name c) (k_name cl) then entry r cl (key_eqb k) else 0)).
  - rewrite (only_class (fun cl => entry r cl (key_eqb k)) c NC I). apply (entry_rows r l c _ sel ps E I B). intros port row. rewrite H.
    split; intros [S G]; (split; [exact S|]); [exists k; split; auto; now apply key_eqb_ok|]. destruct G as [k' [G X]]. apply key_eqb_ok in X. now subst.
  - intros cl _. unfold label. rewrite A. destruct (String.eqb (k_name c) (k_name cl)) eqn:X; [apply entry_ext|apply entry_none]; intros k'; rewrite is_key_label, X; reflexivity.
Qed.
Lemma value_across r l k sel ps : aggregate n search quantity r = Done l -> g_across r = true ->
  (forall c, In c (n_classes n) -> map (append "bus") (ps (k_name c)) = bus_columns r c) ->
  (forall c port row, In c (n_classes n) -> sel (k_name c) port row = true <-> selected n search r c port row /\ grouped_as n r c port row k) ->
  reported "" k l == total (fun c => total (fun port => total (fun row => if sel (k_name c) port row then quantity (k_name c) port row else 0) (k_rows c)) (ps (k_name c))) (n_classes n).
Proof.
  intros E A B H. rewrite reported_part, (master r l _ E). apply total_ext. intros c I. unfold label. rewrite A.
  rewrite (entry_rows r l c _ (sel (k_name c)) (ps (k_name c)) E I (B c I)); [reflexivity|].
  intros port row. rewrite H by auto. split; intros [S G]; (split; [exact S|]); [exists k; split; auto; rewrite is_key_label; cbn [andb]; now apply key_eqb_ok|].
  destruct G as [k' [G X]]. rewrite is_key_label in X. cbn [andb] in X. apply key_eqb_ok in X. now subst.
Qed.
Lemma sum_all r l sel ps : aggregate n search quantity r = Done l ->
  (forall c, In c (n_classes n) -> map (append "bus") (ps (k_name c)) = bus_columns r c) ->
  (forall c port row, In c (n_classes n) -> sel (k_name c) port row = true <-> selected n search r c port row /\ exists k, grouped_as n r c port row k) ->
  total snd l == total (fun c => total (fun port => total (fun row => if sel (k_name c) port row then quantity (k_name c) port row else 0) (k_rows c)) (ps (k_name c))) (n_classes n).
Proof.
  intros E B H. assert (X : total snd l == part (fun _ => true) l) by (apply total_ext; intros; reflexivity). rewrite X, (master r l _ E). apply total_ext. intros c I.
  rewrite (entry_rows r l c _ (sel (k_name c)) (ps (k_name c)) E I (B c I)); [reflexivity|].
  intros port row. rewrite H by auto. split; intros [S [k G]]; (split; [exact S|]); exists k; tauto.
Qed.

(* two requests with the same selection whose keys correspond *)
Lemma compare r r' l l' P P' : aggregate n search quantity r = Done l -> aggregate n search quantity r' = Done l' ->
  (forall c, In c (n_classes n) -> ports r c = ports r' c) ->
  (forall c port row, In c (n_classes n) -> In port (ports r c) -> In row (k_rows c) ->
     (selected n search r c port row /\ exists k, grouped_as n r c port row k /\ P (label r c, k) = true) <->
     (selected n search r' c port row /\ exists k, grouped_as n r' c port row k /\ P' (label r' c, k) = true)) ->
  part P l == part P' l'.
Proof.
  intros E E' PS H. rewrite (master r l _ E), (master r' l' _ E'). apply total_ext. intros c I. unfold entry. rewrite <- (PS c I). apply total_ext. intros port J.
  destruct (selection_filter r c port) as [f F]. destruct (selection_filter r' c port) as [f' F']. rewrite F, F', !total_filter. apply total_ext. intros row R.
  specialize (H c port row I J R).
  assert (G : forall r l f P, aggregate n search quantity r = Done l -> In port (ports r c) -> selection n search r c port = filter f (k_rows c) ->
     ((selected n search r c port row /\ exists k, grouped_as n r c port row k /\ P (label r c, k) = true) /\
        (if f row then share (fun k => P (label r c, k)) (keyf r c port row) (quantity (k_name c) port row) else 0) = quantity (k_name c) port row) \/
     (~ (selected n search r c port row /\ exists k, grouped_as n r c port row k /\ P (label r c, k) = true) /\
        (if f row then share (fun k => P (label r c, k)) (keyf r c port row) (quantity (k_name c) port row) else 0) = 0)).
  { clear -I R ND. intros r l f P E J F. destruct (f row) eqn:X.
    - assert (S : In row (selection n search r c port)) by (rewrite F; apply filter_In; auto). pose proof (fun k => keyf_iff r l c port row k E I J S) as K. apply selection_iff in S.
      unfold share. destruct (keyf r c port row) as [k|] eqn:KF; [destruct (P (label r c, k)) eqn:PK|].
      + left. split; auto. split; auto. exists k. split; auto. now apply K.
      + right. split; auto. intros [_ [k' [G' PK']]]. apply K in G'. congruence.
      + right. split; auto. intros [_ [k' [G' PK']]]. apply K in G'. congruence.
    - right. split; auto. intros [S _]. apply selection_iff in S. rewrite F in S. apply filter_In in S. destruct S; congruence. }
  assert (J' : In port (ports r' c)) by (rewrite <- PS; auto).
  destruct (G r l f P E J F) as [[A1 A2]|[A1 A2]]; destruct (G r' l' f' P' E' J' F') as [[B1 B2]|[B1 B2]]; rewrite A2, B2; try reflexivity; exfalso; tauto.
Qed.

Lemma Forall2_snoc {A B} (R : A -> B -> Prop) l l' a b : Forall2 R (l ++ [a]) (l' ++ [b]) <-> Forall2 R l l' /\ R a b.
Proof.
  split.
  - intros H. apply Forall2_app_inv_l in H. destruct H as [x [y [H1 [H2 E]]]]. inversion H2 as [|? b' ? z R1 R2]; subst. inversion R2; subst. apply app_inj_tail in E. destruct E as [-> ->]. auto.
  - intros [H1 H2]. apply Forall2_app; auto.
Qed.
Lemma Forall2_snoc_inv {A B} (R : A -> B -> Prop) l a k : Forall2 R (l ++ [a]) k -> exists k' b, k = k' ++ [b] /\ Forall2 R l k' /\ R a b.
Proof. intros H. apply Forall2_app_inv_l in H. destruct H as [x [y [H1 [H2 E]]]]. inversion H2 as [|? b' ? z R1 R2]; subst. inversion R2; subst. eauto. Qed.

Lemma refines r ks key l l' c k : aggregate n search quantity (with_groupby ks r) = Done l -> aggregate n search quantity (with_groupby (ks ++ [key]) r) = Done l' ->
  (forall cl port row, In cl (n_classes n) -> selected n search r cl port row -> exists s, entry_of n cl port row (g_nice r) key s) ->
  reported c k l == total (fun e => if string_dec c (fst (fst e)) then if list_eq_dec string_dec k (removelast (snd (fst e))) then snd e else 0 else 0) l'.
Proof.
  intros E E' H. rewrite reported_part.
  assert (X : total (fun e => if string_dec c (fst (fst e)) then if list_eq_dec string_dec k (removelast (snd (fst e))) then snd e else 0 else 0) l' ==
    part (fun e => is_key c k (fst e, removelast (snd e))) l').
  { unfold part. apply total_ext. intros e _. rewrite is_key_label. unfold key_eqb. destruct (string_dec c (fst (fst e))) as [->|N].
    - rewrite String.eqb_refl. cbn [andb]. destruct (list_eq_dec _ _ _); reflexivity.
    - apply String.eqb_neq in N. rewrite N. reflexivity. }
  rewrite X. apply (compare _ _ _ _ _ _ E E'); [reflexivity|]. intros cl port row I J R.
  change (selected n search (with_groupby ks r) cl port row) with (selected n search r cl port row).
  change (selected n search (with_groupby (ks ++ [key]) r) cl port row) with (selected n search r cl port row).
  change (label (with_groupby (ks ++ [key]) r) cl) with (label (with_groupby ks r) cl). unfold grouped_as. cbn [g_groupby g_nice with_groupby].
  split; intros [S G]; (split; [exact S|]).
  - destruct G as [k0 [G Y]]. destruct (H cl port row I S) as [s K]. exists (k0 ++ [s]). split; [now apply Forall2_snoc|]. cbn [fst snd]. now rewrite removelast_last.
  - destruct G as [k0 [G Y]]. apply Forall2_snoc_inv in G. destruct G as [k' [b [-> [G1 G2]]]]. cbn [fst snd] in Y. rewrite removelast_last in Y. eauto.
Qed.

Lemma parts_sum c k (ss : list string) (l : list ((string * list string) * Q)) : NoDup ss ->
  total (fun s => reported c (k ++ [s]) l) ss == part (fun e => existsb (fun s => is_key c (k ++ [s]) e) ss) l.
Proof.
  intros N. rewrite (total_ext _ (fun s => part (is_key c (k ++ [s])) l)) by (intros; apply reported_part). unfold part. rewrite total_swap. apply total_ext. intros e _.
  induction ss as [|s ss IH]; [reflexivity|]. inversion N as [|? ? A B]; subst. cbn [BalanceSpec.total fold_right existsb].
  fold (total (fun b => if is_key c (k ++ [b]) (fst e) then snd e else 0) ss). rewrite IH by auto.
  destruct (is_key c (k ++ [s]) (fst e)) eqn:K; cbn [orb]; [|ring]. destruct (existsb _ ss) eqn:X; [|ring]. exfalso. apply existsb_exists in X. destruct X as [s' [I K']].
  apply ck_eqb_ok in K. apply ck_eqb_ok in K'. rewrite <- K in K'. injection K' as K'. apply app_inj_tail in K'. destruct K' as [_ ->]. contradiction.
Qed.

Lemma by_bus_carrier r ks p ss l l' c k : names (fun s => exists b, In b (t_rows (n_buses n)) /\ t_cell (n_buses n) "carrier" b = Some s) p ss ->
  g_nice r = false -> (forall s, g_carrier r <> One s) ->
  aggregate n search quantity (with_groupby ks (with_bus_carrier p r)) = Done l ->
  aggregate n search quantity (with_groupby (ks ++ ["bus_carrier"]) (with_bus_carrier All r)) = Done l' ->
  reported c k l == total (fun s => reported c (k ++ [s]) l') ss.
Proof.
  intros NS NI NO E E'. assert (N : NoDup ss) by (destruct NS as [[_ N]|[s [_ [-> _]]]]; auto; constructor; [intros []|constructor]).
  rewrite parts_sum by auto. rewrite reported_part. apply (compare _ _ _ _ _ _ E E'); [reflexivity|]. intros cl port row I J R.
  assert (B : on_wanted_bus n search (with_groupby ks (with_bus_carrier p r)) cl port row <-> exists s, In s ss /\ bus_entry n cl port "carrier" row s).
  { unfold on_wanted_bus. cbn [g_bus_carrier with_groupby with_bus_carrier]. destruct NS as [[-> _]|[s [-> [-> K]]]].
    - split; [intros [X|[s [A B]]]; [discriminate|exists s; auto]|intros [s [A B]]; right; exists s; auto].
    - split.
      + intros [X|[s' [A [[_ ->]|[X _]]]]]; [discriminate|exists s; split; [left|]; auto|contradiction].
      + intros [s' [[<-|[]] A]]. right. exists s. split; auto. left. auto. }
  assert (C : forall q k', (g_carrier r = All \/ ~ In "carrier" (k_cols cl) \/ exists k, k_cell cl "carrier" row = Some k /\ wanted search (g_carrier r) q k) <->
     (g_carrier r = All \/ ~ In "carrier" (k_cols cl) \/ exists k, k_cell cl "carrier" row = Some k /\ wanted search (g_carrier r) k' k)).
  { intros q k'. destruct (g_carrier r) as [|s|sl] eqn:G; [tauto|exfalso; eapply NO; eauto|tauto]. }
  unfold selected, candidate. rewrite B. cbn [g_carrier with_groupby with_bus_carrier].
  rewrite (C (fun s => exists row', candidate n search (with_groupby ks (with_bus_carrier p r)) cl port row' /\ k_cell cl "carrier" row' = Some s)
    (fun s => exists row', candidate n search (with_groupby (ks ++ ["bus_carrier"]) (with_bus_carrier All r)) cl port row' /\ k_cell cl "carrier" row' = Some s)). clear C.
  unfold grouped_as. cbn [g_groupby g_nice with_groupby with_bus_carrier]. rewrite NI.
  change (label (with_groupby (ks ++ ["bus_carrier"]) (with_bus_carrier All r)) cl) with (label (with_groupby ks (with_bus_carrier p r)) cl).
  split.
  - intros [[[I1 [I2 [s [Is Bs]]]] Q] [k0 [G K]]]. split; [split; [split; [exact I1|split; [exact I2|left; reflexivity]]|exact Q]|]. exists (k0 ++ [s]). split.
    + apply Forall2_snoc. split; auto. eapply Of_bus_carrier; eauto. reflexivity.
    + apply existsb_exists. exists s. split; auto. apply ck_eqb_ok in K. apply ck_eqb_ok. injection K as -> ->. reflexivity.
  - intros [[[I1 [I2 _]] Q] [k0 [G K]]]. apply existsb_exists in K. destruct K as [s [Is K]]. apply ck_eqb_ok in K. injection K as -> <-. apply Forall2_snoc in G. destruct G as [G GS].
    split; [split; [split; [exact I1|split; [exact I2|exists s; split; auto]]|exact Q]|].
    + inversion GS as [|s1 ? Bs Sh| | |? ? X|? ? X]; subst; [|cbn in X; intuition discriminate|exfalso; cbn in X; tauto]. cbn in Sh. now subst.
    + exists k. split; auto. now apply ck_eqb_ok.
Qed.

Lemma class_by_name c c' : NoDup (map k_name (n_classes n)) -> In c (n_classes n) -> In c' (n_classes n) -> k_name c = k_name c' -> c = c'.
Proof.
  clear. induction (n_classes n) as [|a l IH]; intros N I I' E; [destruct I|]. cbn [map] in N; inversion N as [|? ? A B]; subst. destruct I as [->|I]; destruct I' as [->|I']; auto.
  - exfalso. apply A. rewrite E. now apply in_map.
  - exfalso. apply A. rewrite <- E. now apply in_map.
Qed.
Lemma by_carrier r ks p ss l l' c k : NoDup (map k_name (n_classes n)) -> In c (n_classes n) -> In "carrier" (k_cols c) ->
  (forall port, In ("bus" ++ port)%string (bus_columns r c) -> names (fun s => exists row, candidate n search r c port row /\ k_cell c "carrier" row = Some s) p ss) ->
  g_nice r = false -> g_across r = false ->
  aggregate n search quantity (with_groupby ks (with_carrier p r)) = Done l ->
  aggregate n search quantity (with_groupby (ks ++ ["carrier"]) (with_carrier All r)) = Done l' ->
  reported (k_name c) k l == total (fun s => reported (k_name c) (k ++ [s]) l') ss.
Proof.
  intros NC IC HC NS NI AC E E'. destruct (ports r c) as [|p0 pr] eqn:PS.
  - assert (Z : forall r' l0 k0, ports r' c = [] -> g_across r' = false -> aggregate n search quantity r' = Done l0 -> reported (k_name c) k0 l0 == 0).
    { intros r' l0 k0 P0 A0 E0. rewrite reported_part, (master r' l0 _ E0). apply total_zero. intros cl I. unfold label. rewrite A0.
      destruct (String.eqb (k_name c) (k_name cl)) eqn:X; [|apply entry_none; intros; now rewrite is_key_label, X]. apply String.eqb_eq in X.
      rewrite <- (class_by_name c cl NC IC I X). unfold entry. rewrite P0. reflexivity. }
    rewrite (Z (with_groupby ks (with_carrier p r)) _ k PS AC E). symmetry. apply total_zero. intros s _. apply (Z (with_groupby (ks ++ ["carrier"]) (with_carrier All r)) _ (k ++ [s]) PS AC E').
  - assert (NP : forall port, In port (ports r c) -> names (fun s => exists row, candidate n search r c port row /\ k_cell c "carrier" row = Some s) p ss).
    { intros port I. apply NS. rewrite <- ports_columns. now apply in_map. }
    assert (N : NoDup ss). { destruct (NP p0) as [[_ N]|[s [_ [-> _]]]]; auto; [rewrite PS; simpl; auto|constructor; [intros []|constructor]]. }
    rewrite parts_sum by auto. rewrite reported_part. apply (compare _ _ _ _ _ _ E E'); [reflexivity|]. intros cl port row I J R.
    change (label (with_groupby (ks ++ ["carrier"]) (with_carrier All r)) cl) with (label r cl). change (label (with_groupby ks (with_carrier p r)) cl) with (label r cl).
    unfold label. rewrite AC. destruct (string_dec (k_name c) (k_name cl)) as [EQ|NE].
    2:{ split; [intros [_ [k0 [_ K]]]; apply ck_eqb_ok in K; congruence|]. intros [_ [k0 [_ K]]]. apply existsb_exists in K. destruct K as [s [_ K]]. apply ck_eqb_ok in K. congruence. }
    assert (cl = c) by (symmetry; apply class_by_name; auto). subst cl. clear EQ I. specialize (NP port J).
    unfold selected. change (candidate n search (with_groupby ks (with_carrier p r)) c port) with (candidate n search r c port).
    change (candidate n search (with_groupby (ks ++ ["carrier"]) (with_carrier All r)) c port) with (candidate n search r c port). cbn [g_carrier with_groupby with_carrier].
    assert (B : (p = All \/ ~ In "carrier" (k_cols c) \/ (exists k, k_cell c "carrier" row = Some k /\
        wanted search p (fun s => exists row', candidate n search r c port row' /\ k_cell c "carrier" row' = Some s) k)) <-> exists s, In s ss /\ k_cell c "carrier" row = Some s).
    { destruct NP as [[-> _]|[s [-> [-> K]]]].
      - split; [intros [X|[X|[s [A B]]]]; [discriminate|contradiction|exists s; auto]|intros [s [A B]]; right; right; exists s; auto].
      - split.
        + intros [X|[X|[s' [A [[_ ->]|[X _]]]]]]; [discriminate|contradiction|exists s; split; [left|]; auto|contradiction].
        + intros [s' [[<-|[]] A]]. right. right. exists s. split; auto. left. auto. }
    rewrite B. unfold grouped_as. cbn [g_groupby g_nice with_groupby with_carrier]. rewrite NI. split.
    + intros [[Cd [s [Is Bs]]] [k0 [G K]]]. split; [split; [exact Cd|left; reflexivity]|]. exists (k0 ++ [s]). split.
      * apply Forall2_snoc. split; auto. eapply (Of_carrier n c port row false s s); [|reflexivity]. destruct (in_dec _ _ _); [exact Bs|contradiction].
      * apply existsb_exists. exists s. split; auto. apply ck_eqb_ok in K. apply ck_eqb_ok. injection K as ->. reflexivity.
    + intros [[Cd _] [k0 [G K]]]. apply existsb_exists in K. destruct K as [s [Is K]]. apply ck_eqb_ok in K. injection K as <-. apply Forall2_snoc in G. destruct G as [G GS].
      split; [split; [exact Cd|exists s; split; auto]|].
      * inversion GS as [s1 ? Bs Sh| | | |? ? X|? ? X]; subst; [|cbn in X; intuition discriminate|exfalso; cbn in X; tauto]. cbn in Sh. subst. destruct (in_dec _ _ _); [exact Bs|contradiction].
      * exists k. split; auto. now apply ck_eqb_ok.
Qed.

Lemma entry_nice c port row key s' : entry_of n c port row true key s' <->
  exists s, entry_of n c port row false key s /\ if in_dec string_dec key ["carrier"; "bus_carrier"] then shown n true s s' else s' = s.
Proof.
  split.
  - intros H. inversion H; subst.
    + exists s. split; [eapply (Of_carrier n c port row false s s); auto; reflexivity|]. cbn. auto.
    + exists s. split; [eapply (Of_bus_carrier n c port row false s s); auto; reflexivity|]. cbn. auto.
    + exists s'. split; [now apply Of_bus|]. reflexivity.
    + eexists. split; [apply Of_name|]. reflexivity.
    + exists s'. split; [now apply Of_place|]. destruct (in_dec _ _ _) as [I|]; auto. cbn in *. intuition (subst; discriminate).
    + exists s'. split; [now apply Of_column|]. destruct (in_dec _ _ _) as [I|]; auto. cbn in *. tauto.
  - intros [s [H K]]. inversion H; subst.
    + match goal with X : shown n false _ _ |- _ => cbn in X; subst end. destruct (in_dec string_dec "carrier" [_; _]) as [_|X]; [eapply Of_carrier; eauto|exfalso; cbn in X; tauto].
    + match goal with X : shown n false _ _ |- _ => cbn in X; subst end. destruct (in_dec _ _ _) as [_|X]; [eapply Of_bus_carrier; eauto|exfalso; cbn in X; tauto].
    + destruct (in_dec _ _ _) as [I|]; [cbn in I; intuition discriminate|]. subst. now apply Of_bus.
    + destruct (in_dec _ _ _) as [I|]; [cbn in I; intuition discriminate|]. subst. apply Of_name.
    + destruct (in_dec _ _ _) as [I|]; [cbn in *; intuition (subst; discriminate)|]. subst. now apply Of_place.
    + destruct (in_dec _ _ _) as [I|]; [cbn in *; tauto|]. subst. now apply Of_column.
Qed.
Lemma group_nice c port row ks k' : Forall2 (entry_of n c port row true) ks k' <-> exists k, Forall2 (entry_of n c port row false) ks k /\ renamed n ks k k'.
Proof.
  split.
  - induction 1 as [|key s' ks k' H F IH]; [exists []; split; constructor|]. destruct IH as [k [F' R]]. apply entry_nice in H. destruct H as [s [H K]]. exists (s :: k). split; constructor; auto.
  - intros [k [F R]]. induction R as [|key s s' ks k k' K R IH]; [constructor|]. inversion F; subst. constructor; auto. apply entry_nice. exists s. auto.
Qed.
Lemma nicely r ks l l' c k sh : aggregate n search quantity (with_groupby ks (with_nice true r)) = Done l -> aggregate n search quantity (with_groupby ks (with_nice false r)) = Done l' ->
  (forall k0, sh k0 = true <-> renamed n ks k0 k) ->
  reported c k l == total (fun e => if string_dec c (fst (fst e)) then if sh (snd (fst e)) : bool then snd e else 0 else 0) l'.
Proof.
  intros E E' H. rewrite reported_part.
  assert (X : total (fun e => if string_dec c (fst (fst e)) then if sh (snd (fst e)) then snd e else 0 else 0) l' == part (fun e => String.eqb c (fst e) && sh (snd e)) l').
  { unfold part. apply total_ext. intros e _. destruct (string_dec c (fst (fst e))) as [->|N].
    - rewrite String.eqb_refl. reflexivity.
    - apply String.eqb_neq in N. rewrite N. reflexivity. }
  rewrite X. apply (compare _ _ _ _ _ _ E E'); [reflexivity|]. intros cl port row I J R.
  change (selected n search (with_groupby ks (with_nice true r)) cl port row) with (selected n search r cl port row).
  change (selected n search (with_groupby ks (with_nice false r)) cl port row) with (selected n search r cl port row).
  change (label (with_groupby ks (with_nice true r)) cl) with (label r cl). change (label (with_groupby ks (with_nice false r)) cl) with (label r cl).
  unfold grouped_as. cbn [g_groupby g_nice with_groupby with_nice fst snd].
  split; intros [S [k0 [G K]]]; (split; [exact S|]).
  - rewrite is_key_label in K. apply andb_true_iff in K. destruct K as [K1 K2]. apply key_eqb_ok in K2. subst k0. apply group_nice in G. destruct G as [k0 [G R0]]. exists k0. split; auto.
    rewrite K1. cbn [andb]. now apply H.
  - apply andb_true_iff in K. destruct K as [K1 K2]. apply H in K2. exists k. split; [apply group_nice; eauto|]. rewrite is_key_label, K1. cbn [andb]. now apply key_eqb_ok.
Qed.
End N.
