From Coq Require Import List String Bool QArith ZArith Arith Lqa Lia Setoid.
From Verif Require Import LinModel LinProofs BalanceProofs ObjectiveModel ObjectiveSpec ObjectiveProofs OpexModel OpexSpec OpexProofs MgaModel MgaSpec.
Import ListNotations.
Open Scope string_scope.
Open Scope list_scope.
Open Scope Q_scope.

Lemma eval_cat x l r : eval x (l ++ r) == eval x l + eval x r.
Proof. rewrite !eval_tot. apply total_app. Qed.
Lemma linear_value x ps l : linear ps = Some l -> eval x l == value_of x ps.
Proof.
  revert l. induction ps as [|p ps IH]; intros l E; [inversion E; reflexivity|]. cbn [linear] in E. destruct p as [k|k|]; try discriminate E.
  destruct (linear ps) as [r|]; [|discriminate E]. inversion E; subst. rewrite eval_cat, (IH r eq_refl). reflexivity.
Qed.
Lemma installed_value n : known n -> fixed_cost n == total (fun a => if a_flag a then a_nom a * a_capital a else 0) (assets n).
Proof.
  intros K. unfold fixed_cost, installed_capex. rewrite sum_total, total_flat.
  rewrite (total_ext _ (fun ca => total (fun a => if a_flag a then a_nom a * a_capital a else 0) (cls n (fst ca)))).
  - rewrite (rows_total n (fun ca a => if a_flag a then a_nom a * a_capital a else 0) fst). apply total_ext. intros a I.
    specialize (K a I). unfold is in K. cbn [existsb] in K. rewrite orb_false_r in K. cbn [BalanceSpec.total fold_right nominal fst snd].
    repeat match type of K with context [String.eqb (a_class a) ?c] => destruct (String.eqb_spec (a_class a) c) as [E|_]; [rewrite ?E; cbn [String.eqb Ascii.eqb Bool.eqb andb negb orb]|] end;
      [| | | | | |discriminate K]; rewrite ?Qplus_0_l, ?Qplus_0_r; reflexivity.
  - intros ca _. rewrite total_map, total_filter. reflexivity.
Qed.
Lemma cost_value n x ps : single n -> const_fixed n x -> proper n a_start -> proper n a_shut -> objective n = Some ps ->
  value_of x ps + fixed_cost n == system_cost n x.
Proof.
  intros S C P1 P2 O. destruct S as [M [K A]]. rewrite (single_horizon n x ps) by auto. rewrite installed_value by auto. unfold system_cost.
  assert (E : total (fun a => if a_flag a then a_capital a * capacity x a else 0) (assets n) ==
    total (fun a => if a_flag a then a_capital a * (capacity x a - a_nom a) else 0) (assets n) + total (fun a => if a_flag a then a_nom a * a_capital a else 0) (assets n)).
  { rewrite <- total_plus. apply total_ext. intros a _. destruct (a_flag a); ring. }
  rewrite E. ring.
Qed.
Lemma stats_value n ws x : single n -> alike n ws -> no_links n -> optimal_cost n ws x == system_cost n x.
Proof.
  intros S A NL. unfold optimal_cost. rewrite (opex_operating n ws x) by auto. rewrite capex_value by apply S. unfold system_cost, operating, switching_cost.
  assert (E : total (fun a => if a_flag a then capacity x a * a_capital a else 0) (assets n) == total (fun a => if a_flag a then a_capital a * capacity x a else 0) (assets n)).
  { apply total_ext. intros a _. destruct (a_flag a); ring. }
  rewrite E, Qplus_assoc. apply Qplus_comp; [|reflexivity]. apply Qplus_comp; [reflexivity|]. apply total_ext. intros t _. unfold weighting. destruct S as [-> _]. reflexivity.
Qed.
Lemma budget_near n ws x0 slack c x : single n -> alike n ws -> no_links n -> const_fixed n x -> proper n a_start -> proper n a_shut ->
  budget n ws x0 slack = Some c -> (holds x c <-> near n x0 slack x).
Proof.
  intros S A NL C P1 P2 B. unfold budget in B. destruct (objective n) as [ps|] eqn:O; [|discriminate B].
  destruct (linear ps) as [l|] eqn:L; [|discriminate B]. cbn [option_map] in B. inversion B; subst c. unfold holds, near. cbn [sns lhs rhs].
  rewrite (linear_value x ps l L), (stats_value n ws x0), <- (cost_value n x ps) by auto. split; intros H; lra.
Qed.
Lemma optimum_near n x0 slack : 0 <= slack -> 0 <= system_cost n x0 -> near n x0 slack x0.
Proof. intros H K. unfold near. assert (0 <= slack * system_cost n x0) by (apply Qmult_le_0_compat; auto). lra. Qed.
Lemma repeated n x0 x1 x2 slack : 0 <= 1 + slack -> near n x0 slack x1 -> near n x1 slack x2 -> system_cost n x2 <= (1 + slack) * (1 + slack) * system_cost n x0.
Proof.
  unfold near. intros H A B. apply (Qle_trans _ ((1 + slack) * system_cost n x1)); [exact B|]. rewrite <- Qmult_assoc.
  rewrite !(Qmult_comm (1 + slack) (_ : Q)). apply Qmult_le_compat_r; auto. rewrite Qmult_comm. exact A.
Qed.

Section W.
Variables (n : net) (x : sol).
Notation ts := (seq 0 (nsnaps n)).
Lemma row_eqbP a b : row_eqb a b = true <-> a = b.
Proof.
  unfold row_eqb. destruct a as [a1 a2], b as [b1 b2]. cbn [fst snd]. rewrite andb_true_iff, !String.eqb_eq. split; [intros [-> ->]; reflexivity|intros E; inversion E; auto].
Qed.
Lemma in_rows r rows : existsb (row_eqb r) rows = true <-> In r rows.
Proof.
  rewrite existsb_exists. split; [intros [b [I E]]; apply row_eqbP in E; subst; auto|intros I; exists r; split; auto; now apply row_eqbP].
Qed.
Lemma nom_value c attr a : In (c, attr) nominal -> a_class a = c -> a_ext a = true -> val x (nom_label c attr a) = capacity x a.
Proof.
  intros I E X. unfold capacity, nom_label, is. rewrite X, E. cbn [existsb val]. rewrite !orb_false_r.
  cbn [nominal In] in I. repeat (destruct I as [I|I]; [inversion I; subst; reflexivity|]). destruct I.
Qed.
Lemma capacity_wish w g : In (for_class w, for_attr w) nominal -> (forall a, g a == weight_of w 0 (a_name a)) -> forall s,
  eval x (map (fun a => (g a * s, nom_label (for_class w) (for_attr w) a)) (ext n (for_class w))) == s * figure n x w.
Proof.
  intros I G s. rewrite eval_tot, total_map. unfold ext, figure. rewrite total_filter. unfold cls. rewrite total_filter, <- total_scale. apply total_ext. intros a _.
  cbn [fst snd]. destruct (String.eqb_spec (a_class a) (for_class w)) as [E|_]; [|ring].
  assert (CW : is_capacity w = true).
  { unfold is_capacity. cbn [nominal In] in I. repeat (destruct I as [I|I]; [inversion I; reflexivity|]). destruct I. }
  rewrite CW. destruct (a_ext a) eqn:X; [|ring]. rewrite (nom_value _ _ a I E X), G. ring.
Qed.
Lemma op_wish w g : In (for_class w, for_attr w) operational -> (forall a t, g a t == weight_of w t (a_name a)) -> forall s,
  eval x (flat_map (fun a => map (fun t => (g a t * s, op_label (for_class w) (for_attr w) a t)) ts) (cls n (for_class w))) == s * figure n x w.
Proof.
  intros I G s. rewrite eval_tot, total_flat. unfold figure, cls. rewrite total_filter, <- total_scale. apply total_ext. intros a _.
  destruct (String.eqb_spec (a_class a) (for_class w)) as [E|_]; [|ring].
  assert (CW : is_capacity w = false).
  { unfold is_capacity. cbn [operational In] in I. repeat (destruct I as [I|I]; [inversion I; reflexivity|]). destruct I. }
  rewrite CW, total_map. unfold days. rewrite <- total_scale. apply total_ext. intros t _. cbn [fst snd]. rewrite G.
  assert (V : val x (op_label (for_class w) (for_attr w) a t) ==
    if String.eqb (for_attr w) "spill" && negb (positive (a_inflow a t)) then 0 else at_ x a (for_class w ++ "-" ++ for_attr w) t).
  { unfold op_label, at_, is_spill, vname. cbn zeta. cbn [operational In] in I.
    repeat (destruct I as [I|I]; [inversion I; cbn [String.append String.eqb Ascii.eqb Bool.eqb andb]; rewrite ?andb_true_r; destruct (a_on a t), (positive (a_inflow a t)); reflexivity|]). destruct I. }
  rewrite V. ring.
Qed.
Lemma wish_value s w l : wish_terms n s w = Some l -> eval x l == inject_Z s * figure n x w.
Proof.
  unfold wish_terms. destruct (existsb (row_eqb (for_class w, for_attr w)) nominal) eqn:N.
  - apply in_rows in N. destruct (nonempty (ext n (for_class w))); [|discriminate]. destruct (with_coeffs w) as [q|f|f] eqn:W; intros E; inversion E; subst l.
    + apply (capacity_wish w (fun _ => q)); auto. intros a. unfold weight_of. rewrite W. reflexivity.
    + apply (capacity_wish w (fun a => given (f (a_name a)))); auto. intros a. unfold weight_of. rewrite W. destruct (f (a_name a)); reflexivity.
  - destruct (existsb (row_eqb (for_class w, for_attr w)) operational) eqn:P; [|discriminate]. apply in_rows in P. cbn [andb].
    destruct (exists_array n (for_class w) (for_attr w)); [|discriminate]. destruct (with_coeffs w) as [q|f|f] eqn:W; intros E; inversion E; subst l.
    + apply (op_wish w (fun _ _ => q)); auto. intros a t. unfold weight_of. rewrite W. reflexivity.
    + apply (op_wish w (fun a t => given (f t (a_name a)))); auto. intros a t. unfold weight_of. rewrite W. destruct (f t (a_name a)); reflexivity.
Qed.
Lemma alternative_value s l o : alternative n s l = Some o -> eval x o == inject_Z s * figures n x l.
Proof.
  revert o. induction l as [|w l IH]; intros o E; cbn [alternative] in E.
  - inversion E. unfold figures. cbn [BalanceSpec.total fold_right eval]. ring.
  - destruct (wish_terms n s w) as [a|] eqn:A; [|discriminate E]. destruct (alternative n s l) as [b|]; [|discriminate E]. inversion E; subst.
    rewrite eval_cat, (wish_value s w a A), (IH b eq_refl). change (figures n x (w :: l)) with (figure n x w + figures n x l). ring.
Qed.
End W.

Lemma mga_parts n ws solved x0 weights sense slack c o : optimize_mga n ws solved x0 weights sense slack = Some (c, o) ->
  exists s, solved = true /\ budget n ws x0 slack = Some c /\ parse sense = Some s /\ alternative n s (match weights with Some l => l | None => default_wishes end) = Some o.
Proof.
  unfold optimize_mga. destruct solved; [|discriminate]. destruct (budget n ws x0 slack) as [b|]; [|discriminate]. destruct (parse sense) as [s|]; [|discriminate].
  destruct (alternative n s _) as [r|] eqn:A; [|discriminate]. destruct r as [|e r]; [discriminate|]. intros E. inversion E; subst. exists s. auto.
Qed.
Lemma parse_two sense s : parse sense = Some s -> s = 1%Z \/ s = (-1)%Z.
Proof.
  destruct sense as [w|z|]; cbn [parse]; [destruct (prefix "min" w), (prefix "max" w)|destruct (0 <? z)%Z, (z <? 0)%Z|]; intros E; inversion E; auto.
Qed.
Lemma mga_best n ws solved x0 weights sense slack c o (P : sol -> Prop) y :
  single n -> alike n ws -> no_links n -> proper n a_start -> proper n a_shut -> (forall x, P x -> const_fixed n x) ->
  optimize_mga n ws solved x0 weights sense slack = Some (c, o) ->
  least (fun x => P x /\ holds x c) (fun x => eval x o) y ->
  let l := match weights with Some l => l | None => default_wishes end in
  (parse sense = Some 1%Z -> least (fun x => P x /\ near n x0 slack x) (fun x => figures n x l) y) /\
  (parse sense = Some (-1)%Z -> greatest (fun x => P x /\ near n x0 slack x) (fun x => figures n x l) y).
Proof.
  intros S A NL P1 P2 C E [[Py Hy] L] l. destruct (mga_parts _ _ _ _ _ _ _ _ _ E) as [s [_ [B [PS AL]]]]. fold l in AL.
  assert (N : forall x, P x -> (holds x c <-> near n x0 slack x)) by (intros x Px; eapply budget_near; eauto).
  assert (V : forall x, eval x o == inject_Z s * figures n x l) by (intros x; eapply alternative_value; eauto).
  split; intros PE; rewrite PE in PS; inversion PS; subst s; (split; [split; [auto|now apply N]|]); intros x [Px Nx]; specialize (L x (conj Px (proj2 (N x Px) Nx))); rewrite !V in L;
    [change (inject_Z 1) with 1 in L|change (inject_Z (-1)) with (-(1)) in L]; lra.
Qed.
Lemma default_figure n x : figures n x default_wishes == installed_generation n x.
Proof.
  unfold figures, default_wishes, installed_generation. cbn [BalanceSpec.total fold_right]. rewrite Qplus_0_r. unfold figure. apply total_ext. intros a _. cbn [for_class].
  destruct (String.eqb (a_class a) "Generator"); [|reflexivity]. cbn [andb is_capacity for_attr existsb String.eqb Ascii.eqb Bool.eqb orb weight_of with_coeffs or_zero].
  change (BalanceSpec.total) with (@total). destruct (a_ext a); [ring|reflexivity].
Qed.

(* when it fails *)
Lemma linear_none ps : linear ps = None <-> exists p, In p ps /\ forall l, p <> Linear l.
Proof.
  induction ps as [|p ps IH]; cbn [linear]; [split; [discriminate|intros [p [[] _]]]|]. destruct p as [k|k|].
  - destruct (linear ps) as [r|] eqn:L; cbn [option_map].
    + split; [discriminate|]. intros [p [[<-|I] N]]; [exfalso; now apply (N k)|]. assert (X : Some r = None) by (apply IH; eauto). discriminate X.
    + split; [|auto]. intros _. destruct (proj1 IH eq_refl) as [p [I N]]. exists p. split; [now right|auto].
  - split; [|auto]. intros _. exists (Square k). split; [now left|discriminate].
  - split; [|auto]. intros _. exists Missing. split; [now left|discriminate].
Qed.
Lemma sense_words w : parse (Word ("min" ++ w)) = Some 1%Z /\ parse (Word ("max" ++ w)) = Some (-1)%Z.
Proof. split; destruct w; reflexivity. Qed.
Lemma sense_ints z : parse (Int z) = if Z.eqb z 0 then None else Some (Z.sgn z).
Proof. destruct z; reflexivity. Qed.

(* a generator that can be built and one that exists *)
Definition two : net := of_assets [with_cap 0 10 (with_marginal 1 (plain "Generator" "g")); with_marginal 5 (plain "Generator" "h")] None.
Definition plan (cap p q : Q) : sol := fun v => let '(w, _, nm) := v in if String.eqb w "Generator-p_nom" then cap else if String.eqb nm "g" then p else q.
Lemma two_ok : single two /\ alike two (weigh 1 1 1) /\ no_links two /\ proper two a_start /\ proper two a_shut /\ forall x, const_fixed two x.
Proof.
  split; [split; [reflexivity|]; split; [intros a [<-|[<-|[]]]; reflexivity|intros a t [<-|[<-|[]]]; reflexivity]|].
  split; [intros t; repeat split; reflexivity|]. split; [intros a [<-|[<-|[]]]; discriminate|]. split; [intros a [<-|[<-|[]]]; discriminate|].
  split; [intros a [<-|[<-|[]]]; discriminate|]. intros x H. discriminate H.
Qed.
Lemma two_case : exists c o, optimize_mga two (weigh 1 1 1) true (plan 0 0 4) None (Word "min") (1 # 20) = Some (c, o) /\
  system_cost two (plan 0 0 4) == 40 /\ rhs c == 42 /\ holds (plan 0 0 4) c /\ holds (plan 0 1 4) c /\ ~ holds (plan 1 1 4) c /\ eval (plan 3 1 4) o == 3.
Proof. eexists. eexists. split; [reflexivity|]. repeat split; try reflexivity; vm_compute; intuition discriminate. Qed.

Lemma links_excluded : exists n ws x slack c o, single n /\ alike n ws /\ proper n a_start /\ proper n a_shut /\ const_fixed n x /\ 0 < slack /\ 0 < system_cost n x /\
  optimize_mga n ws true x (Some [{| for_class := "Link"; for_attr := "p"; with_coeffs := Scalar 1 |}]) (Word "min") slack = Some (c, o) /\ ~ holds x c.
Proof.
  exists (of_assets [with_marginal 5 (plain "Link" "k")] None), (weigh 1 1 1), (fun _ => 10), (1 # 20). eexists. eexists.
  split; [split; [reflexivity|]; split; [intros a [<-|[]]; reflexivity|intros a t [<-|[]]; reflexivity]|].
  split; [intros t; repeat split; reflexivity|]. split; [intros a [<-|[]]; discriminate|]. split; [intros a [<-|[]]; discriminate|]. split; [intros H; discriminate H|].
  split; [reflexivity|]. split; [reflexivity|]. split; [reflexivity|]. vm_compute. intuition discriminate.
Qed.
Lemma negative_excluded : exists n ws x slack c o, single n /\ alike n ws /\ no_links n /\ proper n a_start /\ proper n a_shut /\ const_fixed n x /\ 0 < slack /\
  optimize_mga n ws true x (Some [{| for_class := "Generator"; for_attr := "p"; with_coeffs := Scalar 1 |}]) (Word "min") slack = Some (c, o) /\ ~ holds x c.
Proof.
  exists (of_assets [with_marginal (-5) (plain "Generator" "k")] None), (weigh 1 1 1), (fun _ => 10), (1 # 20). eexists. eexists.
  split; [split; [reflexivity|]; split; [intros a [<-|[]]; reflexivity|intros a t [<-|[]]; reflexivity]|].
  split; [intros t; repeat split; reflexivity|]. split; [intros a [<-|[]]; discriminate|]. split; [intros a [<-|[]]; discriminate|]. split; [intros a [<-|[]]; discriminate|]. split; [intros H; discriminate H|].
  split; [reflexivity|]. split; [reflexivity|]. vm_compute. intuition discriminate.
Qed.
Lemma compounds : exists n ws x0 x1 x2 slack c1 o1 c2 o2, single n /\ alike n ws /\ no_links n /\ proper n a_start /\ proper n a_shut /\
  optimize_mga n ws true x0 None (Word "min") slack = Some (c1, o1) /\ holds x1 c1 /\ optimize_mga n ws true x1 None (Word "min") slack = Some (c2, o2) /\ holds x2 c2 /\
  ~ near n x0 slack x2.
Proof.
  exists two, (weigh 1 1 1), (plan 0 0 4), (plan 0 1 4), (plan 0 2 4), (1 # 20). destruct two_ok as [A1 [A2 [A3 [A4 [A5 _]]]]]. do 4 eexists.
  split; [exact A1|]. split; [exact A2|]. split; [exact A3|]. split; [exact A4|]. split; [exact A5|]. split; [reflexivity|]. split; [vm_compute; discriminate|].
  split; [reflexivity|]. split; [vm_compute; discriminate|]. unfold near. vm_compute. intuition discriminate.
Qed.
Lemma series_raises n s w f : In (for_class w, for_attr w) operational -> with_coeffs w = Series f -> wish_terms n s w = None.
Proof.
  intros I E. unfold wish_terms. rewrite E. destruct (existsb (row_eqb (for_class w, for_attr w)) nominal) eqn:N.
  - exfalso. apply in_rows in N. cbn [operational In] in I. repeat (destruct I as [I|I]; [rewrite <- I in N; cbn [nominal In] in N; intuition discriminate|]). destruct I.
  - destruct (_ && _); reflexivity.
Qed.
Definition with_square (q : Q) (a : asset) : asset := {| a_class := a_class a; a_name := a_name a; a_flag := a_flag a; a_in := a_in a; a_on := a_on a; a_ext := a_ext a; a_com := a_com a;
  a_nom := a_nom a; a_capital := a_capital a; a_marginal := a_marginal a; a_storage := a_storage a; a_spill := a_spill a; a_quadratic := fun _ => q; a_standby := a_standby a;
  a_start := a_start a; a_shut := a_shut a; a_inflow := a_inflow a |}.
Lemma quadratic_raises : exists n ws, single n /\ alike n ws /\ (exists ps, objective n = Some ps) /\ forall x0 weights sense slack, optimize_mga n ws true x0 weights sense slack = None.
Proof.
  exists (of_assets [with_square 1 (plain "Generator" "k")] None), (weigh 1 1 1).
  split; [split; [reflexivity|]; split; [intros a [<-|[]]; reflexivity|intros a t [<-|[]]; reflexivity]|].
  split; [intros t; repeat split; reflexivity|]. split; [eexists; reflexivity|]. reflexivity.
Qed.
Lemma weightings_excluded : exists n ws x slack c o, single n /\ no_links n /\ proper n a_start /\ proper n a_shut /\ const_fixed n x /\ 0 < slack /\ 0 < system_cost n x /\
  (forall t, w_objective ws t == w_snap n t) /\
  optimize_mga n ws true x None (Word "min") slack = Some (c, o) /\ ~ holds x c.
Proof.
  exists two, (weigh (1 # 2) 1 1), (plan 0 0 4), (1 # 20). destruct two_ok as [A1 [A2 [A3 [A4 [A5 A6]]]]]. do 2 eexists.
  split; [exact A1|]. split; [exact A3|]. split; [exact A4|]. split; [exact A5|]. split; [apply A6|]. split; [reflexivity|]. split; [reflexivity|]. split; [reflexivity|].
  split; [reflexivity|]. vm_compute. intuition discriminate.
Qed.

Lemma nonempty_in {A} (l : list A) a : In a l -> nonempty l = true.
Proof. destruct l; [intros []|reflexivity]. Qed.
Lemma in_cls n c a : In a (assets n) -> a_class a = c -> In a (cls n c).
Proof. intros I E. apply filter_In. split; [auto|]. now apply String.eqb_eq. Qed.
Lemma granted_terms n s w : granted n w -> exists l, wish_terms n s w = Some l.
Proof.
  unfold wish_terms. intros [[N [F [a [I [C X]]]]]|[P [F [a [I [C X]]]]]].
  - apply in_rows in N. rewrite N, (nonempty_in _ a) by (apply filter_In; split; [now apply in_cls|auto]).
    destruct (with_coeffs w) as [q|f|f]; [eauto|eauto|]. exfalso. now apply (F f).
  - assert (NN : existsb (row_eqb (for_class w, for_attr w)) nominal = false).
    { destruct (existsb (row_eqb (for_class w, for_attr w)) nominal) eqn:N; [|reflexivity]. exfalso. apply in_rows in N. cbn [operational In] in P.
      repeat (destruct P as [P|P]; [rewrite <- P in N; cbn [nominal In] in N; intuition discriminate|]). destruct P. }
    assert (EA : exists_array n (for_class w) (for_attr w) = true).
    { unfold exists_array. destruct (is_spill _) eqn:SP; [|now apply (nonempty_in _ a), in_cls].
      apply existsb_exists. exists a. split; [now apply in_cls|]. apply existsb_exists.
      assert (SA : for_attr w = "spill").
      { cbn [operational In] in P. repeat (destruct P as [P|P]; [inversion P as [[P1 P2]]; rewrite <- P1, <- P2 in SP; (discriminate SP || reflexivity)|]). destruct P. }
      destruct (X SA) as [t [T Q0]]. exists t. split; [apply in_seq; lia|]. unfold positive. destruct (Qle_bool (a_inflow a t) 0) eqn:L; [|reflexivity].
      apply Qle_bool_iff in L. lra. }
    apply in_rows in P. rewrite NN, P, EA. cbn [andb]. destruct (with_coeffs w) as [q|f|f]; [eauto| |eauto]. exfalso. now apply (F f).
Qed.
Lemma granted_all n s l : (forall w, In w l -> granted n w) -> exists o, alternative n s l = Some o.
Proof.
  induction l as [|w l IH]; intros G; [eexists; reflexivity|]. cbn [alternative]. destruct (granted_terms n s w (G w (or_introl eq_refl))) as [a ->].
  destruct IH as [b ->]; [intros v I; apply G; now right|]. eauto.
Qed.
Lemma terms_some n s w l : (0 < nsnaps n)%nat -> granted n w -> wish_terms n s w = Some l -> l <> [].
Proof.
  unfold wish_terms. intros T G. destruct (existsb (row_eqb (for_class w, for_attr w)) nominal).
  - destruct (ext n (for_class w)) as [|a e]; cbn [nonempty]; [discriminate|]. destruct (with_coeffs w); intros E; inversion E; discriminate.
  - destruct (_ && _) eqn:X; [|discriminate]. assert (C : cls n (for_class w) <> []).
    { destruct G as [[_ [_ [a [I [C _]]]]]|[_ [_ [a [I [C _]]]]]]; intros Z; pose proof (in_cls n _ a I C) as J; rewrite Z in J; destruct J. }
    destruct (cls n (for_class w)) as [|a e]; [now elim C|]. destruct (nsnaps n) as [|m]; [lia|]. destruct (with_coeffs w); intros E; inversion E; discriminate.
Qed.
Lemma no_squares_linear n ps : no_squares n -> objective n = Some ps -> exists l, linear ps = Some l.
Proof.
  intros NS O. destruct (linear ps) as [l|] eqn:L; [eauto|]. exfalso. apply linear_none in L. destruct L as [p [I N]].
  unfold objective in O. destruct (existsb is_missing (pieces n)) eqn:M; [discriminate O|]. destruct (nonempty (pieces n)); [|discriminate O]. inversion O; subst ps. clear O.
  destruct p as [k|k|]; [now apply (N k)| |].
  - clear N M. unfold pieces in I. rewrite !in_app_iff in I.
    assert (NO : forall f rows, ~ In (Square k) (operation n Linear f rows)).
    { intros f rows J. apply in_flat_map in J. destruct J as [ca [_ J]]. cbn zeta in J. destruct (nonempty (filter (charged n f) (cls n (fst ca)))); [|destruct J]. destruct J as [J|[]]. destruct (exists_array _ _ _); discriminate J. }
    destruct I as [I|[I|[I|[I|[I|[I|[I|[I|I]]]]]]]]; try (eapply NO; eassumption).
    + destruct (Qeq_bool _ _); [destruct I|]. destruct I as [I|[]]. discriminate I.
    + unfold operation in I. apply in_flat_map in I. destruct I as [ca [_ I]].
      assert (Z : filter (charged n a_quadratic) (cls n (fst ca)) = []).
      { destruct (filter _ _) as [|a r] eqn:F; [reflexivity|]. exfalso. assert (J : In a (filter (charged n a_quadratic) (cls n (fst ca)))) by (rewrite F; now left).
        apply filter_In in J. destruct J as [J C]. unfold charged in C. apply existsb_exists in C. destruct C as [t [_ C]]. apply negb_true_iff in C.
        apply Qeq_bool_neq in C. apply C. apply NS. apply filter_In in J. tauto. }
      rewrite Z in I. destruct I.
    + unfold standby in I. apply in_flat_map in I. destruct I as [c [_ I]]. match type of I with In _ (if ?b then _ else _) => destruct b end; [|destruct I]. destruct I as [I|[]]. discriminate I.
    + unfold investment in I. apply in_flat_map in I. destruct I as [c [_ I]]. match type of I with In _ (if ?b then _ else _) => destruct b end; [|destruct I]. destruct I as [I|[]]. discriminate I.
    + unfold switching in I. apply in_flat_map in I. destruct I as [c [_ I]]. destruct (Qeq_bool _ _); [destruct I|]. destruct I as [I|[]]. discriminate I.
    + unfold switching in I. apply in_flat_map in I. destruct I as [c [_ I]]. destruct (Qeq_bool _ _); [destruct I|]. destruct I as [I|[]]. discriminate I.
  - rewrite <- not_true_iff_false in M. apply M. apply existsb_exists. exists Missing. auto.
Qed.
Lemma mga_defined n ws x0 weights sense slack ps s :
  no_squares n -> objective n = Some ps -> (0 < nsnaps n)%nat -> parse sense = Some s ->
  let l := match weights with Some l => l | None => default_wishes end in
  l <> [] -> (forall w, In w l -> granted n w) -> exists c o, optimize_mga n ws true x0 weights sense slack = Some (c, o).
Proof.
  intros NS O T PS l NE G. unfold optimize_mga, budget. rewrite O, PS. destruct (no_squares_linear n ps NS O) as [k ->]. cbn [option_map]. fold l.
  destruct (granted_all n s l G) as [o A]. rewrite A. destruct o as [|e o]; [|eauto]. exfalso. destruct l as [|w r]; [now elim NE|]. cbn [alternative] in A.
  destruct (wish_terms n s w) as [a|] eqn:W; [|discriminate A]. destruct (alternative n s r); [|discriminate A]. inversion A as [A']. apply app_eq_nil in A'. destruct A' as [A1 _].
  eapply (terms_some n s w a T); eauto. apply G. now left.
Qed.
Lemma unsolved n ws x0 weights sense slack : optimize_mga n ws false x0 weights sense slack = None.
Proof. reflexivity. Qed.
Lemma bad_sense n ws x0 weights sense slack : parse sense = None -> optimize_mga n ws true x0 weights sense slack = None.
Proof. intros E. unfold optimize_mga. rewrite E. now destruct (budget n ws x0 slack). Qed.
Lemma series_stops n ws x0 weights sense slack w f l : weights = Some l -> In w l -> In (for_class w, for_attr w) operational -> with_coeffs w = Series f ->
  optimize_mga n ws true x0 weights sense slack = None.
Proof.
  intros -> I P W. unfold optimize_mga. destruct (budget n ws x0 slack); [|reflexivity]. destruct (parse sense) as [s|]; [|reflexivity].
  assert (A : alternative n s l = None).
  { clear - I P W. induction l as [|v l IH]; [destruct I|]. cbn [alternative]. destruct I as [->|I]; [now rewrite (series_raises n s w f)|].
    rewrite (IH I). now destruct (wish_terms n s v). }
  now rewrite A.
Qed.
Lemma mga_budget n ws solved x0 weights sense slack c o x :
  single n -> alike n ws -> no_links n -> proper n a_start -> proper n a_shut -> const_fixed n x ->
  optimize_mga n ws solved x0 weights sense slack = Some (c, o) -> (holds x c <-> near n x0 slack x).
Proof. intros S A NL P1 P2 C E. destruct (mga_parts _ _ _ _ _ _ _ _ _ E) as [s [_ [B _]]]. eapply budget_near; eauto. Qed.
Lemma mga_optimum n ws solved x0 weights sense slack c o :
  single n -> alike n ws -> no_links n -> proper n a_start -> proper n a_shut -> const_fixed n x0 ->
  0 <= slack -> 0 <= system_cost n x0 -> optimize_mga n ws solved x0 weights sense slack = Some (c, o) -> holds x0 c.
Proof. intros S A NL P1 P2 C H K E. eapply mga_budget; eauto. now apply optimum_near. Qed.
Lemma mga_twice n ws x0 x1 x2 w1 w2 s1 s2 slack c1 o1 c2 o2 :
  single n -> alike n ws -> no_links n -> proper n a_start -> proper n a_shut -> const_fixed n x1 -> const_fixed n x2 -> 0 <= 1 + slack ->
  optimize_mga n ws true x0 w1 s1 slack = Some (c1, o1) -> holds x1 c1 -> optimize_mga n ws true x1 w2 s2 slack = Some (c2, o2) -> holds x2 c2 ->
  system_cost n x2 <= (1 + slack) * (1 + slack) * system_cost n x0.
Proof. intros S A NL P1 P2 C1 C2 H E1 H1 E2 H2. apply (repeated n x0 x1 x2 slack H); [apply (mga_budget n ws true x0 w1 s1 slack c1 o1)|apply (mga_budget n ws true x1 w2 s2 slack c2 o2)]; auto. Qed.
