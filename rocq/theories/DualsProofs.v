From Coq Require Import List String Ascii Bool QArith Arith Lia.
From Verif Require Import AssignModel DualsModel DualsSpec.
Import ListNotations.
Open Scope string_scope.
Open Scope list_scope.
Open Scope Q_scope.

Lemma app_assoc_s a b c : (a ++ (b ++ c) = (a ++ b) ++ c)%string.
Proof. induction a; cbn [append]; congruence. Qed.

Lemma has_dash_iff s : has_dash s = true <-> exists p q, s = (p ++ "-" ++ q)%string.
Proof.
  induction s as [|a s IH]; cbn [has_dash].
  - split; [discriminate|]. intros (p & q & E). destruct p; discriminate.
  - rewrite orb_true_iff, IH, Ascii.eqb_eq. split.
    + intros [->|(p & q & ->)]; [exists "", s|exists (String a p), q]; reflexivity.
    + intros (p & q & E). destruct p as [|a' p]; injection E as -> E; [left; reflexivity|right; exists p, q; exact E].
Qed.
Lemma dashless_iff s : dashless s <-> has_dash s = false.
Proof.
  unfold dashless. rewrite <- not_true_iff_false, has_dash_iff. split.
  - intros H (p & q & E). exact (H p q E).
  - intros H p q E. apply H. exists p, q. exact E.
Qed.

Lemma split1_named c attr : dashless c -> split1 (c ++ "-" ++ attr) = Some (c, attr).
Proof.
  rewrite dashless_iff. induction c as [|a c IH]; intros D; [reflexivity|].
  cbn [has_dash] in D. apply orb_false_iff in D. destruct D as [D1 D2].
  cbn [append split1]. rewrite D1. change (String "-" attr) with ("-" ++ attr)%string. rewrite (IH D2). reflexivity.
Qed.
Lemma split1_inv s c attr : split1 s = Some (c, attr) -> s = (c ++ "-" ++ attr)%string /\ dashless c.
Proof.
  rewrite dashless_iff. revert c. induction s as [|a s IH]; intros c H; [discriminate|]. cbn [split1] in H.
  destruct (Ascii.eqb_spec a dash) as [->|N].
  - injection H as <- <-. split; reflexivity.
  - destruct (split1 s) as [[p q]|]; [|discriminate]. injection H as <- <-.
    destruct (IH p eq_refl) as [E D]. split; [rewrite E; reflexivity|]. cbn [has_dash]. rewrite D.
    apply Ascii.eqb_neq in N. rewrite N. reflexivity.
Qed.

Lemma has_dash_app p q : has_dash (p ++ q) = has_dash p || has_dash q.
Proof. induction p as [|a p IH]; cbn [append has_dash]; [reflexivity|]. rewrite IH. apply orb_assoc. Qed.
Lemma after_last_part attr spec : last_part attr spec -> after_last attr = spec.
Proof.
  intros [D [->|[p ->]]]; apply dashless_iff in D.
  - destruct spec as [|a s]; [reflexivity|]. cbn [has_dash] in D. apply orb_false_iff in D. destruct D as [D1 D2].
    cbn [after_last]. rewrite D2, D1. reflexivity.
  - induction p as [|a p IH].
    + cbn [append after_last]. rewrite D. reflexivity.
    + cbn [append after_last]. change (String "-" spec) with ("-" ++ spec)%string in *.
      rewrite has_dash_app. cbn [append has_dash]. rewrite Ascii.eqb_refl, orb_true_r. exact IH.
Qed.
Lemma last_part_after attr : last_part attr (after_last attr).
Proof.
  induction attr as [|a s IH].
  - split; [|left; reflexivity]. intros p q E. destruct p; discriminate.
  - cbn [after_last]. destruct (has_dash s) eqn:H.
    + destruct IH as [D O]. split; [exact D|]. right. destruct O as [E|[p E]].
      * exfalso. rewrite <- E in D. apply dashless_iff in D. congruence.
      * exists (String a p). cbn [append]. rewrite E at 1. reflexivity.
    + destruct (Ascii.eqb_spec a dash) as [->|N].
      * split; [apply dashless_iff; exact H|]. right. exists "". reflexivity.
      * split; [|left; reflexivity]. apply dashless_iff. cbn [has_dash]. rewrite H. apply Ascii.eqb_neq in N. rewrite N. reflexivity.
Qed.
Lemma ends_with_iff e s : ends_with e s = true <-> ends s e.
Proof.
  unfold ends. induction s as [|a s IH]; cbn [ends_with]; rewrite orb_true_iff, String.eqb_eq.
  - split; [intros [<-|H]; [exists ""; reflexivity|discriminate]|]. intros [p E]. left. destruct p; [exact E|discriminate].
  - rewrite IH. split.
    + intros [<-|[p ->]]; [exists ""|exists (String a p)]; reflexivity.
    + intros [p E]. destruct p as [|a' p]; [left; exact E|]. injection E as -> E. right. exists p. exact E.
Qed.

Lemma append_inj p a b : (p ++ a = p ++ b)%string -> a = b.
Proof. induction p; cbn [append]; [auto|]. intros H. injection H. exact IHp. Qed.

(* where an array is written to *)
Definition target (n : net) (all : bool) (a : carray) : option (string * string * frame) :=
  match split1 (a_name a) with
  | None => None
  | Some (c, attr) =>
    if a_snap a then
      match a_cols a with
      | None => None
      | Some df =>
        if known n c then
          if ends_with "nodal_balance" attr then Some (c, "marginal_price", df)
          else if all || mem ("mu_" ++ after_last attr) (static n c) then Some (c, "mu_" ++ after_last attr, df)%string else None
        else None
      end
    else None
  end.
Lemma assign_dyn n all sns st a :
  dyn (assign_one n all sns st a) =
  match target n all a with Some (c, x, df) => dyn (set_dyn st c x (set_frame sns (dyn st c x) df)) | None => dyn st end.
Proof.
  unfold assign_one, target. destruct (split1 (a_name a)) as [[c attr]|]; [|reflexivity].
  destruct (a_snap a).
  - destruct (a_cols a) as [df|]; [|reflexivity]. destruct (known n c), (ends_with "nodal_balance" attr); cbn beta iota zeta; try reflexivity;
    destruct (all || mem ("mu_" ++ after_last attr) (static n c)); reflexivity.
  - destruct (String.eqb c "GlobalConstraint" && (all || globals n attr)); reflexivity.
Qed.

Lemma set_frame_kept sns f df comp t q : reported f comp t q -> (df comp = None \/ sns t = false) -> reported (set_frame sns f df) comp t q.
Proof.
  intros (s & p & F & S & E) [N|N]; unfold reported, set_frame.
  - rewrite N, F. cbn [option_map]. exists (zeros s), p. split; [reflexivity|]. split; [|exact E]. unfold zeros, num. rewrite S. reflexivity.
  - destruct (df comp) as [s'|].
    + rewrite F. eexists _, p. split; [reflexivity|]. split; [|exact E]. unfold set_from_frame. rewrite N, S. reflexivity.
    + rewrite F. cbn [option_map]. exists (zeros s), p. split; [reflexivity|]. split; [|exact E]. unfold zeros, num. rewrite S. reflexivity.
Qed.
Lemma set_frame_new sns f df s comp t : df comp = Some s -> sns t = true ->
  reported (set_frame sns f df) comp t (match s t with Some y => y | None => 0 end).
Proof.
  intros D S. unfold reported, set_frame. rewrite D. eexists _, _. split; [reflexivity|]. unfold set_from_frame. rewrite S. split; [reflexivity|]. reflexivity.
Qed.

Lemma kept_all n all sns l st c x comp t q :
  reported (dyn st c x) comp t q ->
  (forall a df, In a l -> target n all a = Some (c, x, df) -> df comp = None \/ sns t = false) ->
  reported (dyn (fold_left (assign_one n all sns) l st) c x) comp t q.
Proof.
  revert st. induction l as [|a l IH]; intros st R H; [exact R|]. cbn [fold_left]. apply IH; [|intros a' df I; apply H; right; exact I].
  rewrite assign_dyn. destruct (target n all a) as [[[c' x'] df]|] eqn:T; [|exact R].
  cbn [set_dyn dyn]. destruct (String.eqb_spec c' c) as [->|N]; [|exact R]. destruct (String.eqb_spec x' x) as [->|N]; [|exact R].
  cbn [andb]. apply set_frame_kept; [exact R|]. apply (H a df); [left; reflexivity|exact T].
Qed.

Lemma written n all sns l1 a l2 st c x df comp t s :
  target n all a = Some (c, x, df) -> df comp = Some s -> sns t = true ->
  (forall a' df', In a' l2 -> target n all a' = Some (c, x, df') -> df' comp = None) ->
  reported (dyn (fold_left (assign_one n all sns) (l1 ++ a :: l2) st) c x) comp t (match s t with Some y => y | None => 0 end).
Proof.
  intros T D S H. rewrite fold_left_app. cbn [fold_left]. apply kept_all; [|intros a' df' I T'; left; exact (H a' df' I T')].
  rewrite assign_dyn, T. cbn [set_dyn dyn]. rewrite !String.eqb_refl. cbn [andb]. apply set_frame_new; assumption.
Qed.

Lemma target_price n all a df : target n all a = Some ("Bus", "marginal_price", df) ->
  exists attr, named a "Bus" attr /\ ends attr "nodal_balance" /\ a_snap a = true /\ a_cols a = Some df.
Proof.
  unfold target, named. destruct (split1 (a_name a)) as [[c attr]|] eqn:S; [|discriminate]. apply split1_inv in S. destruct S as [E _].
  destruct (a_snap a); [|discriminate]. destruct (a_cols a) as [d|]; [|discriminate]. destruct (known n c); [|discriminate].
  destruct (ends_with "nodal_balance" attr) eqn:W.
  - intros H. injection H as -> <-. exists attr. split; [exact E|]. split; [apply ends_with_iff; exact W|]. split; reflexivity.
  - destruct (all || mem ("mu_" ++ after_last attr) (static n c)); [|discriminate]. intros H. discriminate H.
Qed.

Lemma bus_dashless : dashless "Bus". Proof. apply dashless_iff. reflexivity. Qed.

Lemma price_ok n w r st b t l1 a l2 attr q :
  r_ok r = true -> r_has r = true -> r_arrays r = l1 ++ a :: l2 -> known n "Bus" = true ->
  named a "Bus" attr -> ends attr "nodal_balance" -> a_snap a = true -> dual a b t q -> r_sns r t = true -> ~ w t == 0 ->
  (forall a' attr', In a' l2 -> named a' "Bus" attr' -> ends attr' "nodal_balance" -> a_snap a' = true -> ~ covers a' b) ->
  reported (dyn (optimise n w r st) "Bus" "marginal_price") b t (q / w t).
Proof.
  intros OK HAS A K N E SN (f & s & F & D & ->) S W H.
  unfold optimise. rewrite OK. unfold assign_duals. rewrite HAS, A.
  assert (T : target n (r_all r) a = Some ("Bus", "marginal_price", f)).
  { unfold target. rewrite N, (split1_named _ _ bus_dashless), SN, F, K. apply ends_with_iff in E. rewrite E. reflexivity. }
  assert (R := written n (r_all r) (r_sns r) l1 a l2 st _ _ _ b t s T D S). destruct R as (s' & p & R1 & R2 & R3).
  { intros a' df' I T'. destruct (target_price _ _ _ _ T') as (attr' & N' & E' & S' & C').
    destruct (df' b) as [s'|] eqn:D'; [|reflexivity]. exfalso. apply (H a' attr' I N' E' S'). exists df', s'. split; assumption. }
  unfold reported, correct_prices. cbn [set_dyn dyn]. cbn [String.eqb Ascii.eqb Bool.eqb andb]. cbn beta.
  rewrite R1. cbn [option_map]. eexists _, (p / w t). split; [reflexivity|]. unfold divided. rewrite S, R2.
  destruct (Qeq_bool (w t) 0) eqn:Z; [apply Qeq_bool_iff in Z; contradiction|]. split; [reflexivity|]. rewrite R3. reflexivity.
Qed.

Lemma mu_ne s : String.eqb "marginal_price" ("mu_" ++ s) = false. Proof. reflexivity. Qed.

Lemma correct_other sns w st c x : (c <> "Bus" \/ x <> "marginal_price") -> dyn (correct_prices sns w st) c x = dyn st c x.
Proof.
  intros H. unfold correct_prices. cbn [set_dyn dyn]. destruct (String.eqb_spec "Bus" c) as [<-|N1]; [|reflexivity].
  destruct (String.eqb_spec "marginal_price" x) as [<-|N2]; [|reflexivity]. destruct H as [H|H]; contradiction.
Qed.

Lemma mu_ok n w r st c comp t l1 a l2 attr spec q :
  r_ok r = true -> r_has r = true -> r_all r = true -> r_arrays r = l1 ++ a :: l2 -> known n c = true -> dashless c ->
  named a c attr -> ~ ends attr "nodal_balance" -> last_part attr spec -> a_snap a = true -> dual a comp t q -> r_sns r t = true ->
  (forall a' attr', In a' l2 -> named a' c attr' -> last_part attr' spec -> a_snap a' = true -> ~ covers a' comp) ->
  reported (dyn (optimise n w r st) c ("mu_" ++ spec)) comp t q.
Proof.
  intros OK HAS ALL A K DL N E L SN (f & s & F & D & ->) S H.
  unfold optimise. rewrite OK. rewrite correct_other; [|right; discriminate]. unfold assign_duals. rewrite HAS, A.
  assert (L' := after_last_part _ _ L).
  assert (W : ends_with "nodal_balance" attr = false) by (apply not_true_iff_false; rewrite ends_with_iff; exact E).
  assert (T : target n (r_all r) a = Some (c, "mu_" ++ spec, f)%string).
  { unfold target. rewrite N, (split1_named _ _ DL), SN, F, K, W, ALL. cbn [orb]. rewrite L'. reflexivity. }
  refine (written n (r_all r) (r_sns r) l1 a l2 st _ _ _ comp t s T D S _).
  intros a' df' I T'. destruct (df' comp) as [s'|] eqn:D'; [|reflexivity]. exfalso.
  unfold target in T'. destruct (split1 (a_name a')) as [[c' attr']|] eqn:SP; [|discriminate]. apply split1_inv in SP. destruct SP as [E' _].
  destruct (a_snap a') eqn:SN'; [|discriminate]. destruct (a_cols a') as [d|] eqn:C'; [|discriminate]. destruct (known n c'); [|discriminate].
  destruct (ends_with "nodal_balance" attr'); [discriminate|].
  destruct (r_all r || mem ("mu_" ++ after_last attr') (static n c')); [|discriminate]. injection T' as -> T' ->.
  apply (H a' attr' I E'); [rewrite <- T'; apply last_part_after|exact SN'|]. exists df', s'. split; [exact C'|exact D'].
Qed.

(* what is reported outside the window stays *)
Lemma optimise_kept n w r st c x comp t q : r_sns r t = false -> reported (dyn st c x) comp t q -> reported (dyn (optimise n w r st) c x) comp t q.
Proof.
  intros S R. unfold optimise. destruct (r_ok r); [|exact R].
  assert (R' : reported (dyn (assign_duals n (r_all r) (r_sns r) (r_has r) (r_arrays r) st) c x) comp t q).
  { unfold assign_duals. destruct (r_has r); [|exact R]. apply kept_all; [exact R|]. intros; right; exact S. }
  unfold correct_prices. cbn [set_dyn dyn]. destruct (String.eqb_spec "Bus" c) as [<-|N1]; [|exact R'].
  destruct (String.eqb_spec "marginal_price" x) as [<-|N2]; [|exact R']. cbn [andb].
  destruct R' as (s & p & R1 & R2 & R3). exists (divided (r_sns r) w s), p. split; [rewrite R1; reflexivity|].
  unfold divided. rewrite S. split; assumption.
Qed.
Lemma rolling_kept n w rs st c x comp t q : (forall r, In r rs -> r_sns r t = false) ->
  reported (dyn st c x) comp t q -> reported (dyn (fold_left (fun s r => optimise n w r s) rs st) c x) comp t q.
Proof.
  revert st. induction rs as [|r rs IH]; intros st H R; [exact R|]. cbn [fold_left]. apply IH; [intros r' I; apply H; right; exact I|].
  apply optimise_kept; [apply H; left; reflexivity|exact R].
Qed.

(* nothing is written to attributes mu_... without assign_all_duals *)
Lemma default_none n w r st c x : r_all r = false -> (forall a ty, In (a, ty) (attrs n c) -> (exists s, a = ("mu_" ++ s)%string) -> ty = "series") ->
  dyn (optimise n w r st) c ("mu_" ++ x) = dyn st c ("mu_" ++ x).
Proof.
  intros ALL H. unfold optimise. destruct (r_ok r); [|reflexivity]. rewrite correct_other; [|right; discriminate].
  unfold assign_duals. destruct (r_has r); [|reflexivity].
  assert (M : forall s, mem ("mu_" ++ s) (static n c) = false).
  { intros s. unfold mem. apply not_true_iff_false. intros E. apply existsb_exists in E. destruct E as (a & I & E). apply String.eqb_eq in E. subst a.
    unfold static in I. apply in_map_iff in I. destruct I as ([a ty] & F & I). cbn [fst] in F. subst a. apply filter_In in I. destruct I as [I NS].
    cbn [snd] in NS. rewrite (H _ _ I (ex_intro _ s eq_refl)) in NS. discriminate NS. }
  generalize (r_arrays r) as l. intros l. revert st. induction l as [|a l IH]; intros st; [reflexivity|]. cbn [fold_left]. rewrite IH, assign_dyn.
  destruct (target n (r_all r) a) as [[[c' x'] df]|] eqn:T; [|reflexivity]. cbn [set_dyn dyn].
  destruct (String.eqb_spec c' c) as [->|N]; [|reflexivity]. destruct (String.eqb_spec x' ("mu_" ++ x)) as [->|N]; [|reflexivity]. exfalso.
  unfold target in T. destruct (split1 (a_name a)) as [[c' attr']|]; [|discriminate]. destruct (a_snap a); [|discriminate]. destruct (a_cols a); [|discriminate].
  destruct (known n c'); [|discriminate]. destruct (ends_with "nodal_balance" attr'); [discriminate|]. rewrite ALL in T. cbn [orb] in T.
  destruct (mem ("mu_" ++ after_last attr') (static n c')) eqn:E; [|discriminate]. injection T as -> T _. rewrite M in E. discriminate E.
Qed.

(* multipliers of global constraints *)
Lemma gmu_kept n all sns l st g q : gmu st g = Some q -> (forall a, In a l -> named a "GlobalConstraint" g -> a_snap a = true) ->
  gmu (fold_left (assign_one n all sns) l st) g = Some q.
Proof.
  revert st. induction l as [|a l IH]; intros st R H; [exact R|]. cbn [fold_left]. apply IH; [|intros a' I; apply H; right; exact I].
  unfold assign_one. destruct (split1 (a_name a)) as [[c attr]|] eqn:SP; [|exact R].
  destruct (a_snap a) eqn:SN.
  - destruct (a_cols a); [|exact R]. cbn beta iota zeta. destruct (known n c), (ends_with "nodal_balance" attr), (all || mem ("mu_" ++ after_last attr) (static n c)); exact R.
  - destruct (String.eqb_spec c "GlobalConstraint") as [->|N]; [|exact R]. cbn [andb]. destruct (all || globals n attr); [|exact R].
    cbn [set_gmu gmu]. destruct (String.eqb_spec attr g) as [->|N]; [|exact R]. exfalso. apply split1_inv in SP. destruct SP as [E _].
    specialize (H a (or_introl eq_refl) E). congruence.
Qed.
Lemma global_ok n w r st g l1 a l2 : r_ok r = true -> r_has r = true -> r_arrays r = l1 ++ a :: l2 ->
  named a "GlobalConstraint" g -> a_snap a = false -> (r_all r = true \/ globals n g = true) ->
  (forall a', In a' l2 -> named a' "GlobalConstraint" g -> a_snap a' = true) ->
  gmu (optimise n w r st) g = Some (a_scalar a).
Proof.
  intros OK HAS A N SN G H. unfold optimise. rewrite OK. unfold correct_prices. cbn [set_dyn gmu]. unfold assign_duals. rewrite HAS, A, fold_left_app. cbn [fold_left].
  apply gmu_kept; [|exact H]. unfold assign_one. rewrite N, split1_named by (apply dashless_iff; reflexivity). rewrite SN.
  replace (r_all r || globals n g) with true by (destruct G as [->| ->]; [reflexivity|symmetry; apply orb_true_r]).
  cbn [String.eqb Ascii.eqb Bool.eqb andb set_gmu gmu]. rewrite String.eqb_refl. reflexivity.
Qed.

Lemma zero_weight n w r st b t : r_ok r = true -> r_sns r t = true -> w t == 0 -> forall q, ~ reported (dyn (optimise n w r st) "Bus" "marginal_price") b t q.
Proof.
  intros OK S W q (s & p & R1 & R2 & _). unfold optimise in R1. rewrite OK in R1. unfold correct_prices in R1. cbn [set_dyn dyn] in R1.
  cbn [String.eqb Ascii.eqb Bool.eqb andb] in R1.
  destruct (dyn (assign_duals n (r_all r) (r_sns r) (r_has r) (r_arrays r) st) "Bus" "marginal_price" b) as [s'|]; [|discriminate].
  injection R1 as <-. unfold divided in R2. rewrite S in R2. destruct (s' t); [|discriminate]. apply Qeq_bool_iff in W. rewrite W in R2. discriminate.
Qed.

Definition col (c : string) (q : Q) : frame := fun c' => if String.eqb c c' then Some (fun _ => Some q) else None.
Definition arr (nm c : string) (q : Q) : carray := {| a_name := nm; a_snap := true; a_cols := Some (col c q); a_scalar := 0 |}.
Definition pypsa_net : net := {| known := fun c => mem c ["Bus"; "Generator"; "Line"; "Transformer"; "Link"; "Store"; "StorageUnit"; "GlobalConstraint"; "Carrier"]; attrs := mu_attrs; globals := fun g => String.eqb g "co2" |}.
Definition empty_state : state := {| dyn := fun _ _ _ => None; gmu := fun _ => None |}.
Definition run_of (all has : bool) (l : list carray) : run := {| r_ok := true; r_all := all; r_has := has; r_sns := fun _ => true; r_arrays := l |}.
Definition unit_arrays : list carray :=
  [arr "StorageUnit-fix-p_dispatch-lower" "s" 0; arr "StorageUnit-fix-p_dispatch-upper" "s" (-(7)); arr "StorageUnit-fix-p_store-lower" "s" 0; arr "StorageUnit-fix-p_store-upper" "s" 0;
   arr "StorageUnit-fix-state_of_charge-lower" "s" 0; arr "StorageUnit-fix-state_of_charge-upper" "s" (-(2)); arr "StorageUnit-energy_balance" "s" 9].

Lemma unit_overwritten : exists n w r st a, In a (r_arrays r) /\ r_ok r = true /\ r_all r = true /\ r_has r = true /\
  named a "StorageUnit" "fix-p_dispatch-upper" /\ dual a "s" 0 (-(7)) /\ reported (dyn (optimise n w r st) "StorageUnit" "mu_upper") "s" 0 (-(2)).
Proof.
  exists pypsa_net, (fun _ => 1), (run_of true true unit_arrays), empty_state, (arr "StorageUnit-fix-p_dispatch-upper" "s" (-(7))).
  split; [right; left; reflexivity|]. do 4 (split; [reflexivity|]). split; [exists (col "s" (-(7))), (fun _ => Some (-(7))); repeat split; reflexivity|].
  eexists _, _. split; [reflexivity|]. split; reflexivity.
Qed.
Lemma stale_prices : exists n w r r' st a, r_arrays r = [a] /\ named a "Bus" "nodal_balance" /\ dual a "b" 0 8 /\ w 0%nat == 2 /\ r_has r = true /\ r_has r' = false /\
  reported (dyn (optimise n w r st) "Bus" "marginal_price") "b" 0 4 /\ reported (dyn (optimise n w r' (optimise n w r st)) "Bus" "marginal_price") "b" 0 2.
Proof.
  exists pypsa_net, (fun _ => 2), (run_of false true [arr "Bus-nodal_balance" "b" 8]), (run_of false false []), empty_state, (arr "Bus-nodal_balance" "b" 8).
  do 2 (split; [reflexivity|]). split; [exists (col "b" 8), (fun _ => Some 8); repeat split; reflexivity|]. do 3 (split; [reflexivity|]).
  split; eexists _, _; (split; [reflexivity|]); split; reflexivity.
Qed.
Lemma default_line : exists n w r st a, In a (r_arrays r) /\ r_ok r = true /\ r_has r = true /\ known n "Line" = true /\ In ("mu_upper", "series") (attrs n "Line") /\
  named a "Line" "fix-s-upper" /\ dual a "l" 0 (-(5)) /\ forall q, ~ reported (dyn (optimise n w r st) "Line" "mu_upper") "l" 0 q.
Proof.
  exists pypsa_net, (fun _ => 1), (run_of false true [arr "Line-fix-s-upper" "l" (-(5))]), empty_state, (arr "Line-fix-s-upper" "l" (-(5))).
  split; [left; reflexivity|]. do 3 (split; [reflexivity|]). split; [right; left; reflexivity|]. split; [reflexivity|].
  split; [exists (col "l" (-(5))), (fun _ => Some (-(5))); repeat split; reflexivity|]. intros q (s & p & R & _). discriminate R.
Qed.
