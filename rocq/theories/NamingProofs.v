From Coq Require Import List String Ascii Bool QArith ZArith Arith Lia.
From Verif Require Import LinModel WholeModel IdleSpec NamingSpec.
From Verif Require DispatchModel RampModel CommitModel BalanceModel StorageModel LimitModel CapModel LossModel ObjectiveModel UnitProofs.
Import ListNotations.
Open Scope string_scope.
Open Scope list_scope.
Open Scope Q_scope.

(* ---------- lists ---------- *)
Lemma filter_map {A B} (g : A -> B) (p : B -> bool) l : filter p (map g l) = map g (filter (fun a => p (g a)) l).
Proof. induction l as [|a l IH]; [reflexivity|]. cbn [map filter]. rewrite IH. destruct (p (g a)); reflexivity. Qed.
Lemma flat_map_map {A B C} (g : A -> B) (f : B -> list C) l : flat_map f (map g l) = flat_map (fun a => f (g a)) l.
Proof. induction l as [|a l IH]; [reflexivity|]. cbn [map flat_map]. now rewrite IH. Qed.
Lemma map_flat_map {A B C} (g : B -> C) (f : A -> list B) l : map g (flat_map f l) = flat_map (fun a => map g (f a)) l.
Proof. induction l as [|a l IH]; [reflexivity|]. cbn [flat_map]. now rewrite map_app, IH. Qed.
Lemma flat_map_eq {A B} (f g : A -> list B) l : (forall a, In a l -> f a = g a) -> flat_map f l = flat_map g l.
Proof. induction l as [|a l IH]; intros H; [reflexivity|]. cbn [flat_map]. rewrite (H a), IH by (intros; try apply H; cbn; auto). reflexivity. Qed.
Lemma existsb_map {A B} (g : A -> B) p l : existsb p (map g l) = existsb (fun a => p (g a)) l.
Proof. induction l as [|a l IH]; [reflexivity|]. cbn [map existsb]. now rewrite IH. Qed.
Lemma forallb_map {A B} (g : A -> B) p l : forallb p (map g l) = forallb (fun a => p (g a)) l.
Proof. induction l as [|a l IH]; [reflexivity|]. cbn [map forallb]. now rewrite IH. Qed.
Lemma existsb_eq {A} (f g : A -> bool) l : (forall a, f a = g a) -> existsb f l = existsb g l.
Proof. intros H. induction l as [|a l IH]; [reflexivity|]. cbn [existsb]. now rewrite H, IH. Qed.
Lemma forallb_eq {A} (f g : A -> bool) l : (forall a, f a = g a) -> forallb f l = forallb g l.
Proof. intros H. induction l as [|a l IH]; [reflexivity|]. cbn [forallb]. now rewrite H, IH. Qed.
Lemma fold_right_map {A B C} (g : A -> B) (f : B -> C -> C) c l : fold_right f c (map g l) = fold_right (fun a => f (g a)) c l.
Proof. induction l as [|a l IH]; [reflexivity|]. cbn [map fold_right]. now rewrite IH. Qed.

Section R.
Variable r : naming.
Hypothesis P : proper r.

Notation v2 := (var_to r).
Definition rl (l : label) : label := option_map v2 l.
Definition rlin (l : lin) : lin := map (fun cv => (fst cv, rl (snd cv))) l.
Definition rcon (c : con) : con := {| lhs := rlin (lhs c); sns := sns c; rhs := rhs c |}.
Notation old := (old_names r).

Lemma val_rl x l : val x (rl l) = val (old x) l.
Proof. destruct l as [v|]; reflexivity. Qed.
Lemma eval_rl x l : eval x (rlin l) = eval (old x) l.
Proof. induction l as [|[c v] l IH]; [reflexivity|]. cbn [rlin map eval fst snd]. fold (rlin l). now rewrite IH, val_rl. Qed.
Lemma holds_rl x c : holds x (rcon c) <-> holds (old x) c.
Proof. unfold holds, rcon. cbn [lhs sns rhs]. now rewrite eval_rl. Qed.
Lemma has_rl c : CapModel.has_term (rcon c) = CapModel.has_term c.
Proof.
  unfold CapModel.has_term, rcon, rlin. cbn [lhs]. rewrite existsb_map. apply existsb_eq. intros [q [v|]]; reflexivity.
Qed.
Lemma sat_rl x cs : sat x (CapModel.problem (map rcon cs)) <-> sat (old x) (CapModel.problem cs).
Proof.
  unfold CapModel.problem. rewrite filter_map. erewrite filter_ext by (intros c; apply has_rl). unfold sat. split; intros H c I.
  - apply holds_rl, H. now apply in_map.
  - apply in_map_iff in I. destruct I as (c0 & <- & I). apply holds_rl. now apply H.
Qed.
Lemma rlin_app a b : rlin (a ++ b) = rlin a ++ rlin b.
Proof. apply map_app. Qed.

Lemma ac_map {A B} (g : A -> B) ts l mask mask' f f' :
  (forall t a, In a l -> mask' t (g a) = mask t a) -> (forall t a, In a l -> f' t (g a) = rcon (f t a)) ->
  add_constraints ts (map g l) mask' f' = map rcon (add_constraints ts l mask f).
Proof.
  intros M F. unfold add_constraints. rewrite map_flat_map. apply flat_map_eq. intros t _. rewrite map_flat_map, flat_map_map.
  apply flat_map_eq. intros a I. rewrite M by exact I. destruct (mask t a); [|reflexivity]. now rewrite F.
Qed.

(* ---------- one class ---------- *)
Lemma class_dash c s : class_of c = None -> class_of (c ++ "-" ++ s) = Some c.
Proof.
  induction c as [|a c IH]; intros H; [reflexivity|]. cbn [class_of] in H. cbn [append class_of] in IH |- *.
  destruct (Ascii.eqb a "-"); [discriminate|]. destruct (class_of c); [discriminate|]. now rewrite IH.
Qed.
Lemma classes_plain c : In c classes -> class_of c = None.
Proof. intros I. repeat (destruct I as [<-|I]; [reflexivity|]). destruct I. Qed.

Section Class.
Variable c : string.
Hypothesis plain : class_of c = None.
Lemma v2_class s t a : v2 ((c ++ "-" ++ s)%string, t, a) = ((c ++ "-" ++ s)%string, t, to r c a).
Proof. unfold var_to. cbv beta iota. now rewrite class_dash. Qed.

Definition dren (a : DispatchModel.asset) : DispatchModel.asset :=
  {| DispatchModel.name := to r c (DispatchModel.name a); DispatchModel.nom := DispatchModel.nom a; DispatchModel.nom_min := DispatchModel.nom_min a;
     DispatchModel.nom_max := DispatchModel.nom_max a; DispatchModel.nom_set := DispatchModel.nom_set a; DispatchModel.nom_mod := DispatchModel.nom_mod a;
     DispatchModel.ext := DispatchModel.ext a; DispatchModel.com := DispatchModel.com a; DispatchModel.active := DispatchModel.active a;
     DispatchModel.min_pu := DispatchModel.min_pu a; DispatchModel.max_pu := DispatchModel.max_pu a; DispatchModel.max_hours := DispatchModel.max_hours a;
     DispatchModel.fix_set := DispatchModel.fix_set a |}.

Lemma op_ren v a t : DispatchModel.op c v (dren a) t = rl (DispatchModel.op c v a t).
Proof.
  unfold DispatchModel.op, DispatchModel.vname. cbn [dren DispatchModel.active DispatchModel.name].
  destruct (DispatchModel.active a t); [|reflexivity]. cbn [rl option_map]. now rewrite v2_class.
Qed.
Lemma cap_ren v a : DispatchModel.cap c v (dren a) = rl (DispatchModel.cap c v a).
Proof. unfold DispatchModel.cap, DispatchModel.vname. cbn [rl option_map]. now rewrite v2_class. Qed.
Lemma nmod_ren a : DispatchModel.n_mod c (dren a) = rl (DispatchModel.n_mod c a).
Proof. unfold DispatchModel.n_mod, DispatchModel.vname. cbn [rl option_map]. now rewrite v2_class. Qed.
Lemma loss_ren k ls s a t : DispatchModel.loss_term c k ls s (dren a) t = rlin (DispatchModel.loss_term c k ls s a t).
Proof. unfold DispatchModel.loss_term. destruct (_ && _)%bool; [|reflexivity]. cbn [rlin map fst snd]. now rewrite op_ren. Qed.

Ltac one := intros; try reflexivity; unfold DispatchModel.mk, rcon; cbn [lhs sns rhs rlin map fst snd];
  rewrite ?op_ren, ?cap_ren, ?nmod_ren, ?loss_ren; reflexivity.

Lemma non_ext_ren attr k ls T l : DispatchModel.non_extendables c attr k ls T (map dren l) = map rcon (DispatchModel.non_extendables c attr k ls T l).
Proof. unfold DispatchModel.non_extendables, DispatchModel.fixed_assets. rewrite filter_map, map_app. f_equal; apply ac_map; one. Qed.
Lemma ext_ren attr na k ls T l : DispatchModel.extendables c attr na k ls T (map dren l) = map rcon (DispatchModel.extendables c attr na k ls T l).
Proof. unfold DispatchModel.extendables, DispatchModel.ext_assets. rewrite filter_map, map_app. f_equal; apply ac_map; one. Qed.
Lemma com_ren T l : DispatchModel.committables c T (map dren l) = map rcon (DispatchModel.committables c T l).
Proof. unfold DispatchModel.committables, DispatchModel.com_assets. rewrite filter_map, map_app. f_equal; apply ac_map; one. Qed.
Lemma nominal_ren na l : DispatchModel.nominal c na (map dren l) = map rcon (DispatchModel.nominal c na l).
Proof. unfold DispatchModel.nominal, DispatchModel.ext_assets. rewrite filter_map, map_app. f_equal; apply ac_map; one. Qed.
Lemma fixed_nominal_ren na l : DispatchModel.fixed_nominal c na (map dren l) = map rcon (DispatchModel.fixed_nominal c na l).
Proof. unfold DispatchModel.fixed_nominal, DispatchModel.ext_assets. rewrite filter_map. apply ac_map; one. Qed.
Lemma modular_ren na l : DispatchModel.modular c na (map dren l) = map rcon (DispatchModel.modular c na l).
Proof. unfold DispatchModel.modular, DispatchModel.mod_assets. rewrite filter_map. apply ac_map; one. Qed.
Lemma fixed_op_ren attr T l : DispatchModel.fixed_operation c attr T (map dren l) = map rcon (DispatchModel.fixed_operation c attr T l).
Proof. unfold DispatchModel.fixed_operation. apply ac_map; one. Qed.

(* ramps *)
Definition rren (a : RampModel.rasset) : RampModel.rasset :=
  {| RampModel.base := dren (RampModel.base a); RampModel.up := RampModel.up a; RampModel.down := RampModel.down a; RampModel.up_static := RampModel.up_static a;
     RampModel.down_static := RampModel.down_static a; RampModel.start_lim := RampModel.start_lim a; RampModel.shut_lim := RampModel.shut_lim a;
     RampModel.p_start := RampModel.p_start a; RampModel.status_start := RampModel.status_start a |}.
Lemma shift_rl f f' t : (forall t, f' t = rl (f t)) -> shift f' t = rl (shift f t).
Proof. intros H. destruct t; [reflexivity|apply H]. Qed.
Lemma p_ren a t : RampModel.p c (rren a) t = rl (RampModel.p c a t).
Proof. apply op_ren. Qed.
Lemma st_ren a t : RampModel.status c (rren a) t = rl (RampModel.status c a t).
Proof. apply op_ren. Qed.
Lemma sp_ren a t : shift (RampModel.p c (rren a)) t = rl (shift (RampModel.p c a) t).
Proof. apply shift_rl, p_ren. Qed.
Lemma sst_ren a t : shift (RampModel.status c (rren a)) t = rl (shift (RampModel.status c a) t).
Proof. apply shift_rl, st_ren. Qed.
Lemma rcap_ren na a : DispatchModel.cap c na (RampModel.base (rren a)) = rl (DispatchModel.cap c na (RampModel.base a)).
Proof. apply cap_ren. Qed.
Ltac ramp := intros; try reflexivity; unfold DispatchModel.mk, rcon; cbn zeta; cbn [lhs sns rhs rlin map fst snd];
  rewrite ?p_ren, ?st_ren, ?sp_ren, ?sst_ren, ?rcap_ren; reflexivity.
Lemma ramps_ren na T ro l : RampModel.ramps c na T ro (map rren l) = map rcon (RampModel.ramps c na T ro l).
Proof.
  unfold RampModel.ramps. assert (E : RampModel.early_return T (map rren l) = RampModel.early_return T l).
  { unfold RampModel.early_return, RampModel.everywhere. now rewrite !forallb_map. }
  rewrite E. destruct (RampModel.early_return T l); [reflexivity|]. rewrite !map_app.
  unfold RampModel.fixed_ramps, RampModel.extendable_ramps, RampModel.com_ramps, RampModel.fix_, RampModel.ext_, RampModel.com_.
  rewrite !filter_map, !map_app. repeat (f_equal; [|]); apply ac_map; ramp.
Qed.

(* commitment *)
Definition uren (u : CommitModel.unit_) : CommitModel.unit_ :=
  {| CommitModel.u_name := to r c (CommitModel.u_name u); CommitModel.u_active := CommitModel.u_active u; CommitModel.min_up := CommitModel.min_up u;
     CommitModel.min_down := CommitModel.min_down u; CommitModel.up_before := CommitModel.up_before u; CommitModel.down_before := CommitModel.down_before u;
     CommitModel.hist := CommitModel.hist u; CommitModel.lower_p := CommitModel.lower_p u; CommitModel.upper_p := CommitModel.upper_p u;
     CommitModel.r_up := CommitModel.r_up u; CommitModel.r_down := CommitModel.r_down u; CommitModel.r_start := CommitModel.r_start u;
     CommitModel.r_shut := CommitModel.r_shut u |}.
Lemma uvar_ren u v t : CommitModel.uvar c (uren u) v t = rl (CommitModel.uvar c u v t).
Proof.
  unfold CommitModel.uvar. cbn [uren CommitModel.u_active CommitModel.u_name]. destruct (CommitModel.u_active u t); [|reflexivity].
  cbn [rl option_map]. now rewrite v2_class.
Qed.
Lemma suvar_ren u v t : shift (CommitModel.uvar c (uren u) v) t = rl (shift (CommitModel.uvar c u v) t).
Proof. apply shift_rl. intros. apply uvar_ren. Qed.
Lemma window_ren u v t k : CommitModel.window (CommitModel.uvar c (uren u) v) t k = rlin (CommitModel.window (CommitModel.uvar c u v) t k).
Proof. unfold CommitModel.window, rlin. rewrite map_map. apply map_ext. intros j. cbn [fst snd]. now rewrite uvar_ren. Qed.
Ltac unit_ := intros; try reflexivity; unfold CommitModel.con1, rcon, CommitModel.status, CommitModel.start_up, CommitModel.shut_down, CommitModel.power;
  cbn [lhs sns rhs rlin map fst snd]; rewrite ?uvar_ren, ?suvar_ren, ?window_ren; reflexivity.
Lemma single u : [uren u] = map uren [u].
Proof. reflexivity. Qed.
Lemma commitment_ren T ro u : CommitModel.commitment c (uren u) T ro = map rcon (CommitModel.commitment c u T ro).
Proof.
  unfold CommitModel.commitment, CommitModel.transition, CommitModel.up_time, CommitModel.down_time, CommitModel.stay_up, CommitModel.stay_down.
  rewrite !single, !map_app. cbn [uren CommitModel.min_up CommitModel.min_down].
  assert (A : forall ts mask mask' f f', (forall t, mask' t (uren u) = mask t u) -> (forall t, f' t (uren u) = rcon (f t u)) ->
     add_constraints ts (map uren [u]) mask' f' = map rcon (add_constraints ts [u] mask f)).
  { intros ts mask mask' f f' M F. apply ac_map; intros t a [<-|[]]; auto. }
  f_equal; [f_equal; apply A; unit_|]. f_equal; [destruct (Nat.eqb _ 0); [reflexivity|]; apply A; unit_|].
  f_equal; [destruct (Nat.eqb _ 0); [reflexivity|]; apply A; unit_|]. f_equal; apply A; unit_.
Qed.
Lemma tighten_ren T u : CommitModel.tighten c (uren u) T = map rcon (CommitModel.tighten c u T).
Proof.
  unfold CommitModel.tighten. cbn zeta. rewrite !single, !map_app.
  assert (A : forall ts mask mask' f f', (forall t, mask' t (uren u) = mask t u) -> (forall t, f' t (uren u) = rcon (f t u)) ->
     add_constraints ts (map uren [u]) mask' f' = map rcon (add_constraints ts [u] mask f)).
  { intros ts mask mask' f f' M F. apply ac_map; intros t a [<-|[]]; auto. }
  repeat (f_equal; [|]); apply A; unit_.
Qed.
Lemma binary_ren T u x : CommitModel.binary c (uren u) T x <-> CommitModel.binary c u T (old x).
Proof.
  unfold CommitModel.binary, CommitModel.is_binary, CommitModel.status, CommitModel.start_up, CommitModel.shut_down.
  split; intros (A & B & C); (split; [|split]); intros t Ht Ha; [specialize (A t Ht Ha)|specialize (B t Ht Ha)|specialize (C t Ht Ha)|specialize (A t Ht Ha)|specialize (B t Ht Ha)|specialize (C t Ht Ha)];
    rewrite ?uvar_ren, ?val_rl in *; assumption.
Qed.
Lemma relaxed_ren T u x : CommitModel.relaxed c (uren u) T x <-> CommitModel.relaxed c u T (old x).
Proof.
  unfold CommitModel.relaxed, CommitModel.is_relaxed, CommitModel.status, CommitModel.start_up, CommitModel.shut_down.
  split; intros (A & B & C); (split; [|split]); intros t Ht Ha; [specialize (A t Ht Ha)|specialize (B t Ht Ha)|specialize (C t Ht Ha)|specialize (A t Ht Ha)|specialize (B t Ht Ha)|specialize (C t Ht Ha)];
    rewrite ?uvar_ren, ?val_rl in *; assumption.
Qed.

(* losses *)
Definition loren (b : LossModel.branch) : LossModel.branch :=
  {| LossModel.b_name := to r c (LossModel.b_name b); LossModel.b_active := LossModel.b_active b; LossModel.b_r := LossModel.b_r b;
     LossModel.b_max_pu := LossModel.b_max_pu b; LossModel.b_ext := LossModel.b_ext b; LossModel.b_nom := LossModel.b_nom b; LossModel.b_nom_max := LossModel.b_nom_max b |}.
Lemma lloss_ren b t : LossModel.loss c (loren b) t = rl (LossModel.loss c b t).
Proof.
  unfold LossModel.loss. cbn [loren LossModel.b_active LossModel.b_name]. destruct (LossModel.b_active b t); [|reflexivity]. cbn [rl option_map].
  exact (f_equal Some (eq_sym (v2_class "loss" t (LossModel.b_name b)))).

Qed.
Lemma lflow_ren b t : LossModel.flow c (loren b) t = rl (LossModel.flow c b t).
Proof.
  unfold LossModel.flow. cbn [loren LossModel.b_active LossModel.b_name]. destruct (LossModel.b_active b t); [|reflexivity]. cbn [rl option_map].
  exact (f_equal Some (eq_sym (v2_class "s" t (LossModel.b_name b)))).

Qed.
Lemma losses_ren tg T l : LossModel.loss_constraints c tg T (map loren l) = option_map (map rcon) (LossModel.loss_constraints c tg T l).
Proof.
  destruct l as [|b l]; [reflexivity|]. unfold LossModel.loss_constraints. cbn [map]. change (loren b :: map loren l) with (map loren (b :: l)).
  set (bs := b :: l). rewrite forallb_map. change (fun a => match LossModel.limit (loren a) with Some _ => true | None => false end) with
    (fun a => match LossModel.limit a with Some _ => true | None => false end).
  destruct (forallb _ bs); [|reflexivity]. cbn [option_map]. f_equal. rewrite map_app. f_equal.
  - apply ac_map; [reflexivity|]. intros t a _. unfold rcon. cbn [lhs sns rhs rlin map fst snd]. now rewrite lloss_ren.
  - rewrite map_flat_map. apply flat_map_eq. intros k _. rewrite map_flat_map. apply flat_map_eq. intros s _.
    apply ac_map; [reflexivity|]. intros t a _. unfold rcon. cbn [lhs sns rhs rlin map fst snd]. now rewrite lloss_ren, lflow_ren.
Qed.
End Class.

(* ---------- storage ---------- *)
Definition sren (c : string) (a : StorageModel.storage) : StorageModel.storage :=
  {| StorageModel.s_name := to r c (StorageModel.s_name a); StorageModel.s_active := StorageModel.s_active a; StorageModel.s_stand := StorageModel.s_stand a;
     StorageModel.s_init := StorageModel.s_init a; StorageModel.s_cyclic := StorageModel.s_cyclic a; StorageModel.s_cyclic_pp := StorageModel.s_cyclic_pp a;
     StorageModel.s_init_pp := StorageModel.s_init_pp a |}.
Lemma var_ren c v a t : class_of v = Some c -> StorageModel.var_of (sren c a) v t = rl (StorageModel.var_of a v t).
Proof.
  intros K. unfold StorageModel.var_of. cbn [sren StorageModel.s_active StorageModel.s_name]. destruct (StorageModel.s_active a t); [|reflexivity].
  cbn [rl option_map]. unfold var_to. cbv beta iota. now rewrite K.
Qed.
Lemma ffill_rl f f' : (forall t, f' t = rl (f t)) -> forall t, StorageModel.ffill f' t = rl (StorageModel.ffill f t).
Proof.
  intros H t. induction t as [|t IH]; cbn [StorageModel.ffill]; rewrite H; [destruct (f O); reflexivity|].
  destruct (f (S t)); [reflexivity|exact IH].
Qed.
Lemma previous_ren c T lev a t : class_of lev = Some c -> StorageModel.previous T lev (sren c a) t = rl (StorageModel.previous T lev a t).
Proof.
  intros K. unfold StorageModel.previous, StorageModel.where_ at 1 3. cbv beta.
  change (StorageModel.include_previous (sren c a) t) with (StorageModel.include_previous a t).
  destruct (StorageModel.include_previous a t); [|reflexivity].
  apply ffill_rl. intros s. unfold StorageModel.roll.
  assert (G : forall s, StorageModel.ffill (StorageModel.where_ (StorageModel.level lev (sren c a)) (StorageModel.s_active (sren c a))) s =
    rl (StorageModel.ffill (StorageModel.where_ (StorageModel.level lev a) (StorageModel.s_active a)) s)).
  { apply ffill_rl. intros u. unfold StorageModel.where_. cbn [sren StorageModel.s_active]. destruct (StorageModel.s_active a u); [|reflexivity].
    unfold StorageModel.level. now apply var_ren. }
  destruct s; apply G.
Qed.
Lemma energy_ren c T lev a fl fl' infl : class_of lev = Some c -> (forall t, fl' t = rlin (fl t)) ->
  StorageModel.energy_balance T None lev (sren c a) fl' infl = map rcon (StorageModel.energy_balance T None lev a fl infl).
Proof.
  intros K F. unfold StorageModel.energy_balance. change [sren c a] with (map (sren c) [a]). apply ac_map; intros t b [<-|[]]; [reflexivity|].
  unfold rcon. cbn [lhs sns rhs]. cbn [rlin map]. fold (rlin (fl t ++ [(StorageModel.s_stand a t, StorageModel.prev_label T None lev a t)])).
  rewrite rlin_app, F. cbn [rlin map fst snd]. unfold StorageModel.prev_label, StorageModel.level. rewrite previous_ren, var_ren by exact K. reflexivity.
Qed.

(* ---------- the network ---------- *)
Variable n : net.
Notation n' := (renamed r n).

Lemma of_class_ren c : of_class n' c = map (ren r) (of_class n c).
Proof. unfold of_class. cbn [renamed assets]. now rewrite filter_map. Qed.
Lemma in_class a c : In a (of_class n c) -> cls a = c.
Proof. intros I. apply filter_In in I. destruct I as [_ E]. now apply String.eqb_eq in E. Qed.
Lemma view_ren {V} (view : asset -> V) (g : string -> V -> V) c : (forall a, view (ren r a) = g (cls a) (view a)) ->
  map view (of_class n' c) = map (g c) (map view (of_class n c)).
Proof.
  intros H. rewrite of_class_ren, !map_map. apply map_ext_in. intros a I. rewrite H. now rewrite (in_class a c I).
Qed.
Lemma d_ren attr c : map (d_view attr) (of_class n' c) = map (dren c) (map (d_view attr) (of_class n c)).
Proof. apply (view_ren _ dren). reflexivity. Qed.

Lemma capacity_ren : capacity n' = map rcon (capacity n).
Proof.
  unfold capacity. rewrite map_flat_map. apply flat_map_eq. intros [c na] I. unfold capacity_of. cbn [fst snd]. cbn zeta.
  assert (K : class_of c = None) by (apply (in_map fst) in I; now apply classes_plain).
  rewrite d_ren, nominal_ren, fixed_nominal_ren, modular_ren by exact K. now rewrite !map_app.
Qed.

Lemma commit_of_ren c : class_of c = None -> commitment_of n' c = map rcon (commitment_of n c).
Proof.
  intros K. unfold commitment_of. rewrite map_app, !map_flat_map, of_class_ren, filter_map, !flat_map_map. f_equal; apply flat_map_eq; intros a I;
    apply filter_In in I; destruct I as [I _]; apply in_class in I.
  - change (u_view (ren r a)) with (uren (cls a) (u_view a)). rewrite I. now apply commitment_ren.
  - change (tightened n' (ren r a)) with (tightened n a). destruct (tightened n a); [|reflexivity].
    change (u_view (ren r a)) with (uren (cls a) (u_view a)). rewrite I. now apply tighten_ren.
Qed.
Lemma operation_ren : operation n' = map rcon (operation n).
Proof.
  unfold operation. rewrite map_flat_map. apply flat_map_eq. intros [[[c attr] na] k] I. unfold operation_of. cbn zeta.
  assert (K : class_of c = None).
  { repeat (destruct I as [I|I]; [injection I as <- _ _ _; reflexivity|]). destruct I. }
  rewrite d_ren, non_ext_ren, ext_ren, com_ren, fixed_op_ren, commit_of_ren by exact K. rewrite !map_app.
  do 4 f_equal. f_equal. destruct (has_uc c); [|reflexivity].
  rewrite (view_ren r_view rren c) by reflexivity. now apply ramps_ren.
Qed.

(* balances *)
Lemma eqb_bus b b' : String.eqb (bto r b) (bto r b') = String.eqb b b'.
Proof.
  destruct P as (_ & _ & Q1 & _). destruct (String.eqb_spec b b') as [->|N]; [apply String.eqb_refl|]. apply String.eqb_neq. intros E.
  apply (f_equal (bfrom r)) in E. rewrite !Q1 in E. contradiction.
Qed.
Definition rent (e : BalanceModel.entry) : BalanceModel.entry := (bto r (fst e), (fst (snd e), rl (snd (snd e)))).
Lemma lab_ren c v f s t : class_of v = Some c -> BalanceModel.lab f v (to r c s) t = rl (BalanceModel.lab f v s t).
Proof. intros K. unfold BalanceModel.lab. destruct (f t); [|reflexivity]. cbn [rl option_map]. unfold var_to. cbv beta iota. now rewrite K. Qed.

Lemma one_ren c v sg t : class_of v = Some c ->
  BalanceModel.one sg v (map c_view (of_class n' c)) t = map rent (BalanceModel.one sg v (map c_view (of_class n c)) t).
Proof.
  intros K. unfold BalanceModel.one. rewrite of_class_ren, !map_map. apply map_ext_in. intros a I. apply in_class in I.
  unfold rent. cbn [c_view ren BalanceModel.c_bus BalanceModel.c_sign BalanceModel.c_active BalanceModel.c_name bus0 sgn nm cls fst snd].
  rewrite I. now rewrite (lab_ren c).
Qed.
Lemma br_ren c v s0 s1 t : class_of v = Some c ->
  BalanceModel.br s0 s1 v (map br_view (of_class n' c)) t = map rent (BalanceModel.br s0 s1 v (map br_view (of_class n c)) t).
Proof.
  intros K. unfold BalanceModel.br. rewrite map_app, of_class_ren, !map_map. f_equal; apply map_ext_in; intros a I; apply in_class in I;
    unfold rent; cbn [br_view ren BalanceModel.b_bus0 BalanceModel.b_bus1 BalanceModel.b_active BalanceModel.b_name bus0 bus1 nm cls fst snd];
    rewrite I; now rewrite (lab_ren c).
Qed.
Lemma empty_bus b : String.eqb (bto r b) "" = String.eqb b "".
Proof. destruct P as (_ & _ & _ & _ & Z). rewrite <- Z at 1. apply eqb_bus. Qed.
Lemma entries_ren t : BalanceModel.entries (b_net n') (lossy n') t = map rent (BalanceModel.entries (b_net n) (lossy n) t).
Proof.
  unfold BalanceModel.entries. cbn [b_net BalanceModel.gens BalanceModel.stores BalanceModel.units BalanceModel.lines BalanceModel.trafos BalanceModel.links].
  change (lossy n') with (lossy n). rewrite !map_app. repeat (f_equal; [first [now apply one_ren|now apply br_ren|idtac]|]).
  - rewrite of_class_ren, !map_map. apply map_ext_in. intros a I. apply in_class in I. unfold rent.
    cbn [l_view ren BalanceModel.l_bus0 BalanceModel.l_active BalanceModel.l_name bus0 nm cls fst snd]. rewrite I. now rewrite (lab_ren "Link").
  - rewrite of_class_ren, !map_map. apply map_ext_in. intros a I. apply in_class in I. unfold rent.
    cbn [l_view ren BalanceModel.l_bus1 BalanceModel.l_eff1 BalanceModel.l_active BalanceModel.l_name bus1 eff nm cls fst snd]. rewrite I. now rewrite (lab_ren "Link").
  - rewrite of_class_ren, map_flat_map, !flat_map_map. apply flat_map_eq. intros a I. apply in_class in I.
    cbn [l_view ren BalanceModel.l_ports BalanceModel.l_active BalanceModel.l_name ports nm cls]. rewrite filter_map, !map_map.
    cbn [fst]. erewrite filter_ext by (intros p; now rewrite empty_bus). apply map_ext. intros p. unfold rent. cbn [fst snd].
    rewrite I. now rewrite (lab_ren "Link").
  - destruct (lossy n); [|reflexivity]. rewrite map_app. f_equal; now apply br_ren.
Qed.
Lemma blhs_ren b t : BalanceModel.balance_lhs (b_net n') (lossy n') (bto r b) t = rlin (BalanceModel.balance_lhs (b_net n) (lossy n) b t).
Proof.
  unfold BalanceModel.balance_lhs, rlin. rewrite entries_ren, filter_map, !map_map. cbn [rent fst]. erewrite filter_ext by (intros e; apply eqb_bus).
  apply map_ext. intros e. reflexivity.
Qed.
Lemma brhs_ren b t : BalanceModel.balance_rhs (b_net n') (bto r b) t = BalanceModel.balance_rhs (b_net n) b t.
Proof.
  unfold BalanceModel.balance_rhs. cbn [b_net BalanceModel.loads renamed loads]. rewrite filter_map, map_map.
  cbn [ren_load BalanceModel.d_active BalanceModel.d_bus BalanceModel.d_p BalanceModel.d_sign].
  erewrite filter_ext by (intros d; now rewrite eqb_bus). reflexivity.
Qed.
Lemma empty_ren l : BalanceModel.is_empty (rlin l) = BalanceModel.is_empty l.
Proof. unfold BalanceModel.is_empty, rlin. rewrite forallb_map. apply forallb_eq. intros [q [v|]]; reflexivity. Qed.
Lemma balances_ren : balances n' = option_map (map rcon) (balances n).
Proof.
  unfold balances, BalanceModel.balance.
  assert (E1 : BalanceModel.no_terms (b_net n') (lossy n') (buses n') = BalanceModel.no_terms (b_net n) (lossy n) (buses n)).
  { unfold BalanceModel.no_terms. f_equal. rewrite entries_ren, existsb_map. apply existsb_eq. intros e. cbn [renamed buses]. rewrite existsb_map.
    apply existsb_eq. intros b. cbn [rent fst]. apply eqb_bus. }
  assert (E2 : BalanceModel.empty_demand (b_net n') (lossy n') (buses n') (nsnaps n') = BalanceModel.empty_demand (b_net n) (lossy n) (buses n) (nsnaps n)).
  { unfold BalanceModel.empty_demand. cbn [renamed buses nsnaps]. apply existsb_eq. intros t. rewrite existsb_map. apply existsb_eq. intros b.
    now rewrite blhs_ren, brhs_ren, empty_ren. }
  rewrite E1, E2. destruct (_ || _)%bool; [reflexivity|]. cbn [option_map]. f_equal. cbn [renamed buses nsnaps]. apply ac_map.
  - intros t b _. now rewrite blhs_ren, empty_ren.
  - intros t b _. unfold rcon. cbn [lhs sns rhs]. now rewrite blhs_ren, brhs_ren.
Qed.

(* storage *)
Lemma spill_ren a d t : StorageModel.spill_label (sren "StorageUnit" a) d t = rl (StorageModel.spill_label a d t).
Proof. unfold StorageModel.spill_label. destruct (negb _); [now apply var_ren|reflexivity]. Qed.
Lemma units_ren : storage_units n' = map rcon (storage_units n).
Proof.
  unfold storage_units. rewrite map_flat_map, of_class_ren, flat_map_map. apply flat_map_eq. intros a I. apply in_class in I.
  change (s_view (ren r a)) with (sren (cls a) (s_view a)). rewrite I. unfold StorageModel.unit_balance. apply energy_ren; [reflexivity|].
  intros t. unfold StorageModel.unit_flows. cbn [rlin map fst snd]. rewrite !(var_ren "StorageUnit") by reflexivity. now rewrite spill_ren.
Qed.
Lemma stores_ren : stores n' = map rcon (stores n).
Proof.
  unfold stores. rewrite map_flat_map, of_class_ren, flat_map_map. apply flat_map_eq. intros a I. apply in_class in I.
  change (s_view (ren r a)) with (sren (cls a) (s_view a)). rewrite I. unfold StorageModel.store_balance. apply energy_ren; [reflexivity|].
  intros t. cbn [rlin map fst snd]. now rewrite (var_ren "Store") by reflexivity.
Qed.
Lemma supplies_ren : supplies n' = map rcon (supplies n).
Proof.
  unfold supplies, CapModel.total_supply. rewrite of_class_ren, !flat_map_map, map_app, !map_flat_map.
  assert (S' : forall a, In a (of_class n "Generator") -> CapModel.supply_terms (w_gen n') (seq 0 (nsnaps n')) (sup_view (ren r a)) =
    rlin (CapModel.supply_terms (w_gen n) (seq 0 (nsnaps n)) (sup_view a))).
  { intros a I. apply in_class in I. unfold CapModel.supply_terms, rlin. rewrite map_map. apply map_ext. intros t. cbn [fst snd].
    cbn [sup_view ren CapModel.u_active CapModel.u_name on flag nm cls]. rewrite I. unfold on. cbn [flag]. destruct (flag a); reflexivity. }
  f_equal; apply flat_map_eq; intros a I; cbn [sup_view ren CapModel.u_min CapModel.u_max e_min e_max].
  - destruct (e_min a); [|reflexivity]. cbn [map]. unfold rcon. cbn [lhs sns rhs]. now rewrite <- S'.
  - destruct (e_max a); [|reflexivity]. cbn [map]. unfold rcon. cbn [lhs sns rhs]. now rewrite <- S'.
Qed.
Lemma loss_rows_ren c : class_of c = None -> losses n' c = option_map (map rcon) (losses n c).
Proof.
  intros K. unfold losses. change (lossy n') with (lossy n). destruct (lossy n); [|reflexivity].
  rewrite (view_ren lo_view loren c) by reflexivity. now apply losses_ren.
Qed.

(* limits *)
Definition gren (g : LimitModel.gen) : LimitModel.gen :=
  {| LimitModel.g_name := to r "Generator" (LimitModel.g_name g); LimitModel.g_carrier := LimitModel.g_carrier g; LimitModel.g_active := LimitModel.g_active g;
     LimitModel.g_eff := LimitModel.g_eff g |}.
Definition stren (c : string) (s : LimitModel.sto) : LimitModel.sto :=
  {| LimitModel.st_of := sren c (LimitModel.st_of s); LimitModel.st_carrier := LimitModel.st_carrier s |}.
Lemma final_ren c lev s sel : class_of lev = Some c -> LimitModel.final_label lev (sren c s) sel = rl (LimitModel.final_label lev s sel).
Proof.
  intros K. unfold LimitModel.final_label. change (@None var) with (rl None) at 1. generalize (@None var) as acc. induction sel as [|t sel IH]; intros acc; [reflexivity|].
  cbn [fold_left]. rewrite <- IH. f_equal. unfold StorageModel.level. rewrite var_ren by exact K. destruct (StorageModel.var_of s lev t); reflexivity.
Qed.
Lemma nonempty_map {A B} (g : A -> B) l : LimitModel.nonempty (map g l) = LimitModel.nonempty l.
Proof. destruct l; reflexivity. Qed.
Lemma lim_gens attr : LimitModel.gens (lim_net n' attr) = map gren (LimitModel.gens (lim_net n attr)).
Proof. exact (view_ren g_view (fun c g => {| LimitModel.g_name := to r c (LimitModel.g_name g); LimitModel.g_carrier := LimitModel.g_carrier g; LimitModel.g_active := LimitModel.g_active g;
     LimitModel.g_eff := LimitModel.g_eff g |}) "Generator" (fun a => eq_refl)). Qed.
Lemma lim_units attr : LimitModel.units (lim_net n' attr) = map (stren "StorageUnit") (LimitModel.units (lim_net n attr)).
Proof. exact (view_ren st_view stren "StorageUnit" (fun a => eq_refl)). Qed.
Lemma lim_stores attr : LimitModel.stores (lim_net n' attr) = map (stren "Store") (LimitModel.stores (lim_net n attr)).
Proof. exact (view_ren st_view stren "Store" (fun a => eq_refl)). Qed.
Lemma limit_con_ren attr em coef g sel : (forall x t, coef (gren x) t = coef x t) ->
  LimitModel.limit_con (lim_net n' attr) em coef g sel = option_map rcon (LimitModel.limit_con (lim_net n attr) em coef g sel).
Proof.
  intros Hc. unfold LimitModel.limit_con.
  assert (G : LimitModel.my_gens (lim_net n' attr) em = map gren (LimitModel.my_gens (lim_net n attr) em)).
  { unfold LimitModel.my_gens. now rewrite lim_gens, filter_map. }
  assert (U : LimitModel.my_units (lim_net n' attr) em = map (stren "StorageUnit") (LimitModel.my_units (lim_net n attr) em)).
  { unfold LimitModel.my_units. now rewrite lim_units, filter_map. }
  assert (W : LimitModel.my_stores (lim_net n' attr) em = map (stren "Store") (LimitModel.my_stores (lim_net n attr) em)).
  { unfold LimitModel.my_stores. now rewrite lim_stores, filter_map. }
  rewrite G, U, W, !nonempty_map. destruct (_ || _)%bool; [|reflexivity]. cbn [option_map]. f_equal. unfold rcon. cbn [lhs sns rhs]. rewrite !rlin_app.
  assert (St : forall c lev l, class_of lev = Some c -> LimitModel.sto_terms em lev (map (stren c) l) sel = rlin (LimitModel.sto_terms em lev l sel)).
  { intros c lev l K. unfold LimitModel.sto_terms, rlin. rewrite !map_map. apply map_ext. intros s. cbn [fst snd stren LimitModel.st_of LimitModel.st_carrier].
    now rewrite final_ren. }
  rewrite !St by reflexivity.
  assert (In_ : forall c l, LimitModel.initial_of em (map (stren c) l) = LimitModel.initial_of em l).
  { intros c l. unfold LimitModel.initial_of. rewrite fold_right_map. reflexivity. }
  rewrite !In_.
  assert (Gt : LimitModel.gen_terms (lim_net n' attr) em coef sel = rlin (LimitModel.gen_terms (lim_net n attr) em coef sel)).
  { unfold LimitModel.gen_terms, rlin. rewrite G, map_flat_map, flat_map_map. apply flat_map_eq. intros g0 _. rewrite map_map. apply map_ext. intros t.
    cbn [fst snd]. rewrite Hc. unfold LimitModel.gen_var. cbn [gren LimitModel.g_active LimitModel.g_name LimitModel.g_carrier].
    destruct (LimitModel.g_active g0 t); reflexivity. }
  rewrite Gt. reflexivity.
Qed.

(* capacities *)
Definition kren (c : string) (a : CapModel.asset) : CapModel.asset :=
  {| CapModel.k_class := CapModel.k_class a; CapModel.k_name := to r c (CapModel.k_name a); CapModel.k_bus := bto r (CapModel.k_bus a);
     CapModel.k_carrier := CapModel.k_carrier a; CapModel.k_in := CapModel.k_in a; CapModel.k_ext := CapModel.k_ext a; CapModel.k_length := CapModel.k_length a;
     CapModel.k_capital := CapModel.k_capital a |}.
Lemma kcls_ren c : CapModel.cls (k_net n') c = map (kren c) (CapModel.cls (k_net n) c).
Proof.
  unfold CapModel.cls. cbn [k_net CapModel.assets renamed assets]. rewrite !filter_map, !map_map. cbn [k_view CapModel.k_class ren cls].
  apply map_ext_in. intros a I. apply filter_In in I. destruct I as [_ E]. apply String.eqb_eq in E. unfold k_view, kren. cbn. now rewrite E.
Qed.
Lemma ext_i_ren c : CapModel.ext_i (k_net n') c = map (kren c) (CapModel.ext_i (k_net n) c).
Proof. unfold CapModel.ext_i. now rewrite kcls_ren, filter_map. Qed.
Lemma nom_label_ren c at_ a : class_of c = None -> CapModel.nom_label c at_ (kren c a) = rl (CapModel.nom_label c at_ a).
Proof. intros K. unfold CapModel.nom_label, CapModel.vname. cbn [rl option_map]. now rewrite v2_class. Qed.
Lemma cnonempty_map {A B} (g : A -> B) l : CapModel.nonempty (map g l) = CapModel.nonempty l.
Proof. destruct l; reflexivity. Qed.
Definition rout (o : CapModel.outcome) : CapModel.outcome :=
  match o with CapModel.Written c => CapModel.Written (rcon c) | _ => o end.
Lemma named_ren g c : CapModel.t_named (k_net n') g c = map (kren c) (CapModel.t_named (k_net n) g c).
Proof. unfold CapModel.t_named. now rewrite ext_i_ren, filter_map. Qed.
Lemma t_terms_ren g coef c at_ : class_of c = None -> (forall a, coef (kren c a) = coef a) ->
  CapModel.t_terms (k_net n') g coef (c, at_) = rlin (CapModel.t_terms (k_net n) g coef (c, at_)).
Proof.
  intros K H. unfold CapModel.t_terms, rlin. cbn [fst snd]. rewrite named_ren, filter_map, !map_map. apply map_ext. intros a. cbn [fst snd].
  now rewrite H, nom_label_ren.
Qed.
Lemma transmission_ren g pres pres' coef coef' : (forall c, pres' c = pres c) -> (forall c a, coef' (kren c a) = coef a) -> (forall a, coef' a = coef a) ->
  CapModel.transmission (k_net n') g pres' coef' = rout (CapModel.transmission (k_net n) g pres coef).
Proof.
  intros E F F0. unfold CapModel.transmission. cbn [CapModel.branches existsb fst]. rewrite !E. destruct (_ || _)%bool; [|reflexivity].
  change (CapModel.bad_period (k_net n') (CapModel.t_period g)) with (CapModel.bad_period (k_net n) (CapModel.t_period g)).
  destruct (CapModel.bad_period _ _); [reflexivity|]. cbn [rout]. f_equal. unfold rcon. cbn [lhs sns rhs]. f_equal.
  cbn [CapModel.branches flat_map fst]. rewrite !E, !rlin_app.
  assert (T : forall c at_, class_of c = None -> CapModel.t_terms (k_net n') g coef' (c, at_) = rlin (CapModel.t_terms (k_net n) g coef (c, at_))).
  { intros c at_ K. unfold CapModel.t_terms, rlin. cbn [fst snd]. rewrite named_ren, filter_map, !map_map. apply map_ext. intros a. cbn [fst snd].
    now rewrite F, nom_label_ren. }
  rewrite !T by reflexivity. destruct (pres "Line"), (pres "Link"); reflexivity.
Qed.
Lemma rows_ren o : rows (rout o) = option_map (map rcon) (rows o).
Proof. destruct o; reflexivity. Qed.
Lemma rows_of_ren o : rows_of (option_map rcon o) = option_map (map rcon) (rows_of o).
Proof. destruct o; reflexivity. Qed.

Lemma limit_ren l : limit_rows n' l = option_map (map rcon) (limit_rows n l).
Proof.
  destruct l as [attr s q|c s q|cs s q|cs s q]; cbn [limit_rows].
  - rewrite <- rows_of_ren. f_equal. unfold LimitModel.primary_energy.
    change (LimitModel.selected (lim_net n' attr)) with (LimitModel.selected (lim_net n attr)).
    change (LimitModel.emissions (lim_net n' attr)) with (LimitModel.emissions (lim_net n attr)).
    destruct (LimitModel.selected _ _); [|reflexivity]. destruct (LimitModel.nonempty _); [|reflexivity].
    change (LimitModel.weight (lim_net n' attr)) with (LimitModel.weight (lim_net n attr)). apply limit_con_ren. reflexivity.
  - rewrite <- rows_of_ren. f_equal. unfold LimitModel.operational_limit.
    change (LimitModel.selected (lim_net n' c)) with (LimitModel.selected (lim_net n c)).
    destruct (LimitModel.selected _ _); [|reflexivity].
    change (LimitModel.weight (lim_net n' c)) with (LimitModel.weight (lim_net n c)). apply limit_con_ren. reflexivity.
  - rewrite <- rows_ren. f_equal. unfold CapModel.volume_limit. apply transmission_ren; [|reflexivity|reflexivity].
    intros c. now rewrite named_ren, cnonempty_map.
  - rewrite <- rows_ren. f_equal. unfold CapModel.cost_limit. cbn [k_net CapModel.multi]. rewrite !andb_false_r. cbn [andb].
    apply transmission_ren; [|reflexivity|reflexivity]. intros c. now rewrite ext_i_ren, cnonempty_map.
Qed.

Lemma tech_ren ca p c : CapModel.tech_assets (k_net n') ca p c = map (kren c) (CapModel.tech_assets (k_net n) ca p c).
Proof. unfold CapModel.tech_assets. now rewrite ext_i_ren, !filter_map. Qed.
Lemma column_ren col : column_rows n' (ren_column r col) = option_map (map rcon) (column_rows n col).
Proof.
  unfold column_rows, CapModel.bus_column. cbn [ren_column CapModel.col_name CapModel.col_val].
  change (CapModel.parse (k_net n') (carriers n') false (fun _ => None) (CapModel.col_name col)) with
    (CapModel.parse (k_net n) (carriers n) false (fun _ => None) (CapModel.col_name col)).
  destruct (CapModel.parse _ _ _ _ _) as [s ca p| |]; [|reflexivity|reflexivity]. cbn [option_map]. f_equal.
  assert (B : CapModel.bus_any (k_net n') ca p = CapModel.bus_any (k_net n) ca p).
  { unfold CapModel.bus_any. apply existsb_eq. intros [c at_]. cbn [fst]. now rewrite tech_ren, cnonempty_map. }
  rewrite B. destruct (CapModel.bus_any (k_net n) ca p); [|reflexivity]. cbn [renamed buses]. rewrite map_flat_map, flat_map_map. apply flat_map_eq. intros b _.
  destruct P as (_ & _ & Q1 & _). rewrite Q1. destruct (CapModel.col_val col b); [|reflexivity]. cbn [map]. unfold rcon. cbn [lhs sns rhs]. do 2 f_equal.
  unfold CapModel.bus_terms, rlin. rewrite map_flat_map. apply flat_map_eq. intros [c at_] I. cbn [fst snd].
  assert (K : class_of c = None) by (apply (in_map fst) in I; now apply classes_plain).
  change (CapModel.has_carrier (k_net n') c) with (CapModel.has_carrier (k_net n) c).
  destruct (_ && _)%bool; [|reflexivity]. rewrite tech_ren, filter_map, !map_map. cbn [kren CapModel.k_bus].
  erewrite filter_ext by (intros a; apply eqb_bus). apply map_ext. intros a. cbn [fst snd]. now rewrite nom_label_ren.
Qed.

(* ---------- the rows together ---------- *)
Definition follows (o o' : option (list con)) : Prop :=
  match o, o' with
  | Some cs, Some cs' => forall x, sat x (CapModel.problem cs') <-> sat (old x) (CapModel.problem cs)
  | None, None => True
  | _, _ => False
  end.
Lemma follows_map o : follows o (option_map (map rcon) o).
Proof. destruct o as [cs|]; [|exact I]. intros x. apply sat_rl. Qed.
Lemma sat_problem_app x a b : sat x (CapModel.problem (a ++ b)) <-> sat x (CapModel.problem a) /\ sat x (CapModel.problem b).
Proof.
  unfold CapModel.problem. rewrite filter_app. unfold sat. split.
  - intros H. split; intros c I; apply H, in_or_app; auto.
  - intros [A B] c I. apply in_app_or in I. destruct I; auto.
Qed.
Lemma follows_collect l l' : Forall2 follows l l' -> follows (collect l) (collect l').
Proof.
  induction 1 as [|o o' l l' H F IH]; cbn [collect]; [intros x; exact (sat_rl x [])|].
  destruct o as [cs|], o' as [cs'|]; try contradiction; [|exact I].
  destruct (collect l) as [r1|], (collect l') as [r2|]; try contradiction; [|exact I]. cbn [option_map follows]. intros x.
  rewrite !sat_problem_app, (H x), (IH x). reflexivity.
Qed.
Lemma passive_ren : filter passive (assets n') = map (ren r) (filter passive (assets n)).
Proof. cbn [renamed assets]. now rewrite filter_map. Qed.
Lemma follows_map_eq o o' : o' = option_map (map rcon) o -> follows o o'.
Proof. intros ->. apply follows_map. Qed.

Variable kvl : list asset -> list con.
Hypothesis K : kvl_nameless r kvl.

Lemma model_follows : follows (create_model kvl n) (create_model kvl n').
Proof.
  unfold create_model, parts. apply follows_collect. apply Forall2_app; [|apply Forall2_app].
  - repeat apply Forall2_cons; try apply Forall2_nil.
    + intros x. rewrite capacity_ren. apply sat_rl.
    + intros x. rewrite operation_ren. apply sat_rl.
    + apply follows_map_eq, balances_ren.
    + intros x. rewrite passive_ren. apply K. intros a I. now apply filter_In in I.
    + intros x. rewrite units_ren. apply sat_rl.
    + intros x. rewrite stores_ren. apply sat_rl.
    + intros x. rewrite supplies_ren. apply sat_rl.
    + now apply follows_map_eq, loss_rows_ren.
    + now apply follows_map_eq, loss_rows_ren.
  - cbn [renamed limits]. induction (limits n) as [|l ls IH]; cbn [map]; constructor; [|exact IH]. apply follows_map_eq, limit_ren.
  - cbn [renamed columns]. induction (columns n) as [|l ls IH]; cbn [map]; constructor; [|exact IH]. apply follows_map_eq, column_ren.
Qed.

(* ---------- objective ---------- *)
Definition oren (c : string) (a : ObjectiveModel.asset) : ObjectiveModel.asset :=
  {| ObjectiveModel.a_class := ObjectiveModel.a_class a; ObjectiveModel.a_name := to r c (ObjectiveModel.a_name a); ObjectiveModel.a_flag := ObjectiveModel.a_flag a;
     ObjectiveModel.a_in := ObjectiveModel.a_in a; ObjectiveModel.a_on := ObjectiveModel.a_on a; ObjectiveModel.a_ext := ObjectiveModel.a_ext a;
     ObjectiveModel.a_com := ObjectiveModel.a_com a; ObjectiveModel.a_nom := ObjectiveModel.a_nom a; ObjectiveModel.a_capital := ObjectiveModel.a_capital a;
     ObjectiveModel.a_marginal := ObjectiveModel.a_marginal a; ObjectiveModel.a_storage := ObjectiveModel.a_storage a; ObjectiveModel.a_spill := ObjectiveModel.a_spill a;
     ObjectiveModel.a_quadratic := ObjectiveModel.a_quadratic a; ObjectiveModel.a_standby := ObjectiveModel.a_standby a; ObjectiveModel.a_start := ObjectiveModel.a_start a;
     ObjectiveModel.a_shut := ObjectiveModel.a_shut a; ObjectiveModel.a_inflow := ObjectiveModel.a_inflow a |}.
Notation on' := (o_net n').
Notation on0 := (o_net n).
Lemma ocls_ren c : ObjectiveModel.cls on' c = map (oren c) (ObjectiveModel.cls on0 c).
Proof.
  unfold ObjectiveModel.cls. cbn [o_net ObjectiveModel.assets renamed assets]. rewrite !filter_map, !map_map. cbn [o_view ObjectiveModel.a_class ren cls].
  apply map_ext_in. intros a I. apply filter_In in I. destruct I as [_ E]. apply String.eqb_eq in E. unfold o_view, oren. cbn. now rewrite E.
Qed.
Lemma oext_ren c : ObjectiveModel.ext on' c = map (oren c) (ObjectiveModel.ext on0 c).
Proof. unfold ObjectiveModel.ext. now rewrite ocls_ren, filter_map. Qed.
Lemma ocom_ren c : ObjectiveModel.com on' c = map (oren c) (ObjectiveModel.com on0 c).
Proof. unfold ObjectiveModel.com. now rewrite ocls_ren, filter_map. Qed.
Lemma ononempty {A B} (g : A -> B) l : ObjectiveModel.nonempty (map g l) = ObjectiveModel.nonempty l.
Proof. destruct l; reflexivity. Qed.
Lemma oop_ren c attr a t : class_of c = None -> ObjectiveModel.op_label c attr (oren c a) t = rl (ObjectiveModel.op_label c attr a t).
Proof.
  intros Kc. unfold ObjectiveModel.op_label, ObjectiveModel.vname. cbn zeta. cbn [oren ObjectiveModel.a_on ObjectiveModel.a_inflow ObjectiveModel.a_name].
  destruct (_ && _)%bool; [|reflexivity]. cbn [rl option_map]. now rewrite v2_class.
Qed.
Lemma constant_ren : ObjectiveModel.constant on' = ObjectiveModel.constant on0.
Proof.
  unfold ObjectiveModel.constant. generalize ObjectiveModel.nominal. intros l. induction l as [|[c at_] l IH]; [reflexivity|]. cbn [fold_right fst].
  rewrite IH, oext_ren, fold_right_map. reflexivity.
Qed.
Definition rpiece (p : ObjectiveModel.piece) : ObjectiveModel.piece :=
  match p with ObjectiveModel.Linear l => ObjectiveModel.Linear (rlin l) | ObjectiveModel.Square l => ObjectiveModel.Square (rlin l) | _ => p end.
Lemma terms_ren f c lab lab' l : (forall a t, f (oren c a) t = f a t) -> (forall a t, lab' (oren c a) t = rl (lab a t)) ->
  ObjectiveModel.terms on' f lab' (map (oren c) l) = rlin (ObjectiveModel.terms on0 f lab l).
Proof.
  intros F L. unfold ObjectiveModel.terms, rlin. rewrite map_flat_map, flat_map_map. apply flat_map_eq. intros a _. rewrite map_map. apply map_ext. intros t.
  cbn [fst snd]. now rewrite F, L.
Qed.
Lemma charged_ren f c l : (forall a t, f (oren c a) t = f a t) ->
  filter (ObjectiveModel.charged on' f) (map (oren c) l) = map (oren c) (filter (ObjectiveModel.charged on0 f) l).
Proof.
  intros F. rewrite filter_map. f_equal. apply filter_ext. intros a. unfold ObjectiveModel.charged. apply existsb_eq. intros t. now rewrite F.
Qed.
Lemma array_ren c attr : ObjectiveModel.exists_array on' c attr = ObjectiveModel.exists_array on0 c attr.
Proof. unfold ObjectiveModel.exists_array. rewrite ocls_ren. destruct (ObjectiveModel.is_spill _); [now rewrite existsb_map|apply ononempty]. Qed.
Lemma ooperation_ren sq f rws : (forall l, sq (rlin l) = rpiece (sq l)) -> (forall c a t, f (oren c a) t = f a t) ->
  (forall ca, In ca rws -> class_of (fst ca) = None) ->
  ObjectiveModel.operation on' sq f rws = map rpiece (ObjectiveModel.operation on0 sq f rws).
Proof.
  intros S' F R. unfold ObjectiveModel.operation. rewrite map_flat_map. apply flat_map_eq. intros [c attr] I. cbn [fst snd]. cbn zeta.
  rewrite ocls_ren, charged_ren by (intros; apply F). rewrite ononempty. destruct (ObjectiveModel.nonempty _); [|reflexivity]. rewrite array_ren.
  destruct (ObjectiveModel.exists_array _ _ _); [|reflexivity]. cbn [map]. f_equal. rewrite <- S'. f_equal. apply terms_ren; [intros; apply F|].
  intros. apply oop_ren. exact (R _ I).
Qed.
Lemma pieces_ren : ObjectiveModel.pieces on' = map rpiece (ObjectiveModel.pieces on0).
Proof.
  unfold ObjectiveModel.pieces. rewrite !map_app, constant_ren.
  f_equal; [destruct (Qeq_bool _ 0); reflexivity|].
  do 4 (f_equal; [apply ooperation_ren; [reflexivity|reflexivity|intros ca I; repeat (destruct I as [<-|I]; [reflexivity|]); destruct I]|]).
  f_equal.
  { unfold ObjectiveModel.standby. rewrite map_flat_map. apply flat_map_eq. intros c I.
    assert (Kc : class_of c = None) by (destruct I as [<-|[<-|[]]]; reflexivity).
    rewrite ocom_ren, ononempty. destruct (ObjectiveModel.nonempty _); [|reflexivity]. cbn [map rpiece]. do 2 f_equal.
    rewrite charged_ren by reflexivity. apply terms_ren; [reflexivity|]. intros. now apply oop_ren. }
  f_equal.
  { unfold ObjectiveModel.investment. rewrite map_flat_map. apply flat_map_eq. intros [c at_] I. cbn [fst snd].
    assert (Kc : class_of c = None) by (apply (in_map fst) in I; now apply classes_plain).
    rewrite oext_ren, ononempty. destruct (ObjectiveModel.nonempty _); [|reflexivity]. cbn [map rpiece]. do 2 f_equal.
    unfold rlin. rewrite !map_map. apply map_ext. intros a. cbn [fst snd]. f_equal. unfold ObjectiveModel.nom_label, ObjectiveModel.vname. cbn [rl option_map].
    now rewrite v2_class. }
  assert (W : forall attr f, (forall c a, f (oren c a) = f a) -> ObjectiveModel.switching on' attr f = map rpiece (ObjectiveModel.switching on0 attr f)).
  { intros attr f F. unfold ObjectiveModel.switching. rewrite map_flat_map. apply flat_map_eq. intros c I.
    assert (Kc : class_of c = None) by (destruct I as [<-|[<-|[]]]; reflexivity).
    rewrite ocom_ren, fold_right_map.
    assert (E : fold_right (fun a q => f (oren c a) + q) 0 (ObjectiveModel.com on0 c) = fold_right (fun a q => f a + q) 0 (ObjectiveModel.com on0 c)).
    { induction (ObjectiveModel.com on0 c) as [|a l IH]; [reflexivity|]. cbn [fold_right]. now rewrite IH, F. }
    rewrite E. destruct (Qeq_bool _ 0); [reflexivity|]. cbn [map rpiece]. do 2 f_equal. unfold rlin. rewrite map_flat_map, flat_map_map.
    apply flat_map_eq. intros a _. rewrite map_map. apply map_ext. intros t. cbn [fst snd]. now rewrite F, oop_ren. }
  f_equal; apply W; reflexivity.
Qed.
Lemma square_rl x l : ObjectiveModel.square x (rlin l) = ObjectiveModel.square (old x) l.
Proof. induction l as [|[c v] l IH]; [reflexivity|]. cbn [rlin map ObjectiveModel.square fst snd]. fold (rlin l). now rewrite IH, val_rl. Qed.
Lemma piece_rl x p : ObjectiveModel.piece_value x (rpiece p) = ObjectiveModel.piece_value (old x) p.
Proof. destruct p; cbn [rpiece ObjectiveModel.piece_value]; [apply eval_rl|apply square_rl|reflexivity]. Qed.
Lemma cost_ren x : cost n' x = cost n (old x).
Proof.
  unfold cost, define_objective, ObjectiveModel.objective. rewrite pieces_ren, existsb_map.
  assert (E : existsb (fun a => ObjectiveModel.is_missing (rpiece a)) (ObjectiveModel.pieces on0) = existsb ObjectiveModel.is_missing (ObjectiveModel.pieces on0)).
  { apply existsb_eq. intros [l|l|]; reflexivity. }
  rewrite E, ononempty. clear E; destruct (existsb _ _); [reflexivity|]. destruct (ObjectiveModel.nonempty _); [|reflexivity]. cbn [option_map]. f_equal.
  unfold ObjectiveModel.value_of. rewrite fold_right_map. induction (ObjectiveModel.pieces on0) as [|p l IH]; [reflexivity|]. cbn [fold_right].
  rewrite piece_rl. f_equal. apply IH. 
Qed.

(* ---------- domains ---------- *)
Hypothesis C : forall a, In a (assets n) -> In (cls a) classes.
Lemma v2_known a s t : In a (assets n) -> v2 ((cls a ++ "-" ++ s)%string, t, nm a) = ((cls a ++ "-" ++ s)%string, t, nm (ren r a)).
Proof. intros I. apply v2_class. now apply classes_plain, C. Qed.
Lemma domains_ren x : domains n' x <-> domains n (old x).
Proof.
  unfold domains. change (lossy n') with (lossy n). change (linear n') with (linear n). change (nsnaps n') with (nsnaps n). cbn [renamed assets].
  assert (Q5 : ObjectiveModel.const_fixed on' x <-> ObjectiveModel.const_fixed on0 (old x)).
  { unfold ObjectiveModel.const_fixed. rewrite constant_ren. reflexivity. }
  rewrite Q5. split; intros (D1 & D2 & D3 & D4 & D5); (split; [|split; [|split; [|split; [|exact D5]]]]).
  - intros a I E M. destruct (D1 (ren r a) (in_map _ _ _ I) E M) as [z Z]. exists z. unfold old_names.
    change (cls a ++ "-n_mod")%string with (cls a ++ "-" ++ "n_mod")%string. now rewrite v2_known.
  - intros a I E. specialize (D2 (ren r a) (in_map _ _ _ I) E). change (u_view (ren r a)) with (uren (cls a) (u_view a)) in D2.
    cbn [ren cls] in D2. assert (Kc := classes_plain _ (C a I)). destruct (linear n); [now apply relaxed_ren|now apply binary_ren].
  - intros a I E t v T V. specialize (D3 (ren r a) (in_map _ _ _ I) E t). change (s_view (ren r a)) with (sren (cls a) (s_view a)) in D3. rewrite E in D3.
    change (unit_data n' (ren r a)) with (unit_data n a) in D3. specialize (D3 (v2 v) T). rewrite spill_ren, V in D3. now apply D3.
  - intros a t I Pa L T F. specialize (D4 (ren r a) t (in_map _ _ _ I) Pa L T F). unfold old_names.
    change (cls a ++ "-loss")%string with (cls a ++ "-" ++ "loss")%string. now rewrite v2_known.
  - intros a' I E M. apply in_map_iff in I. destruct I as (a & <- & I). destruct (D1 a I E M) as [z Z]. exists z. unfold old_names in Z.
    change (cls a ++ "-n_mod")%string with (cls a ++ "-" ++ "n_mod")%string in Z. now rewrite v2_known in Z.
  - intros a' I E. apply in_map_iff in I. destruct I as (a & <- & I). specialize (D2 a I E). change (u_view (ren r a)) with (uren (cls a) (u_view a)).
    cbn [ren cls]. assert (Kc := classes_plain _ (C a I)). destruct (linear n); [now apply relaxed_ren|now apply binary_ren].
  - intros a' I E t v T V. apply in_map_iff in I. destruct I as (a & <- & I). change (s_view (ren r a)) with (sren (cls a) (s_view a)) in V.
    cbn [ren cls] in E. rewrite E, spill_ren in V. change (unit_data n' (ren r a)) with (unit_data n a) in *.
    destruct (StorageModel.spill_label (s_view a) (unit_data n a) t) as [w|] eqn:Sp; [|discriminate]. cbn [rl option_map] in V. injection V as <-.
    exact (D3 a I E t w T Sp).
  - intros a' t I Pa L T F. apply in_map_iff in I. destruct I as (a & <- & I). specialize (D4 a t I Pa L T F). unfold old_names in D4.
    change (cls a ++ "-loss")%string with (cls a ++ "-" ++ "loss")%string in D4. now rewrite v2_known in D4.
Qed.

Lemma feasible_ren x : feasible kvl n' x <-> feasible kvl n (old x).
Proof.
  assert (M := model_follows). unfold feasible. split.
  - intros (cs & E & S' & D). rewrite E in M. destruct (create_model kvl n) as [cs0|]; [|contradiction]. exists cs0. split; [reflexivity|].
    split; [now apply M|now apply domains_ren].
  - intros (cs & E & S' & D). rewrite E in M. destruct (create_model kvl n') as [cs0|]; [|contradiction]. exists cs0. split; [reflexivity|].
    split; [now apply M|now apply domains_ren].
Qed.

(* every solution under the old names is one of the renamed network read back *)
Definition new_names (y : sol) : sol :=
  fun v => match v with (s, t, a) => match class_of s with Some c => y (s, t, from r c a) | None => y v end end.
Lemma old_new y v : old (new_names y) v = y v.
Proof.
  destruct v as [[s t] a]. unfold old_names, var_to. destruct (class_of s) as [c|] eqn:E; unfold new_names; rewrite E; [|reflexivity].
  destruct P as (Q1 & _). now rewrite Q1.
Qed.
Lemma optimal_ren x : optimal kvl n' x <-> optimal kvl n (old x).
Proof.
  unfold optimal. rewrite feasible_ren, cost_ren. split; intros (F & q & E & H); (split; [exact F|]; exists q; split; [exact E|]); intros y q' Fy Ey.
  - assert (X : forall v, y v == old (new_names y) v) by (intros v; now rewrite old_new).
    destruct (cost n (old (new_names y))) as [q2|] eqn:E2.
    + assert (Q : q2 == q').
      { unfold cost in *. destruct (define_objective n) as [ps|]; [|discriminate]. cbn [option_map] in *. injection E2 as <-. injection Ey as <-.
        symmetry. now apply UnitProofs.value_ext. }
      rewrite <- Q. apply (H (new_names y)); [|now rewrite cost_ren]. apply feasible_ren. now apply (UnitProofs.feasible_ext kvl n y).
    + exfalso. unfold cost in *. destruct (define_objective n); discriminate.
  - rewrite cost_ren in Ey. apply (H (old y)); [now apply feasible_ren|exact Ey].
Qed.
Lemma defined_ren : create_model kvl n' = None <-> create_model kvl n = None.
Proof. assert (M := model_follows). destruct (create_model kvl n), (create_model kvl n'); try contradiction; split; congruence. Qed.
End R.
