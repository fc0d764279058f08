From Coq Require Import List String Bool QArith ZArith Arith.
From Verif Require Import LinModel WholeModel IdleSpec.
From Verif Require CapModel.
Import ListNotations.
Open Scope string_scope.
Open Scope list_scope.
Open Scope Q_scope.

(* the limits among the attributes of an asset *)
Record lims := {
  z_nom : Q; z_nom_min : Q; z_nom_max : option Q; z_nom_set : option Q; z_min_pu : nat -> Q; z_max_pu : nat -> Q; z_hours : Q;
  z_set : string -> nat -> option Q; z_up : nat -> option Q; z_down : nat -> option Q; z_ups : option Q; z_downs : option Q;
  z_min_up : nat; z_min_down : nat; z_e_min : option Q; z_e_max : option Q
}.
(* the asset with other limits *)
Definition relimit (a : asset) (z : lims) : asset :=
  {| cls := cls a; nm := nm a; bus0 := bus0 a; bus1 := bus1 a; sgn := sgn a; ports := ports a; carrier := carrier a; flag := flag a; ext := ext a; committable := committable a;
     nom := z_nom z; nom_min := z_nom_min z; nom_max := z_nom_max z; nom_set := z_nom_set z; nom_mod := nom_mod a; min_pu := z_min_pu z; max_pu := z_max_pu z; max_hours := z_hours z;
     op_set := z_set z; up := z_up z; down := z_down z; up_static := z_ups z; down_static := z_downs z; start_lim := start_lim a; shut_lim := shut_lim a;
     min_up := z_min_up z; min_down := z_min_down z; up_before := up_before a; down_before := down_before a; eff := eff a; stand := stand a; init := init a; cyclic := cyclic a;
     eff_dispatch := eff_dispatch a; eff_store := eff_store a; inflow := inflow a; capital := capital a; marginal := marginal a; storage_cost := storage_cost a;
     spill_cost := spill_cost a; quadratic := quadratic a; standby := standby a; start_cost := start_cost a; shut_cost := shut_cost a; len := len a; e_min := z_e_min z; e_max := z_e_max z; r_eff := r_eff a |}.

(* an upper, a lower limit or a target that is eased or given up; None is no limit *)
Definition raised (o o' : option Q) : Prop := forall v, o' = Some v -> exists u, o = Some u /\ u <= v.
Definition lowered (o o' : option Q) : Prop := forall v, o' = Some v -> exists u, o = Some u /\ v <= u.
Definition dropped (o o' : option Q) : Prop := o' = o \/ o' = None.
Definition eased (s : sense) (q q' : Q) : Prop := match s with Le => q <= q' | Ge => q' <= q | Eq => q == q' end.
Definition commits (a : asset) : bool := committable a && (String.eqb (cls a) "Generator" || String.eqb (cls a) "Link").

Record looser_asset (n : net) (a b : asset) : Prop := {
  (* given capacity: the range of operation grows *)
  la_fixed : ext a = false -> commits a = false -> forall t, (t < nsnaps n)%nat ->
    (passive a = false -> min_pu b t * nom b <= min_pu a t * nom a) /\ max_pu a t * nom a <= max_pu b t * nom b /\
    (cls a = "StorageUnit" -> max_hours a * nom a <= max_hours b * nom b);
  (* capacity or commitment to be decided: the range per unit of capacity grows *)
  la_free : ext a = true \/ commits a = true -> nom b = nom a /\
    forall t, (t < nsnaps n)%nat -> (passive a = false -> min_pu b t <= min_pu a t) /\ max_pu a t <= max_pu b t /\ (cls a = "StorageUnit" -> max_hours a <= max_hours b);
  la_sane : commits a = true -> 0 <= nom a;
  la_ext : ext a = true -> 0 <= nom_min a /\ nom_min b <= nom_min a /\ raised (nom_max a) (nom_max b) /\ dropped (nom_set a) (nom_set b);
  la_set : forall v t, dropped (op_set a v t) (op_set b v t);
  (* ramp limits *)
  la_up : forall t v, up b t = Some v -> exists u, up a t = Some u /\ (if ext a then u <= v else u * nom a <= v * nom b);
  la_down : forall t v, down b t = Some v -> exists u, down a t = Some u /\ (if ext a then u <= v else u * nom a <= v * nom b);
  la_static : commits a = true -> raised (up_static a) (up_static b) /\ raised (down_static a) (down_static b);
  la_times : (min_up b <= min_up a)%nat /\ (min_down b <= min_down a)%nat;
  la_sums : lowered (e_min a) (e_min b) /\ raised (e_max a) (e_max b);
  (* the limits that also enter as data stay *)
  la_tight : commits a = true -> linear n = true -> min_pu b = min_pu a /\ max_pu b = max_pu a /\ up_static b = up_static a /\ down_static b = down_static a;
  la_loss : tangents n <> O -> passive a = true -> nom b = nom a /\ max_pu b = max_pu a /\ nom_max b = nom_max a
}.
Definition looser_limit (l l' : limit) : Prop :=
  match l, l' with
  | Primary a s q, Primary a' s' q' | Operational a s q, Operational a' s' q' | Volume a s q, Volume a' s' q' | Cost a s q, Cost a' s' q' =>
      a' = a /\ s' = s /\ eased s q q'
  | _, _ => False
  end.
Definition looser_column (c c' : CapModel.column) : Prop :=
  CapModel.col_name c' = CapModel.col_name c /\
  forall b v', CapModel.col_val c' b = Some v' -> exists v, CapModel.col_val c b = Some v /\
    (String.prefix "nom_min_" (CapModel.col_name c) = true -> v' <= v) /\ (String.prefix "nom_min_" (CapModel.col_name c) = false -> v <= v').

(* the same network with looser limits *)
Record looser (kvl : list asset -> list con) (n n' : net) : Prop := {
  ln_data : loads n' = loads n /\ buses n' = buses n /\ nsnaps n' = nsnaps n /\ w_obj n' = w_obj n /\ w_gen n' = w_gen n /\ w_sto n' = w_sto n /\
    tangents n' = tangents n /\ linear n' = linear n /\ emission n' = emission n /\ carriers n' = carriers n;
  ln_assets : Forall2 (fun a b => (exists z, b = relimit a z) /\ looser_asset n a b) (assets n) (assets n');
  ln_limits : forall l', In l' (limits n') -> exists l, In l (limits n) /\ looser_limit l l';
  ln_columns : forall c', In c' (columns n') -> exists c, In c (columns n) /\ looser_column c c';
  (* Kirchhoff's voltage law is about impedances (those of transformers are relative to s_nom) *)
  ln_cycles : forall x, sat x (CapModel.problem (kvl (filter passive (assets n)))) -> sat x (CapModel.problem (kvl (filter passive (assets n'))));
  (* ramp limits that are all one are not written *)
  ln_ramps : forall c, c = "Generator" \/ c = "Link" -> (forall a, In a (assets n) -> cls a = c -> unit_ramps (nsnaps n) a) ->
    forall b, In b (assets n') -> cls b = c -> unit_ramps (nsnaps n) b
}.
