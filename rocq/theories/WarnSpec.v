From Coq Require Import List String Bool QArith ZArith Arith.
From Verif Require Import LinModel WholeModel IdleSpec WarnModel.
Import ListNotations.
Open Scope string_scope.
Open Scope list_scope.
Open Scope Q_scope.

(* what a message should mean *)
Definition in_class (n : net) (c i : string) (P : asset -> Prop) : Prop := exists a, In a (assets n) /\ cls a = c /\ nm a = i /\ P a.
Definition no_capacity (a : asset) : Prop := exists u, nom_max a = Some u /\ u < nom_min a.
Definition no_sum (a : asset) : Prop := exists l u, e_min a = Some l /\ e_max a = Some u /\ u < l.
Definition up_and_down (a : asset) : Prop := committable a = true /\ (0 < up_before a)%nat /\ (0 < down_before a)%nat.
Definition mentioned (n : net) (f : list string -> warning) (i : string) : Prop := exists names, In (f names) (warnings n) /\ In i names.
Definition mentioned_at (n : net) (c i : string) (t : nat) : Prop := exists ts, In (Operational_limits c i ts) (warnings n) /\ In t ts.

(* networks in which capacity limits and per-unit limits are all there is to an asset *)
Record simple (n : net) : Prop := {
  si_classes : forall a, In a (assets n) -> In (cls a) classes;
  si_uc : forall a, In a (assets n) -> committable a = false;
  si_modules : forall a, In a (assets n) -> nom_mod a == 0 /\ nom_set a = None;
  si_sets : forall a s t, In a (assets n) -> op_set a s t = None;
  si_ramps : forall a t, In a (assets n) -> up a t = None /\ down a t = None
}.
(* signs the checks take for granted *)
Record signs (n : net) : Prop := {
  sg_nom : forall a, In a (assets n) -> 0 <= nom a /\ 0 <= nom_min a;
  sg_branch : forall a t, In a (assets n) -> cls a = "Line" \/ cls a = "Transformer" -> 0 <= max_pu a t;
  sg_unit : forall a t, In a (assets n) -> cls a = "StorageUnit" -> min_pu a t <= 0 /\ 0 <= max_pu a t /\ 0 <= max_hours a
}.

(* the options of consistency_check(strict=...) and the messages they turn into errors *)
Definition options : list string :=
  ["unknown_buses"; "unknown_carriers"; "time_series"; "static_power_attrs"; "time_series_power_attrs"; "nans_for_component_default_attrs";
   "zero_impedances"; "zero_s_nom"; "assets"; "generators"; "disconnected_buses"; "investment_periods"; "shapes"; "dtypes"].
Definition known (strict : list string) : Prop := In "all" strict \/ forall s, In s strict -> In s options.
Definition fatal (strict : list string) (w : warning) : Prop :=
  In "all" strict \/
  match w with
  | Expansion_limits _ _ => In "static_power_attrs" strict
  | Operational_limits _ _ _ => In "time_series_power_attrs" strict
  | Both_kinds _ _ => In "assets" strict
  | Up_and_down _ | Energy_sums _ => In "generators" strict
  end.
