From Coq Require Import List String Ascii Bool QArith ZArith Arith.
From Verif Require Import CheckModel CheckSpec CheckProofs.
Import ListNotations.
Open Scope string_scope.
Open Scope list_scope.

(* C46: consistency_check raises exactly for the violated checks that are listed as strict, except for carriers. *)

(* without strict checks it never raises *)
Theorem C46_lenient : forall n d, well_formed n -> snd (consistency_check n d []) = None.
Proof. exact lenient. Qed.
Print Assumptions C46_lenient.

(* if it does not raise, there is a warning of each kind exactly if there is such a fault *)
Theorem C46_reports : forall n d strict, well_formed n -> valid strict -> snd (consistency_check n d strict) = None ->
  forall k, (exists c i, In (Found k c i) (fst (consistency_check n d strict))) <-> violated n d k.
Proof. exact reports. Qed.
Print Assumptions C46_reports.

(* it raises exactly for a fault asked for, whatever the order in which components are visited *)
Theorem C46_strict : forall n d strict, well_formed n -> valid strict ->
  (snd (consistency_check n d strict) <> None <-> exists k, asked strict k /\ k <> "unknown_carriers" /\ violated n d k).
Proof. exact strict_raises. Qed.
Print Assumptions C46_strict.

(* the exception is for the first such fault; those before it have been logged *)
Theorem C46_error : forall n d strict err, well_formed n -> valid strict -> snd (consistency_check n d strict) = Some err ->
  exists k c i post, asked strict k /\ violated n d k /\ fst (consistency_check n d []) = fst (consistency_check n d strict) ++ Found k c i :: post /\
    err = if String.eqb k "investment_periods" then ValueError else ConsistencyError k.
Proof. exact strict_error. Qed.
Print Assumptions C46_error.

(* an unknown word is refused before anything is checked *)
Theorem C46_invalid : forall n d strict, ~ valid strict -> consistency_check n d strict = ([], Some ValueError).
Proof. exact invalid. Qed.
Print Assumptions C46_invalid.

(* the components listed for unknown buses are exactly those with one *)
Theorem C46_unknown_buses : forall n d c i, well_formed n ->
  (exists l, In (Found "unknown_buses" c l) (fst (consistency_check n d [])) /\ In i l) <-> exists t, In t (tables n) /\ t_class t = c /\ unknown_bus n t i.
Proof. exact items. Qed.
Print Assumptions C46_unknown_buses.

(* no report on operational limits: they are numbers and leave room for dispatch at every snapshot *)
Theorem C46_limits : forall n d t a i k p, well_formed n -> ~ violated n d "time_series_power_attrs" -> In t (tables n) -> t_class t <> "TransformerType" -> In i (t_index t) ->
  first_attr t limit_attr a -> at_name a = (p ++ "_max_pu")%string -> String.length p = 1%nat ->
  (k < List.length (values n t (p ++ "_max_pu") i))%nat -> (k < List.length (values n t (p ++ "_min_pu") i))%nat ->
  (forall v, In v (values n t (p ++ "_max_pu") i) \/ In v (values n t (p ++ "_min_pu") i) -> numeric v) ->
  exists lo hi, nth k (values n t (p ++ "_min_pu") i) NaN = Num lo /\ nth k (values n t (p ++ "_max_pu") i) NaN = Num hi /\ (lo <= hi)%Q.
Proof. exact uncrossed. Qed.
Print Assumptions C46_limits.

(* no valid strict list makes an unknown carrier an error; the word that would is refused *)
Theorem C46_carriers_refuted : exists n, well_formed n /\ violated n false "unknown_carriers" /\
  (forall strict, valid strict -> snd (consistency_check n false strict) = None) /\ consistency_check n false ["unkown_carriers"] = ([], Some ValueError).
Proof. exact (ex_intro _ carrier_net carriers_lenient). Qed.
Print Assumptions C46_carriers_refuted.

(* a user's column bus_region makes the check fail although all ports exist *)
Theorem C46_bus_column_refuted : exists n, (forall t k f i, In t (tables n) -> In (k, f) (t_cols t) -> In k ["bus0"; "bus1"] -> In i (t_index t) -> exists b, f i = Str b /\ defined n "Bus" b) /\
  snd (consistency_check n false []) = Some ValueError.
Proof. exact (ex_intro _ region_net custom_port). Qed.
Print Assumptions C46_bus_column_refuted.

(* a global constraint without a bus next to one with a bus is an error in n.optimize() *)
Theorem C46_global_constraint_refuted : exists n,
  (forall t k f i, In t (tables n) -> holds t k f -> at_port k -> In i (t_index t) -> t_class t = "GlobalConstraint" /\ (f i = NaN \/ exists b, f i = Str b /\ defined n "Bus" b)) /\
  consistency_check n false ["unknown_buses"] = ([], Some (ConsistencyError "unknown_buses")).
Proof. exact (ex_intro _ limits_net mixed_constraints_case). Qed.
Print Assumptions C46_global_constraint_refuted.

(* the exception of investment periods is no ConsistencyError *)
Theorem C46_error_class_refuted : exists n, violated n false "investment_periods" /\ snd (consistency_check n false ["investment_periods"]) = Some ValueError.
Proof. exact (ex_intro _ period_net (conj period_fault period_error)). Qed.
Print Assumptions C46_error_class_refuted.

(* non-vacuity *)
Example sick_log : fst (consistency_check sick false []) = [Found "unknown_buses" "Line" ["l"]; Found "zero_impedances" "Line" ["l"]; Found "disconnected_buses" "" ["lone"]].
Proof. reflexivity. Qed.
Example sick_ok : well_formed sick /\ valid ["zero_impedances"] /\ snd (consistency_check sick false ["zero_impedances"]) = Some (ConsistencyError "zero_impedances").
Proof. split; [exact sick_wf|]. split; [right; intros x [<-|[]]; cbn; auto 8|reflexivity]. Qed.
Example not_valid : ~ valid ["unkown_carriers"].
Proof. intros [[H|[]]|H]; [discriminate|]. specialize (H "unkown_carriers" (or_introl eq_refl)). cbn in H. repeat (destruct H as [H|H]; [discriminate|]). destruct H. Qed.
Example rated_ok : well_formed rated /\ consistency_check rated true ["all"] = ([], None) /\ first_attr rated_gens limit_attr max_attr /\ values rated rated_gens "p_max_pu" "g" = [Num (1#2); Num (3#4)].
Proof. split; [exact rated_wf|]. split; [reflexivity|]. split; [|reflexivity]. exists [], []. split; [reflexivity|]. split; [split; [reflexivity|now left]|intros b []]. Qed.
