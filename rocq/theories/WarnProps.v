From Coq Require Import List String Bool QArith ZArith Arith.
From Verif Require Import LinModel WholeModel IdleSpec WarnModel WarnSpec WarnProofs.
From Verif Require CapModel IdleProofs.
Import ListNotations.
Open Scope string_scope.
Open Scope list_scope.
Open Scope Q_scope.

(* C81: the messages of the consistency check name exactly the assets they describe *)
Theorem C81_expansion_named : forall n c i, In c classes -> (mentioned n (Expansion_limits c) i <-> in_class n c i no_capacity).
Proof. exact expansion_listed. Qed.
Print Assumptions C81_expansion_named.
Theorem C81_limits_named : forall n c i t, In c ["Generator"; "Link"; "Store"; "StorageUnit"] ->
  (mentioned_at n c i t <-> (t < nsnaps n)%nat /\ in_class n c i (fun a => max_pu a t < min_pu a t)).
Proof. exact limits_listed. Qed.
Print Assumptions C81_limits_named.
Theorem C81_both_named : forall n c i, c = "Generator" \/ c = "Link" -> (mentioned n (Both_kinds c) i <-> in_class n c i (fun a => committable a = true /\ ext a = true)).
Proof. exact both_listed. Qed.
Print Assumptions C81_both_named.
Theorem C81_updown_named : forall n i, mentioned n Up_and_down i <-> in_class n "Generator" i up_and_down.
Proof. exact updown_listed. Qed.
Print Assumptions C81_updown_named.
Theorem C81_sums_named : forall n i, mentioned n Energy_sums i <-> in_class n "Generator" i no_sum.
Proof. exact sums_listed. Qed.
Print Assumptions C81_sums_named.

(* C81: a strict option turns exactly its messages into an error, "all" every message; an unknown option is an error of its own *)
Theorem C81_strict : forall n s,
  (consistency_check n s = Unknown_option <-> ~ known s) /\
  (consistency_check n s = Inconsistent <-> known s /\ exists w, In w (warnings n) /\ fatal s w) /\
  (forall ws, consistency_check n s = Passed ws <-> known s /\ ws = warnings n /\ forall w, In w ws -> ~ fatal s w).
Proof. exact strict_cases. Qed.
Print Assumptions C81_strict.

(* C81: an extendable asset named for its expansion limits makes the optimisation infeasible, whatever else is in the network *)
Theorem C81_expansion : forall kvl n a x, well_named n -> In a (assets n) -> ext a = true -> mentioned n (Expansion_limits (cls a)) (nm a) -> ~ feasible kvl n x.
Proof. exact expansion_infeasible. Qed.
Print Assumptions C81_expansion.

(* C81: so does an active asset of positive, fixed capacity named for its operational limits *)
Theorem C81_limits : forall kvl n a t x, well_named n -> In a (assets n) -> In (cls a) ["Generator"; "Link"; "Store"; "StorageUnit"] ->
  flag a = true -> ext a = false -> com a = false -> 0 < nom a -> mentioned_at n (cls a) (nm a) t -> ~ feasible kvl n x.
Proof. exact limits_infeasible. Qed.
Print Assumptions C81_limits.

(* C81: an extendable one has no capacity, a committable one is off in that snapshot *)
Theorem C81_limits_capacity : forall kvl n a t x, well_named n -> In a (assets n) -> In (cls a) ["Generator"; "Link"; "Store"; "StorageUnit"] ->
  flag a = true -> ext a = true -> mentioned_at n (cls a) (nm a) t -> feasible kvl n x -> x (cap_var a) <= 0.
Proof. exact limits_capacity. Qed.
Print Assumptions C81_limits_capacity.
Theorem C81_limits_status : forall kvl n a t x, well_named n -> In a (assets n) -> flag a = true -> com a = true -> 0 < nom a ->
  mentioned_at n (cls a) (nm a) t -> feasible kvl n x -> x ((cls a ++ "-status")%string, t, nm a) == 0.
Proof. exact limits_status. Qed.
Print Assumptions C81_limits_status.

(* C81: an active generator named for its energy sums makes the optimisation infeasible *)
Theorem C81_sums : forall kvl n a x, well_named n -> In a (assets n) -> cls a = "Generator" -> flag a = true -> (0 < nsnaps n)%nat ->
  mentioned n Energy_sums (nm a) -> ~ feasible kvl n x.
Proof. exact sums_infeasible. Qed.
Print Assumptions C81_sums.

(* C81: so does one both up and down before that still has to stay so *)
Theorem C81_updown : forall kvl n a x, well_named n -> In a (assets n) -> flag a = true -> cls a = "Generator" -> (0 < nsnaps n)%nat ->
  (up_before a < min_up a)%nat -> (down_before a < min_down a)%nat -> mentioned n Up_and_down (nm a) -> ~ feasible kvl n x.
Proof. exact updown_infeasible. Qed.
Print Assumptions C81_updown.

Example C81_ex : well_named faulty /\
  warnings faulty = [Expansion_limits "Generator" ["g"]; Both_kinds "Generator" ["h"]; Up_and_down ["h"]; Energy_sums ["s"]; Operational_limits "Store" "e" [0%nat; 1%nat]] /\
  consistency_check faulty ["assets"] = Inconsistent /\ consistency_check faulty ["dtypes"] = Passed (warnings faulty) /\
  consistency_check faulty ["units"] = Unknown_option.
Proof. exact faulty_case. Qed.
Example C81_ex_updown : ~ feasible IdleProofs.no_kvl faulty (fun _ => 1).
Proof.
  apply (C81_updown _ _ (unit_ (blank "Generator" "h" "a" true true) 3 3 1 1) _ (proj1 faulty_case)); [cbn; auto|reflexivity|reflexivity|repeat constructor|repeat constructor|repeat constructor|].
  exists ["h"]. split; [rewrite (proj1 (proj2 faulty_case)); cbn; auto|now left].
Qed.

(* C81: without a message the limits on capacity and dispatch are free of contradiction, provided capacities, s_max_pu and
   max_hours are not negative and storage units may neither be forced to store nor to dispatch *)
Theorem C81_quiet : forall n, well_named n -> simple n -> signs n -> warnings n = [] -> exists x, sat x (CapModel.problem (capacity n ++ operation n)).
Proof. exact quiet. Qed.
Print Assumptions C81_quiet.
Example C81_ex_quiet : well_named fair /\ simple fair /\ signs fair /\ warnings fair = [] /\ consistency_check fair ["all"] = Passed [].
Proof. exact fair_case. Qed.

(* C81: outside these signs: no message for a negative s_max_pu of a line, for a storage unit forced to store, for a link both
   up and down before; all infeasible *)
Theorem C81_line_refuted : well_named narrow_line /\ warnings narrow_line = [] /\ ~ exists x, feasible IdleProofs.no_kvl narrow_line x.
Proof. exact line_case. Qed.
Print Assumptions C81_line_refuted.
Theorem C81_unit_refuted : well_named forced_unit /\ warnings forced_unit = [] /\ ~ exists x, feasible IdleProofs.no_kvl forced_unit x.
Proof. exact unit_case. Qed.
Print Assumptions C81_unit_refuted.
Theorem C81_link_refuted : well_named torn_link /\ warnings torn_link = [] /\ ~ exists x, feasible IdleProofs.no_kvl torn_link x.
Proof. exact link_case. Qed.
Print Assumptions C81_link_refuted.

(* C81: and a message for a generator that cannot be extended is of no consequence *)
Theorem C81_harmless : warnings harmless = [Expansion_limits "Generator" ["g"]] /\ feasible IdleProofs.no_kvl harmless IdleProofs.one_x.
Proof. exact harmless_case. Qed.
Print Assumptions C81_harmless.
