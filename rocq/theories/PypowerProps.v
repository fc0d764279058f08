From mathcomp Require Import all_ssreflect all_algebra all_field.
From Coq Require Import String.
From Verif Require Import AdmitModel AdmitSpec PerunitModel PerunitSpec PypowerModel PypowerSpec PypowerProofs.
Set Implicit Arguments. Unset Strict Implicit. Unset Printing Implicit Defensive.
Import GRing.Theory Num.Theory.
Local Open Scope ring_scope.

(* a case is imported, unless some bus is of a type above 3 *)
Theorem C74_defined : forall (C : numClosedFieldType) (k : case C) (o : option C),
  (exists p, import_from_pypower_ppc k o = Some p) <-> forall b, List.In b (mbuses k) -> (mb_type b <= 3)%N.
Proof. exact: defined. Qed.
Print Assumptions C74_defined.

(* the power flow of the imported network sees every branch of the case, once *)
Theorem C74_seen : forall (C : numClosedFieldType) (pi : C) (ex : C -> C) (k : case C) (o : option C) p w n (idx : string -> 'I_n),
  import_from_pypower_ppc k o = Some p -> calculate_dependent_values pi (as_network p) = Some w ->
  exists br : 'I_(size (mbranches k)) -> branch C n, [seq Some (br l) | l <- enum 'I_(size (mbranches k))] = seen ex idx w.
Proof. exact: all_seen. Qed.
Print Assumptions C74_seen.
Theorem C74_values : forall (C : numClosedFieldType) (pi : C) (k : case C) (o : option C) p,
  import_from_pypower_ppc k o = Some p -> exists w, calculate_dependent_values pi (as_network p) = Some w.
Proof. by move=> C pi k o p I; have [w W _] := values pi I; exists w. Qed.
Print Assumptions C74_values.

(* and with the admittance matrix of the case, brought to base 1 MVA, when transformers have a rating and no charging *)
Theorem C74_admittance : forall (C : numClosedFieldType) (pi : C) (ex : C -> C), ex 0 = 1 ->
  forall (k : case C) (o : option C) p w n (idx : string -> 'I_n) m (br : 'I_m -> branch C n),
  import_from_pypower_ppc k o = Some p -> calculate_dependent_values pi (as_network p) = Some w -> own_names (@mb_name C) (mbuses k) -> base k != 0 ->
  (forall r, List.In r (mbranches k) -> (mr_ratio r)^* = mr_ratio r /\ (plain k r \/ mr_b r = 0 /\ exists2 s, rated o r s & s != 0)) ->
  [seq Some (br l) | l <- enum 'I_m] = seen ex idx w -> Y (@conjC C) br (shunted idx w) = base k *: Ybus ex idx k.
Proof. exact: admittance. Qed.
Print Assumptions C74_admittance.

(* lines: branches between buses of one level without tap or shift *)
Theorem C74_lines : forall (C : numClosedFieldType) (pi : C) (k : case C) (o : option C) p w (d : pred (mbranch C)),
  import_from_pypower_ppc k o = Some p -> calculate_dependent_values pi (as_network p) = Some w -> own_names (@mb_name C) (mbuses k) ->
  (forall r, List.In r (mbranches k) -> reflect (plain k r) (d r)) ->
  List.Forall2 (fun r l => [/\ l_bus0 l = mr_from r, l_bus1 l = mr_to r, l_zpu l = Some ((mr_r r + 'i * mr_x r) / base k),
      l_ypu l = Some ('i * mr_b r * base k) & l_zeff l = Some ((mr_r r + 'i * mr_x r) / base k)]) [seq r <- mbranches k | d r] (lines w) /\
  List.Forall2 (rated o) [seq r <- mbranches k | d r] (p_rates p).
Proof. exact: lines_of. Qed.
Print Assumptions C74_lines.

(* transformers: all other branches, with tap and shift at bus0; with a rating their impedances are those of the case, also for linear power flow *)
Theorem C74_transformers : forall (C : numClosedFieldType) (pi : C) (k : case C) (o : option C) p w (d : pred (mbranch C)),
  import_from_pypower_ppc k o = Some p -> calculate_dependent_values pi (as_network p) = Some w -> own_names (@mb_name C) (mbuses k) ->
  (forall r, List.In r (mbranches k) -> reflect (plain k r) (d r)) -> base k != 0 ->
  List.Forall2 (fun r a =>
    [/\ tr_bus0 a = mr_from r, tr_bus1 a = mr_to r, tr_side a = 0%N & tr_model a = "t"%string] /\ [/\ tr_tap a = ratio r, tr_shift a = mr_angle r & rated o r (tr_s a)] /\
    (tr_s a != 0 -> exists x, [/\ tr_x a = Some x, (tr_r a + 'i * x) / tr_s a = (mr_r r + 'i * mr_x r) / base k,
       (tr_g a + 'i * tr_b a) * tr_s a = 'i * mr_b r * base k & tr_zeff a = Some ((mr_r r + 'i * mr_x r) / base k * ratio r)])) [seq r <- mbranches k | ~~ d r] (transformers w).
Proof. exact: trafos_of. Qed.
Print Assumptions C74_transformers.

(* a transformer with charging is off by a factor: PyPSA takes its constants for those of a T circuit *)
Theorem C74_charged : forall (C : numClosedFieldType) (pi : C) (k : case C) (o : option C) p w (d : pred (mbranch C)),
  import_from_pypower_ppc k o = Some p -> calculate_dependent_values pi (as_network p) = Some w -> own_names (@mb_name C) (mbuses k) ->
  (forall r, List.In r (mbranches k) -> reflect (plain k r) (d r)) -> base k != 0 ->
  List.Forall2 (fun r a => let z := (mr_r r + 'i * mr_x r) / base k in let y := 'i * mr_b r * base k in tr_s a != 0 -> z != 0 -> z * y + 4%:R != 0 ->
    tr_zpu a = Some (z * (1 + z * y / 4%:R)) /\ tr_ypu a = Some (y / (1 + z * y / 4%:R))) [seq r <- mbranches k | ~~ d r] (transformers w).
Proof. exact: charged. Qed.
Print Assumptions C74_charged.
Theorem C74_charging_refuted : forall (C : numClosedFieldType) (ex : C -> C), ex 0 = 1 -> exists (k : case C) p w (idx : string -> 'I_2) (br : 'I_1 -> branch C 2),
  [/\ own_names (@mb_name C) (mbuses k), base k != 0 & forall r, List.In r (mbranches k) -> (mr_ratio r)^* = mr_ratio r /\ exists2 s, rated None r s & s != 0] /\
  [/\ import_from_pypower_ppc k None = Some p, calculate_dependent_values 0 (as_network p) = Some w, [seq Some (br l) | l <- enum 'I_1] = seen ex idx w &
      Y (@conjC C) br (shunted idx w) <> base k *: Ybus ex idx k].
Proof.
move=> C ex e0; have [p [w [br H]]] := charged_Y e0; exists (charged_case C), p, w, place, br; split=> //; split; [exact: two_own|exact: oner_neq0|].
by move=> r [<-|[]]; rewrite /= rmorph0; split=> //; exists 1; [left; split=> //=; apply/eqP|]; exact: oner_neq0.
Qed.
Print Assumptions C74_charging_refuted.

(* a transformer without rating loses its impedance *)
Theorem C74_rating_refuted : forall (C : numClosedFieldType) (ex : C -> C), ex 0 = 1 -> exists (k k' : case C) (idx : string -> 'I_2),
  import_from_pypower_ppc k None = import_from_pypower_ppc k' None /\ (exists p, import_from_pypower_ppc k None = Some p) /\ Ybus ex idx k <> Ybus ex idx k'.
Proof. by move=> C ex e0; exists (unrated_case 1), (unrated_case 2%:R), place; exact: unrated. Qed.
Print Assumptions C74_rating_refuted.

(* buses: the last generator at a bus sets its voltage *)
Theorem C74_buses : forall (C : numClosedFieldType) (k : case C) (o : option C) p, import_from_pypower_ppc k o = Some p ->
  List.Forall2 (fun b q => [/\ pb_name q = mb_name b, pb_v q = (if mb_kv b == 0 then 1 else mb_kv b) &
    List.nth_error [:: ""; "PQ"; "PV"; "Slack"]%string (mb_type b) = Some (pb_control q)] /\ set_point (mgens k) b (pb_vset q)) (mbuses k) (p_buses p).
Proof. exact: buses_of. Qed.
Print Assumptions C74_buses.

(* generators: powers as given, control of their bus *)
Theorem C74_generators : forall (C : numClosedFieldType) (k : case C) (o : option C) p, import_from_pypower_ppc k o = Some p -> own_names (@mb_name C) (mbuses k) ->
  List.Forall2 (fun g q => [/\ pg_bus q = mg_bus g, pg_p q = mg_p g, pg_q q = mg_q g & pg_nom q = mg_pmax g] /\
    forall b, List.In b (p_buses p) -> pb_name b = mg_bus g -> pg_control q = Some (pb_control b)) (mgens k) (p_gens p).
Proof. exact: gens_of. Qed.
Print Assumptions C74_generators.

(* loads: at each bus what the case demands *)
Theorem C74_loads : forall (C : numClosedFieldType) (k : case C) (o : option C) p b, import_from_pypower_ppc k o = Some p -> own_names (@mb_name C) (mbuses k) -> List.In b (mbuses k) ->
  \sum_(l <- p_loads p | String.eqb (pl_bus l) (mb_name b)) pl_p l = mb_pd b /\ \sum_(l <- p_loads p | String.eqb (pl_bus l) (mb_name b)) pl_q l = mb_qd b.
Proof. exact: loads_are. Qed.
Print Assumptions C74_loads.

(* a case with a charged line without rating, a transformer with tap and shift, a shunt, loads and generators *)
Example C74_ex : let k := some_case [numClosedFieldType of algC] in
  [/\ own_names (@mb_name _) (mbuses k), base k != 0, exists p, import_from_pypower_ppc k None = Some p &
      forall r, List.In r (mbranches k) -> (mr_ratio r)^* = mr_ratio r /\ (plain k r \/ mr_b r = 0 /\ exists2 s, rated None r s & s != 0)] /\
  [seq r <- mbranches k | ~~ is_transformer k r] = [:: Mbranch "1" "2" (1 / 50%:R) (1 / 10%:R) (1 / 20%:R) 0 0 0] /\
  [seq r <- mbranches k | is_transformer k r] = [:: Mbranch "2" "3" 0 (1 / 5%:R) 0 60%:R (19%:R / 20%:R) 30%:R].
Proof.
move=> k; split; last exact: some_split.
split; [exact: some_own|by rewrite pnatr_eq0|exact: some_import|exact: some_branches].
Qed.
(* of two generators at one bus the second sets the voltage *)
Example C74_ex_set : set_point [:: Mgen "a" 1 0 2%:R 1; Mgen "b" 1 0 5%:R 1; Mgen "a" 1 0 3%:R 1] (Mbus "a" 2 0 0 0 0 1 1 : mbus [numClosedFieldType of algC]) 3%:R.
Proof. by right; exists [:: Mgen "a" 1 0 2%:R 1; Mgen "b" 1 0 5%:R 1], (Mgen "a" 1 0 3%:R 1), [::]. Qed.
