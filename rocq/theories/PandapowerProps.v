From mathcomp Require Import all_ssreflect all_algebra all_field.
From Coq Require Import String Relations.
From Verif Require Import AdmitModel PerunitModel PerunitSpec PypowerModel PandapowerModel PandapowerSpec PandapowerProofs.
Set Implicit Arguments. Unset Strict Implicit. Unset Printing Implicit Defensive.
Import GRing.Theory Num.Theory.
Local Open Scope ring_scope.

(* a net is imported when every bus named by an element is there and no bus is merged away twice *)
Theorem C75_defined : forall (C : numClosedFieldType) (pi : C) (n : net C) e, own_ids n ->
  (exists p, import_from_pandapower_net pi n e = Some p) <-> (forall i, List.In i (references n) -> exists x, at_bus n i x) /\ List.NoDup [seq nw_element s | s <- switches n].
Proof. move=> C pi n e; exact: defined_net. Qed.
Print Assumptions C75_defined.

(* elements are found at one bus iff theirs are joined by closed switches *)
Theorem C75_merged : forall (C : numClosedFieldType) (pi : C) (n : net C) i j x x' y y' e p, own_ids n -> no_chain n -> import_from_pandapower_net pi n e = Some p ->
  at_bus n i x -> at_bus n j x' -> placed n i y -> placed n j y' -> (y = y' <-> clos_refl_sym_trans _ (joined n) x x').
Proof. move=> C pi n i j x x' y y' e p; exact: same_place. Qed.
Print Assumptions C75_merged.
Theorem C75_placed : forall (C : numClosedFieldType) (pi : C) (n : net C) i x e p, own_ids n -> no_chain n -> import_from_pandapower_net pi n e = Some p -> at_bus n i x -> exists y, placed n i y.
Proof. move=> C pi n i x e p; exact: place_exists. Qed.
Print Assumptions C75_placed.

(* the buses that stay, with level and set point *)
Theorem C75_buses : forall (C : numClosedFieldType) (pi : C) (n : net C) (e : bool) p, own_ids n -> import_from_pandapower_net pi n e = Some p ->
  exists keep : pred (nbus C), (forall b, List.In b (n_bus n) -> keep b <-> stays n (nb_name b)) /\
  List.Forall2 (fun b q => [/\ pb_name q = nb_name b, pb_v q = nb_vn b & held n b (pb_vset q)]) [seq b <- n_bus n | keep b] (p_buses p).
Proof. move=> C pi n e p D I; exact: (buses_in D I). Qed.
Print Assumptions C75_buses.

(* loads *)
Theorem C75_loads : forall (C : numClosedFieldType) (pi : C) (n : net C) (e : bool) p, own_ids n -> no_chain n -> import_from_pandapower_net pi n e = Some p ->
  List.Forall2 (fun l q => [/\ placed n (nl_bus l) (pl_bus q), pl_p q = nl_scaling l * nl_p l & pl_q q = nl_scaling l * nl_q l]) (n_load n) (p_loads p).
Proof. move=> C pi n e p D N I; exact: (loads_in D N I). Qed.
Print Assumptions C75_loads.

(* generators, static generators and external grids *)
Theorem C75_generators : forall (C : numClosedFieldType) (pi : C) (n : net C) (e : bool) p, own_ids n -> no_chain n -> import_from_pandapower_net pi n e = Some p ->
  exists a b c, [/\ p_gens p = a ++ b ++ c,
  List.Forall2 (fun g q => [/\ placed n (ng_bus g) (pg_bus q), pg_p q = ng_scaling g * ng_p g & pg_control q = Some "PV"%string]) (n_gen n) a,
  List.Forall2 (fun g q => [/\ placed n (ns_bus g) (pg_bus q), pg_p q = ns_scaling g * ns_p g, pg_q q = ns_scaling g * ns_q g & pg_control q = Some "PQ"%string]) (n_sgen n) b &
  List.Forall2 (fun g q => placed n (ne_bus g) (pg_bus q) /\ pg_control q = Some "Slack"%string) (n_ext n) c].
Proof. move=> C pi n e p D N I; exact: (gens_in D N I). Qed.
Print Assumptions C75_generators.

(* lines by type *)
Theorem C75_lines : forall (C : numClosedFieldType) (pi : C) (n : net C) (e : bool) p, own_ids n -> no_chain n -> import_from_pandapower_net pi n e = Some p ->
  e = false -> List.Forall2 (fun l q => [/\ placed n (nn_from l) (l_bus0 q), placed n (nn_to l) (l_bus1 q), l_type q = nn_type l, l_length q = nn_length l & l_par q = nn_parallel l])
   (n_line n) (p_lines p).
Proof. move=> C pi n e p D N I; exact: (lines_typed D N I). Qed.
Print Assumptions C75_lines.

(* lines by data: impedance of one of the parallel systems, and a limit without their number and the square root of 3 *)
Theorem C75_lines_extra : forall (C : numClosedFieldType) (pi : C) (n : net C) (e : bool) p, own_ids n -> no_chain n -> import_from_pandapower_net pi n e = Some p ->
  e = true -> List.Forall2 (fun l q => [/\ placed n (nn_from l) (l_bus0 q), placed n (nn_to l) (l_bus1 q) & l_type q = ""%string] /\
   (nn_parallel l != 0 -> l_r q + 'i * l_x q = line_z l * nn_parallel l /\ (l_g q + 'i * l_b q) * nn_parallel l = line_y pi n l)) (n_line n) (p_lines p) /\
   List.Forall2 (fun l s => forall b, List.In b (n_bus n) -> nb_id b = nn_from l -> line_limit (nb_vn b) l = sqrtC 3%:R * nn_parallel l * s) (n_line n) (p_rates p).
Proof. move=> C pi n e p D N I; exact: (lines_extra D N I). Qed.
Print Assumptions C75_lines_extra.

(* transformers by type as soon as one has a type *)
Theorem C75_types : forall (C : numClosedFieldType) (pi : C) (n : net C) (e : bool) p, own_ids n -> no_chain n -> import_from_pandapower_net pi n e = Some p ->
  has (fun t : ntrafo C => if nt_type t is Some s then ~~ String.eqb s "" else false) (n_trafo n) ->
  List.Forall2 (fun t q => [/\ placed n (nt_hv t) (tr_bus0 q), placed n (nt_lv t) (tr_bus1 q), tr_type q = odflt "0"%string (nt_type t) & tr_pos q = odflt 0 (nt_tap t)]) (n_trafo n) (p_trafos p).
Proof. move=> C pi n e p D N I; exact: (trafos_typed D N I). Qed.
Print Assumptions C75_types.

(* transformers by data: impedance in per unit of 1 MVA, though the rating is kept *)
Theorem C75_transformers : forall (C : numClosedFieldType) (pi : C) (n : net C) (e : bool) p, own_ids n -> no_chain n -> import_from_pandapower_net pi n e = Some p ->
  (forall t, List.In t (n_trafo n) -> nt_type t = None \/ nt_type t = Some ""%string) ->
  List.Forall2 (fun t q => [/\ placed n (nt_hv t) (tr_bus0 q), placed n (nt_lv t) (tr_bus1 q), tr_type q = ""%string & tr_s q = nt_sn t] /\ tr_shift q = nt_shift t /\
   (nt_vkr t \is Num.real -> 0 <= nt_vk t -> `|nt_vkr t| <= nt_vk t -> nt_pfe t \is Num.real -> 0 < nt_sn t -> 0 <= nt_i0 t -> `|nt_pfe t| / (1000%:R * nt_sn t ^+ 2) <= nt_i0 t / 100%:R ->
    exists x, [/\ tr_x q = Some x, `|(tr_r q + 'i * x) * nt_sn t| = nt_vk t / 100%:R, 'Re ((tr_r q + 'i * x) * nt_sn t) = nt_vkr t / 100%:R & 0 <= 'Im (tr_r q + 'i * x)] /\
      [/\ `|tr_g q + 'i * tr_b q| = nt_i0 t / 100%:R, 'Re (tr_g q + 'i * tr_b q) * nt_sn t * nt_sn t * 1000%:R = nt_pfe t & 0 <= 'Im (tr_g q + 'i * tr_b q)])) (n_trafo n) (p_trafos p).
Proof. move=> C pi n e p D N I; exact: (trafos_plain D N I). Qed.
Print Assumptions C75_transformers.

(* shunts: power drawn at V per unit of their own level *)
Theorem C75_shunts : forall (C : numClosedFieldType) (pi : C) (n : net C) (e : bool) p, own_ids n -> no_chain n -> import_from_pandapower_net pi n e = Some p ->
  List.Forall2 (fun s q => placed n (nu_bus s) (sh_bus q) /\
    (nu_vn s \is Num.real -> nu_vn s != 0 -> nu_p s \is Num.real -> nu_q s \is Num.real ->
     forall V, (nu_vn s * V) * ((sh_g q + 'i * sh_b q) * (nu_vn s * V))^* = `|V| ^+ 2 * (nu_p s - 'i * nu_q s))) (n_shunt n) (p_shunts p).
Proof. move=> C pi n e p D N I; exact: (shunts_in D N I). Qed.
Print Assumptions C75_shunts.

(* two parallel systems *)
Theorem C75_parallel_refuted : forall (C : numClosedFieldType) (pi : C), exists p q s, [/\ import_from_pandapower_net pi (double_net C) true = Some p, p_lines p = [:: q], p_rates p = [:: s],
  l_r q + 'i * l_x q <> line_z (double C) & s <> line_limit 10%:R (double C)].
Proof. exact: double_wrong. Qed.
Print Assumptions C75_parallel_refuted.

(* a single system of limit 1 kA *)
Theorem C75_limit_refuted : forall (C : numClosedFieldType) (pi : C), exists p q s, [/\ import_from_pandapower_net pi (Net (three C) [::] [::] [::] [::] [:: Nline 0 1 "" 1 1 1 0 1 1] [::] [::] [::] 50%:R) true = Some p, p_lines p = [:: q], p_rates p = [:: s],
  l_r q + 'i * l_x q = line_z (Nline 0 1 "" 1 1 1 0 1 1) & s <> line_limit 10%:R (Nline 0 1 "" 1 1 1 0 1 1)].
Proof. exact: single_wrong. Qed.
Print Assumptions C75_limit_refuted.

(* a transformer of 10 MVA *)
Theorem C75_plate_refuted : forall (C : numClosedFieldType) (pi : C), exists p q x, [/\ import_from_pandapower_net pi (ten_net C) false = Some p, p_trafos p = [:: q], tr_x q = Some x &
  forall y, ~ name_plate (plate_of (ten C)) (tr_r q + 'i * x) y] /\ forall z, ~ name_plate (plate_of (ten C)) z (tr_g q + 'i * tr_b q).
Proof. exact: ten_wrong. Qed.
Print Assumptions C75_plate_refuted.

(* a transformer without type beside one with *)
Theorem C75_mixed_refuted : forall (C : numClosedFieldType) (pi : C), exists p, import_from_pandapower_net pi (mixed_net C) false = Some p /\
  forall lt tt, (forall t, List.In t tt -> tt_name t <> "0"%string) ->
    calculate_dependent_values pi {| buses := buses (as_network p); line_types := lt; transformer_types := tt; lines := p_lines p; transformers := p_trafos p;
                                     shunts := p_shunts p; links := [::]; stores := [::] |} = None.
Proof. exact: mixed_wrong. Qed.
Print Assumptions C75_mixed_refuted.

(* switches in a row: the load is left at a bus that is gone *)
Theorem C75_chain_refuted : forall (C : numClosedFieldType) (pi : C), exists p l, [/\ import_from_pandapower_net pi (chain_net C) false = Some p, p_loads p = [:: l] & forall q, List.In q (p_buses p) -> pb_name q <> pl_bus l].
Proof. exact: chain_wrong. Qed.
Print Assumptions C75_chain_refuted.

(* the set point of a generator at a merged bus is lost *)
Theorem C75_held_refuted : forall (C : numClosedFieldType) (pi : C), exists p g q, [/\ import_from_pandapower_net pi (held_net C) false = Some p, p_gens p = [:: g], List.In q (p_buses p), pb_name q = pg_bus g & pb_vset q <> 11%:R / 10%:R].
Proof. exact: held_wrong. Qed.
Print Assumptions C75_held_refuted.

(* a shunt drawing 1 MVAr *)
Theorem C75_shunt_refuted : forall (C : numClosedFieldType) (pi : C), exists p s, [/\ import_from_pandapower_net pi (shunt_net C) false = Some p, p_shunts p = [:: s] &
  10%:R * 1 * ((sh_g s + 'i * sh_b s) * (10%:R * 1))^* <> 0 + 'i * 1].
Proof. exact: shunt_wrong. Qed.
Print Assumptions C75_shunt_refuted.

(* hypotheses of the positive results are met *)
Example C75_ex : forall (C : numClosedFieldType) (pi : C), [/\ own_ids (held_net C), no_chain (held_net C), exists p, import_from_pandapower_net pi (held_net C) false = Some p &
  joined (held_net C) "b"%string "a"%string].
Proof.
move=> C pi; split; [exact: three_own|exact: held_chain|by eexists; reflexivity|].
exists (Nswitch 0 1 "b" true); split; first by split=> //; left. split; [exists (Nbus 1 "b" 10%:R); split=> //; right; by left|exists (Nbus 0 "a" 10%:R); split=> //; by left].
Qed.
Example C75_ex_ten : forall (C : numClosedFieldType) (pi : C), exists p, import_from_pandapower_net pi (ten_net C) false = Some p.
Proof. move=> C pi; have [p [q [x [[E _ _ _] _]]]] := ten_wrong pi; by exists p. Qed.
