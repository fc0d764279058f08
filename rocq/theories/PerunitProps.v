From mathcomp Require Import all_ssreflect all_algebra all_field.
From Coq Require Import String.
From Verif Require Import AdmitModel AdmitSpec PerunitModel PerunitSpec PerunitProofs.
Set Implicit Arguments. Unset Strict Implicit. Unset Printing Implicit Defensive.
Import GRing.Theory Num.Theory Order.TTheory.
Local Open Scope ring_scope.

(* C65: the per-unit values make the power flow compute physical powers. A line of r + jx Ohm and g + jb Siemens between
   buses of nominal voltage v: with voltages v * V (kV) at its ends the power flow gives voltage times current (MVA) *)
Theorem C65_line : forall (C : numClosedFieldType) (pi : C) (n n' : network C) (l : line C) (v : C),
  calculate_dependent_values pi n = Some n' -> List.In l (lines n') -> own_names (@bus_name C) (buses n) ->
  level n (l_bus0 l) v -> level n (l_bus1 l) v -> v != 0 -> v^* = v -> l_r l + 'i * l_x l != 0 ->
  forall nb m (i0 i1 : 'I_nb) (br : 'I_m -> branch C nb) (k : 'I_m) (V : 'cV[C]_nb), line_branch i0 i1 l = Some (br k) ->
  forall j0 j1, pi_circuit (l_r l + 'i * l_x l) (l_g l + 'i * l_b l) (v * V i0 ord0) (v * V i1 ord0) j0 j1 ->
    s0 (@conjC C) br V k = (v * V i0 ord0) * j0^* /\ s1 (@conjC C) br V k = (v * V i1 ord0) * j1^*.
Proof. exact: line_physical. Qed.
Print Assumptions C65_line.

(* a transformer with constants in per unit of its s_nom: powers are s_nom times those on its own base, behind its tap
   changer and phase shifter, for both circuit models *)
Theorem C65_transformer : forall (C : numClosedFieldType) (pi : C) (n n' : network C) (a : transformer C) (x p : C),
  calculate_dependent_values pi n = Some n' -> List.In a (transformers n') -> tr_x a = Some x ->
  let z := tr_r a + 'i * x in let y := tr_g a + 'i * tr_b a in
  z != 0 -> (tr_model a = "t"%string -> z * y + 4%:R != 0) -> tr_s a != 0 -> (tr_s a)^* = tr_s a -> tr_tap a != 0 -> (tr_tap a)^* = tr_tap a -> p * p^* = 1 ->
  let t0 := (if tr_side a == 0%N then tr_tap a else 1) * p in let t1 := if tr_side a == 1%N then tr_tap a else 1 in
  forall nb m (i0 i1 : 'I_nb) (br : 'I_m -> branch C nb) (k : 'I_m) (V : 'cV[C]_nb), transformer_branch i0 i1 p a = Some (br k) ->
  (exists j0 j1, with_taps t0 t1 (tr_model a) z y (V i0 ord0) (V i1 ord0) j0 j1) /\
  forall j0 j1, with_taps t0 t1 (tr_model a) z y (V i0 ord0) (V i1 ord0) j0 j1 ->
    s0 (@conjC C) br V k = tr_s a * (V i0 ord0 * j0^*) /\ s1 (@conjC C) br V k = tr_s a * (V i1 ord0 * j1^*).
Proof. exact: transformer_physical. Qed.
Print Assumptions C65_transformer.

(* a shunt of g + jb Siemens draws voltage times current *)
Theorem C65_shunt : forall (C : numClosedFieldType) (pi : C) (n n' : network C) (s : shunt C) (v : C),
  calculate_dependent_values pi n = Some n' -> List.In s (shunts n') -> own_names (@bus_name C) (buses n) -> level n (sh_bus s) v -> v^* = v ->
  exists2 y, sh_ypu s = Some y & forall V, V * V^* * y^* = (v * V) * ((sh_g s + 'i * sh_b s) * (v * V))^*.
Proof. exact: shunt_physical. Qed.
Print Assumptions C65_shunt.

(* a line with a type stands for num_parallel lines with the type's constants times the length *)
Theorem C65_line_types : forall (C : numClosedFieldType) (pi : C) (n n' : network C), calculate_dependent_values pi n = Some n' ->
  List.Forall2 (fun l l' : line C =>
    [/\ l_bus0 l' = l_bus0 l, l_bus1 l' = l_bus1 l & l_g l' = l_g l] /\
    (l_type l = ""%string -> [/\ l_r l' = l_r l, l_x l' = l_x l & l_b l' = l_b l]) /\
    (l_type l <> ""%string -> exists t, [/\ List.In t (line_types n), lt_name t = l_type l &
       l_par l != 0 -> l_g l = 0 -> forall v0 v1 i0 i1,
         pi_circuit (l_r l' + 'i * l_x l') (l_g l' + 'i * l_b l') v0 v1 (l_par l * i0) (l_par l * i1) <->
         pi_circuit ((lt_r t + 'i * lt_x t) * l_length l) ('i * (2%:R * pi * lt_f t * (lt_c t / 10%:R ^+ 9 * l_length l))) v0 v1 i0 i1]))
    (lines n) (lines n').
Proof. exact: typed_lines. Qed.
Print Assumptions C65_line_types.

(* a transformer with a type stands for num_parallel devices that meet the name plate; the tap ratio counts the steps from
   the neutral position *)
Theorem C65_transformer_types : forall (C : numClosedFieldType) (pi : C) (n n' : network C), calculate_dependent_values pi n = Some n' ->
  List.Forall2 (fun a a' : transformer C =>
    [/\ tr_bus0 a' = tr_bus0 a, tr_bus1 a' = tr_bus1 a & tr_model a' = tr_model a] /\
    (tr_type a = ""%string -> [/\ tr_r a' = tr_r a, tr_x a' = tr_x a, tr_g a' = tr_g a & tr_b a' = tr_b a] /\ [/\ tr_s a' = tr_s a, tr_tap a' = tr_tap a, tr_side a' = tr_side a & tr_shift a' = tr_shift a]) /\
    (tr_type a <> ""%string -> exists t, [/\ List.In t (transformer_types n), tt_name t = tr_type a,
       [/\ tr_s a' = tt_s t, tr_side a' = tt_side t, tr_shift a' = tt_shift t & tr_tap a' = 1 + (tr_pos a - tt_neutral t) * (tt_step t / 100%:R)] &
       tt_vscr t \is Num.real -> 0 <= tt_vsc t -> `|tt_vscr t| <= tt_vsc t ->
       tt_pfe t \is Num.real -> 0 < tt_s t -> 0 <= tt_i0 t -> `|tt_pfe t| / (1000%:R * tt_s t) <= tt_i0 t / 100%:R -> tr_par a != 0 ->
       exists x z y, [/\ tr_x a' = Some x, name_plate t z y & forall v0 v1 i0 i1,
         circuit (tr_model a') (tr_r a' + 'i * x) (tr_g a' + 'i * tr_b a') v0 v1 (tr_par a * i0) (tr_par a * i1) <->
         circuit (tr_model a') z y v0 v1 i0 i1]]))
    (transformers n) (transformers n').
Proof. exact: typed_transformers. Qed.
Print Assumptions C65_transformer_types.

(* the effective impedance used by the linear power flow is the one between both ends of the branch *)
Theorem C65_effective_line : forall (C : numClosedFieldType) (pi : C) (n n' : network C) (l : line C),
  calculate_dependent_values pi n = Some n' -> List.In l (lines n') ->
  forall nb (i0 i1 : 'I_nb) b e, line_branch i0 i1 l = Some b -> l_zeff l = Some e -> e != 0 -> Y10 b * e = - 1 /\ Y01 (@conjC C) b * e = - 1.
Proof. exact: line_effective. Qed.
Print Assumptions C65_effective_line.
Theorem C65_effective_transformer : forall (C : numClosedFieldType) (pi : C) (n n' : network C) (a : transformer C),
  calculate_dependent_values pi n = Some n' -> List.In a (transformers n') ->
  tr_model a <> "t"%string \/ tr_g a = 0 /\ tr_b a = 0 -> tr_side a = 0%N \/ tr_side a = 1%N -> tr_tap a != 0 ->
  forall nb (i0 i1 : 'I_nb) b e, transformer_branch i0 i1 1 a = Some b -> tr_zeff a = Some e -> e != 0 -> Y10 b * e = - 1 /\ Y01 (@conjC C) b * e = - 1.
Proof. exact: transformer_effective. Qed.
Print Assumptions C65_effective_transformer.

(* carriers that are not given are those of the first bus *)
Theorem C65_carriers : forall (C : numClosedFieldType) (pi : C) (n n' : network C), calculate_dependent_values pi n = Some n' -> own_names (@bus_name C) (buses n) ->
  List.Forall2 (fun l l' : line C => (l_carrier l <> ""%string -> l_carrier l' = l_carrier l) /\
     (l_carrier l = ""%string -> forall b, List.In b (buses n) -> bus_name b = l_bus0 l -> l_carrier l' = bus_carrier b)) (lines n) (lines n') /\
  List.Forall2 (fun o o' => o_bus o' = o_bus o /\ (o_carrier o <> ""%string -> o_carrier o' = o_carrier o) /\
     (o_carrier o = ""%string -> forall b, List.In b (buses n) -> bus_name b = o_bus o -> o_carrier o' = bus_carrier b)) (links n ++ stores n) (links n' ++ stores n').
Proof. exact: carriers. Qed.
Print Assumptions C65_carriers.

(* calling it again changes nothing; it fails exactly when a type is unknown *)
Theorem C65_twice : forall (C : numClosedFieldType) (pi : C) (n n' : network C),
  calculate_dependent_values pi n = Some n' -> calculate_dependent_values pi n' = Some n'.
Proof. exact: twice. Qed.
Print Assumptions C65_twice.
Theorem C65_raises : forall (C : numClosedFieldType) (pi : C) (n : network C), calculate_dependent_values pi n = None <->
  (exists l, [/\ List.In l (lines n), l_type l <> ""%string & forall t, List.In t (line_types n) -> lt_name t <> l_type l]) \/
  (exists a, [/\ List.In a (transformers n), tr_type a <> ""%string & forall t, List.In t (transformer_types n) -> tt_name t <> tr_type a]).
Proof. exact: raises. Qed.
Print Assumptions C65_raises.

(* two transformers in parallel are rated as one *)
Theorem C65_rating_refuted : exists (n n' : network [numClosedFieldType of algC]) t a,
  [/\ calculate_dependent_values 0 n = Some n', List.In t (transformer_types n), List.In a (transformers n') &
  [/\ tr_type a = tt_name t, tr_par a = 2%:R, 0 < tt_s t & tr_s a = tt_s t]].
Proof. exact: rating. Qed.
Print Assumptions C65_rating_refuted.
(* a line between different voltage levels is accepted and its values depend on which end comes first *)
Theorem C65_levels_refuted : exists (n n' m m' : network [numClosedFieldType of algC]) l k z z',
  [/\ calculate_dependent_values 0 n = Some n', calculate_dependent_values 0 m = Some m', lines n' = [:: l] & lines m' = [:: k]] /\
  [/\ buses n = buses m, l_type l = l_type k, l_bus0 l = l_bus1 k & l_bus1 l = l_bus0 k] /\ [/\ l_r l = l_r k, l_x l = l_x k, l_zpu l = Some z & l_zpu k = Some z'] /\ z != z'.
Proof. exact: levels. Qed.
Print Assumptions C65_levels_refuted.
(* a short-circuit voltage below its resistive part gives NaN without an error *)
Theorem C65_name_plate_refuted : exists (n n' : network [numClosedFieldType of algC]) a,
  [/\ calculate_dependent_values 0 n = Some n', List.In a (transformers n') & tr_zpu a = None].
Proof. exact: no_warning. Qed.
Print Assumptions C65_name_plate_refuted.

(* a line of two systems and 10 km between two buses of 10 kV; a transformer type with z = 0.03 + 0.04j, y = 0.03 - 0.04j *)
Example C65_case_ex : exists n', calculate_dependent_values 0 (@ex_net [numClosedFieldType of algC] "hv" "lv" 10%:R 5%:R) = Some n'.
Proof. exact: ex_defined. Qed.
Example C65_line_ex : let n := @ex_net [numClosedFieldType of algC] "hv" "lv" 10%:R 5%:R in
  exists n' l, [/\ calculate_dependent_values 0 n = Some n', List.In l (lines n'), own_names (@bus_name _) (buses n) & level n (l_bus0 l) 10%:R /\ level n (l_bus1 l) 10%:R] /\
  [/\ l_r l = 5%:R, l_x l = 15%:R, (10%:R : algC) != 0, (10%:R : algC)^* = 10%:R & l_r l + 'i * l_x l != 0].
Proof.
eexists; eexists; split.
  split; [reflexivity|by left| |by split; exists "AC"%string; [left|right; left]].
  by constructor; [case|constructor; [|constructor]].
have q2 : (10%:R / 2%:R : algC) = 5%:R by rewrite (_ : 10%:R = 5%:R * 2%:R) ?mulfK ?pnatr_eq0 // -natrM.
have q3 : (3%:R * 10%:R / 2%:R : algC) = 15%:R by rewrite (_ : 3%:R * 10%:R = 15%:R * 2%:R) ?mulfK ?pnatr_eq0 // -!natrM.
by rewrite /= mul1r q2 q3; split=> //; rewrite ?pnatr_eq0 ?conjC_nat //; exact: ex_ne0.
Qed.
Example C65_plate_ex : let t := Ttype "tt" 10%:R^-1 5%:R 3%:R 3%:R 5%:R 150%:R 1 0 (5%:R : algC) in
  [/\ tt_vscr t \is Num.real, 0 <= tt_vsc t, `|tt_vscr t| <= tt_vsc t & tt_pfe t \is Num.real] /\
  [/\ 0 < tt_s t, 0 <= tt_i0 t & `|tt_pfe t| / (1000%:R * tt_s t) <= tt_i0 t / 100%:R].
Proof. exact: ex_plate. Qed.
(* a transformer of 2 MVA with reactance 1, shunt conductance 1 and tap ratio 3 *)
Definition ex_pi : transformer [numClosedFieldType of algC] := Transformer "hv" "lv" "" "t" 1 0 0 (Some 1) 1 0 2%:R 0 0 3%:R None None None.
Example C65_transformer_ex : let n := {| buses := [::]; line_types := [::]; transformer_types := [::]; lines := [::]; transformers := [:: ex_pi]; shunts := [::]; links := [::]; stores := [::] |} in
  exists n' a, [/\ calculate_dependent_values 0 n = Some n', List.In a (transformers n') & tr_x a = Some 1] /\
  let z := tr_r a + 'i * 1 in let y := tr_g a + 'i * tr_b a in
  [/\ z != 0, z * y + 4%:R != 0, tr_s a != 0 & (tr_s a)^* = tr_s a] /\ [/\ tr_tap a != 0, (tr_tap a)^* = tr_tap a & (1 : algC) * 1^* = 1].
Proof.
eexists; eexists; split; first by split; [reflexivity|left|].
rewrite /= mulr0 addr0 add0r !mulr1; split; split; rewrite ?pnatr_eq0 ?conjC_nat // ?conjC1 ?neq0Ci //.
by rewrite addrC -['i]mulr1; exact: (@ex_ne0 _ 4 1).
by rewrite mulr1.
Qed.
