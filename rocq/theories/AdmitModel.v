From mathcomp Require Import all_ssreflect all_algebra.
From Coq Require Import String.
Set Implicit Arguments. Unset Strict Implicit. Unset Printing Implicit Defensive.
Import GRing.Theory Num.Theory.
Local Open Scope ring_scope.

(* Complex impedances of transformers and the bus admittance matrix, exact arithmetic.
   C stands for the complex numbers: any ordered-norm field, with conj a field automorphism (np.conj).
   A pair of real columns (r_pu, x_pu) or (g_pu, b_pu) is kept as the one complex number the code forms from it. *)
Section Wye.
Variable C : numFieldType.

(* pf.py 942-962 *)
Definition wye_to_delta (z1 z2 z3 : C) : C * C * C :=
  let summand := z1 * z2 + z2 * z3 + z3 * z1 in
  (summand / z2, summand / z1, summand / z3).

Record trafo := { t_model : string; t_z : C; t_y : C }.

(* pf.py 966-986: rows with model "t" and non-zero shunt *)
Definition t_to_pi (t : trafo) : trafo :=
  if String.eqb (t_model t) "t" && (t_y t != 0) then
    let '(za, zb, zc) := wye_to_delta (t_z t / 2%:R) (t_z t / 2%:R) (1 / t_y t) in
    {| t_model := t_model t; t_z := zc; t_y := 2%:R / za |}
  else t.
Definition apply_transformer_t_model (ts : seq trafo) : seq trafo := [seq t_to_pi t | t <- ts].
End Wye.

Section Y.
Variable C : numFieldType.
Variable conj : C -> C.
Variables n m : nat.                         (* buses_o, active branches *)

Record branch := { b0 : 'I_n; b1 : 'I_n;
                   z : C;                    (* r_pu + 1j x_pu *)
                   ysh : C;                  (* g_pu + 1j b_pu *)
                   tap : option C;           (* tap_ratio, None is NaN *)
                   side : option nat;        (* tap_side *)
                   ps : C }.                 (* exp(1j phase_shift pi / 180), NaN filled with 0 *)

Variable br : 'I_m -> branch.
Variable Ysh : 'I_n -> C.                    (* pf.py 1246-1256, sum of the shunts at each bus *)

(* pf.py 1229-1239 *)
Definition tau (b : branch) : C := match tap b with None => 1 | Some t => if t == 0 then 1 else t end.
Definition tau_hv (b : branch) : C := if side b == Some 0%N then tau b else 1.
Definition tau_lv (b : branch) : C := if side b == Some 1%N then tau b else 1.

(* pf.py 1225, 1244-1247 *)
Definition y_se (b : branch) : C := 1 / z b.
Definition Y11 (b : branch) : C := (y_se b + 2%:R^-1 * ysh b) / tau_lv b ^+ 2.
Definition Y10 (b : branch) : C := - y_se b / tau_lv b / tau_hv b / ps b.
Definition Y01 (b : branch) : C := - y_se b / tau_lv b / tau_hv b / conj (ps b).
Definition Y00 (b : branch) : C := (y_se b + 2%:R^-1 * ysh b) / tau_hv b ^+ 2.

(* pf.py 1268-1283: entries given twice at one position are added, as csr_matrix does *)
Definition C0 : 'M[C]_(m, n) := \matrix_(l, i) (b0 (br l) == i)%:R.
Definition C1 : 'M[C]_(m, n) := \matrix_(l, i) (b1 (br l) == i)%:R.
Definition Y0 : 'M[C]_(m, n) :=
  \matrix_(l, i) (Y00 (br l) * (b0 (br l) == i)%:R + Y01 (br l) * (b1 (br l) == i)%:R).
Definition Y1 : 'M[C]_(m, n) :=
  \matrix_(l, i) (Y10 (br l) * (b0 (br l) == i)%:R + Y11 (br l) * (b1 (br l) == i)%:R).

(* pf.py 1285-1290 *)
Definition Y : 'M[C]_n := C0^T *m Y0 + C1^T *m Y1 + diag_mx (\row_i Ysh i).

(* pf.py 709-731, 740-742: powers at the branch ends and at the buses *)
Definition s0 (V : 'cV[C]_n) (l : 'I_m) : C := V (b0 (br l)) ord0 * conj ((Y0 *m V) l ord0).
Definition s1 (V : 'cV[C]_n) (l : 'I_m) : C := V (b1 (br l)) ord0 * conj ((Y1 *m V) l ord0).
Definition s_calc (V : 'cV[C]_n) (i : 'I_n) : C := V i ord0 * conj ((Y *m V) i ord0).
End Y.
