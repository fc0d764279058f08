From mathcomp Require Import all_ssreflect all_algebra.
Set Implicit Arguments. Unset Strict Implicit. Unset Printing Implicit Defensive.
Import GRing.Theory Num.Theory.
Local Open Scope ring_scope.

Section Circuits.
Variable C : numFieldType.

(* terminal currents i1 i2 i3 of a star with legs z1 z2 z3 whose inner node has no injection *)
Definition wye (z1 z2 z3 v1 v2 v3 i1 i2 i3 : C) : Prop :=
  exists u, [/\ i1 * z1 = v1 - u, i2 * z2 = v2 - u, i3 * z3 = v3 - u & i1 + i2 + i3 = 0].

(* terminal currents of a triangle with impedances z12 z13 z23 between the terminals *)
Definition delta (z12 z13 z23 v1 v2 v3 i1 i2 i3 : C) : Prop :=
  exists j12 j13 j23,
    [/\ [/\ j12 * z12 = v1 - v2, j13 * z13 = v1 - v3 & j23 * z23 = v2 - v3],
        i1 = j12 + j13, i2 = j23 - j12 & i3 = - j13 - j23].

(* T circuit: half the series impedance on either side of a shunt to ground *)
Definition T_circuit (z y v0 v1 i0 i1 : C) : Prop :=
  exists u, [/\ i0 * (z / 2%:R) = v0 - u, i1 * (z / 2%:R) = v1 - u & i0 + i1 = y * u].

(* pi circuit: half the shunt admittance at either end of the series impedance *)
Definition pi_circuit (z y v0 v1 i0 i1 : C) : Prop :=
  exists j, [/\ j * z = v0 - v1, i0 = j + y / 2%:R * v0 & i1 = - j + y / 2%:R * v1].

(* a branch with its pi circuit behind ideal transformers of complex ratio t0 at bus0 and t1 at bus1;
   an ideal transformer divides the voltage by its ratio and multiplies the current by the conjugate,
   so that the power v * conj i is the same on both sides *)
Definition ideal (conj : C -> C) (t v i w k : C) : Prop := v = t * w /\ k = conj t * i.
Definition two_port (conj : C -> C) (t0 t1 z y v0 v1 i0 i1 : C) : Prop :=
  exists w0 w1 k0 k1, [/\ ideal conj t0 v0 i0 w0 k0, ideal conj t1 v1 i1 w1 k1 & pi_circuit z y w0 w1 k0 k1].
End Circuits.
