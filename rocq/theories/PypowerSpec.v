From mathcomp Require Import all_ssreflect all_algebra.
From Coq Require Import String.
From Verif Require Import AdmitModel PerunitModel PypowerModel.
Set Implicit Arguments. Unset Strict Implicit. Unset Printing Implicit Defensive.
Import GRing.Theory Num.Theory.
Local Open Scope ring_scope.

(* MATPOWER's branch model: series impedance with total charging b in a pi circuit, behind an ideal transformer of ratio N at the
   from bus; all in per unit of base MVA. ex d is exp(1j d pi / 180). *)
Section S.
Variable C : numClosedFieldType.
Variable ex : C -> C.
Definition ratio (r : mbranch C) : C := if mr_ratio r == 0 then 1 else mr_ratio r.
Definition Ys (r : mbranch C) : C := 1 / (mr_r r + 'i * mr_x r).
Definition N (r : mbranch C) : C := ratio r * ex (mr_angle r).
Definition Ytt (r : mbranch C) : C := Ys r + 'i * (mr_b r / 2%:R).
Definition Yff (r : mbranch C) : C := Ytt r / ratio r ^+ 2.
Definition Yft (r : mbranch C) : C := - (Ys r / (N r)^*).
Definition Ytf (r : mbranch C) : C := - (Ys r / N r).

(* the bus admittance matrix, for a numbering of the buses *)
Section Matrix.
Variables (n : nat) (idx : string -> 'I_n) (k : case C).
Definition Ybus : 'M[C]_n := \matrix_(i, j)
  (\sum_(r <- mbranches k) ((idx (mr_from r) == i)%:R * ((idx (mr_from r) == j)%:R * Yff r + (idx (mr_to r) == j)%:R * Yft r) +
                            (idx (mr_to r) == i)%:R * ((idx (mr_from r) == j)%:R * Ytf r + (idx (mr_to r) == j)%:R * Ytt r)) +
   (i == j)%:R * \sum_(b <- mbuses k | idx (mb_name b) == i) (mb_gs b + 'i * mb_bs b) / base k).
End Matrix.

(* a branch between buses of one voltage level, without tap ratio or phase shift *)
Definition same_level (k : case C) (r : mbranch C) : Prop :=
  exists b0 b1, [/\ List.In b0 (mbuses k), List.In b1 (mbuses k), mb_name b0 = mr_from r & mb_name b1 = mr_to r] /\
                (mb_kv b0 = mb_kv b1 \/ mb_kv b0 = 0 /\ mb_kv b1 = 1 \/ mb_kv b0 = 1 /\ mb_kv b1 = 0).
Definition plain (k : case C) (r : mbranch C) : Prop := [/\ same_level k r, mr_ratio r = 0 \/ mr_ratio r = 1 & mr_angle r = 0].

(* the rating of a branch; o is overwrite_zero_s_nom *)
Definition rated (o : option C) (r : mbranch C) (s : C) : Prop := mr_rate r <> 0 /\ s = mr_rate r \/ mr_rate r = 0 /\ s = odflt 0 o.
(* the voltage a bus is held at: that of the last generator there, else its own *)
Definition set_point (gs : seq (mgen C)) (b : mbus C) (v : C) : Prop :=
  (forall g, List.In g gs -> mg_bus g <> mb_name b) /\ v = mb_vm b \/
  exists s0 g s1, [/\ gs = s0 ++ g :: s1, mg_bus g = mb_name b, forall c, List.In c s1 -> mg_bus c <> mb_name b & v = mg_v g].

(* branches and shunts PyPSA's power flow sees: the lines, then the transformers *)
Definition seen n (idx : string -> 'I_n) (w : network C) : seq (option (branch C n)) :=
  [seq line_branch (idx (l_bus0 l)) (idx (l_bus1 l)) l | l <- lines w] ++
  [seq transformer_branch (idx (tr_bus0 a)) (idx (tr_bus1 a)) (ex (tr_shift a)) a | a <- transformers w].
Definition shunted n (idx : string -> 'I_n) (w : network C) (i : 'I_n) : C := \sum_(s <- shunts w | idx (sh_bus s) == i) odflt 0 (sh_ypu s).
End S.
