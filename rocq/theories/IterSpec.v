From Coq Require Import List Bool QArith ZArith Arith.
From Verif Require Import IterModel.
Open Scope Q_scope.

Definition multiple_of (u q : Q) : Prop := exists k : Z, q == inject_Z k * u.

(* what the iterations may change in a line, k optimisations later *)
Definition same_data (l l' : line) : Prop :=
  l_ext l' = l_ext l /\ l_typed l' = l_typed l /\ l_ac l' = l_ac l /\ l_dc l' = l_dc l /\ l_b l' = l_b l /\ l_base l' = l_base l /\
  l_nom l' = l_nom l /\ l_max l' = l_max l.
Definition product_kept (v : line -> num) (l l' : line) : Prop :=
  forall q, v l = Fin q -> exists q', v l' = Fin q' /\ q' * l_opt l' == q * l_opt l.
Definition scaled (l l' : line) (k : nat) : Prop :=
  same_data l l' /\
  (l_ext l = true -> l_typed l = false -> l_ac l = true -> product_kept l_x l l') /\
  (l_ext l = true -> l_typed l = false -> l_dc l = true -> product_kept l_r l l') /\
  (l_ext l = false \/ l_typed l = true \/ l_ac l = false -> l_x l' = l_x l) /\
  (l_ext l = false \/ l_typed l = true \/ l_dc l = false -> l_r l' = l_r l) /\
  (l_ext l = true -> l_typed l = true -> ~ l_base l == 0 -> (0 < k)%nat -> exists q, l_par l' = Fin q /\ q * l_base l == l_opt l') /\
  (l_ext l = true -> 0 < l_opt l') /\
  (l_ext l = false -> (0 < k)%nat -> l_opt l' == l_nom l).
