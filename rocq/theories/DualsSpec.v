From Coq Require Import List String Ascii Bool QArith Arith.
From Verif Require Import AssignModel DualsModel.
Import ListNotations.
Open Scope string_scope.
Open Scope Q_scope.

Definition reported (f : frame) (c : string) (t : nat) (q : Q) : Prop := exists s p, f c = Some s /\ s t = Some p /\ p == q.
(* the dual of an array for component c at snapshot t; 0 where there is no constraint *)
Definition dual (a : carray) (c : string) (t : nat) (q : Q) : Prop :=
  exists f s, a_cols a = Some f /\ f c = Some s /\ q = match s t with Some y => y | None => 0 end.
Definition covers (a : carray) (c : string) : Prop := exists f s, a_cols a = Some f /\ f c = Some s.

(* prefix ++ "-" ++ suffix *)
Definition named (a : carray) (c attr : string) : Prop := a_name a = (c ++ "-" ++ attr)%string.
Definition ends (s e : string) : Prop := exists p, s = (p ++ e)%string.
(* attr is "...-spec" or "spec", without a dash in spec *)
Definition dashless (s : string) : Prop := forall p q, s <> (p ++ "-" ++ q)%string.
Definition last_part (attr spec : string) : Prop := dashless spec /\ (attr = spec \/ exists p, attr = (p ++ "-" ++ spec)%string).
