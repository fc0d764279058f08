From Coq Require Import List String Bool QArith ZArith Arith.
From Verif Require Import LinModel StorageModel StorageSpec LimitModel.
From Verif Require BalanceSpec.
Import ListNotations.
Open Scope string_scope.
Open Scope Q_scope.
Notation total := BalanceSpec.total.

(* snapshots the limit is about *)
Definition about (n : net) (g : glc) (t : nat) : Prop :=
  (t < nsnaps n)%nat /\ match inv_period g, period n with Some p, Some per => per t = p | _, _ => True end.
(* specific emissions: 0 for carriers that are not in the table *)
Definition emission (n : net) (c : string) : Q :=
  match find (fun e => String.eqb (fst e) c) (carriers n) with Some e => snd e | None => 0 end.

Definition output (x : sol) (g : gen) (t : nat) : Q := if g_active g t then x ("Generator-p", t, g_name g) else 0.
(* level of a store at its last active snapshot among the given ones *)
Definition final_level (x : sol) (lev : string) (s : storage) (sel : list nat) (q : Q) : Prop :=
  exists t, In t sel /\ s_active s t = true /\ (forall r, In r sel -> (t < r)%nat -> s_active s r = false) /\ q == value x s lev t.

Definition sense_holds (s : sense) (a b : Q) : Prop := match s with Le => a <= b | Ge => b <= a | Eq => a == b end.

(* emissions: fuel burnt by generators, and what non-cyclic storage has released in total *)
Definition limited (n : net) (x : sol) (g : glc) (sel : list nat) (e : string -> Q) (per_output : gen -> nat -> Q) (final : string -> sto -> Q) : Prop :=
  sense_holds (sense_of g)
    (total (fun gn => total (fun t => e (g_carrier gn) * per_output gn t * output x gn t) sel) (gens n)
     + total (fun s => if s_cyclic (st_of s) then 0 else e (st_carrier s) * (s_init (st_of s) - final "StorageUnit-state_of_charge" s)) (units n)
     + total (fun s => if s_cyclic (st_of s) then 0 else e (st_carrier s) * (s_init (st_of s) - final "Store-e" s)) (stores n))
    (constant g).
