From Coq Require Import List String Bool ZArith QArith.
From Verif Require Import Assoc PeriodsModel TopologyModel CyclesModel.
Import ListNotations.
Open Scope list_scope.

(* delta: 1 or 0; active_branches: the switched-on branches of all tables in order; zsum/qsum: sums over
   positions; outflow: flows leaving bus x minus flows arriving; inc: what branch l contributes at bus x *)
Definition delta (b : bool) : Z := if b then 1%Z else 0%Z.
Definition active_branches (tabs : list (list branch)) : list branch :=
  flat_map (filter (fun b => aactive (basset b))) tabs.
Fixpoint zsum (f : nat -> Z) (n : nat) : Z := match n with O => 0%Z | S k => (zsum f k + f k)%Z end.
Fixpoint qsum (f : nat -> Q) (n : nat) : Q := match n with O => 0%Q | S k => (qsum f k + f k)%Q end.
Definition outflow (brs : list branch) (f : nat -> Q) (x : string) : Q :=
  qsum (fun l => match nth_error brs l with
                 | Some b => (if String.eqb (bus0 b) x then f l else 0) - (if String.eqb (bus1 b) x then f l else 0)
                 | None => 0 end)%Q (List.length brs).
Definition inc (brs : list gbranch) (l x : nat) : Z :=
  match nth_error brs l with
  | Some b => (delta (Nat.eqb (g0 b) x) - delta (Nat.eqb (g1 b) x))%Z
  | None => 0%Z
  end.
Definition col_outflow (brs : list gbranch) (col : list (nat * Z)) (x : nat) : Z :=
  fold_right (fun e s => (snd e * inc brs (fst e) x + s)%Z) 0%Z col.
