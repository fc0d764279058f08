From Coq Require Import List String Bool QArith.
Import ListNotations.
Open Scope string_scope.
Open Scope list_scope.
Open Scope Q_scope.

(* The part of linopy the optimisation module uses. A variable is the entry of a variable array: array name,
   snapshot position (0 for arrays without snapshots) and component name. An array maps snapshot and component to a
   label; None is linopy's label -1 (masked out or shifted in), which contributes nothing to an expression. *)
Definition var : Type := (string * nat * string)%type.
Definition label : Type := option var.
Definition lin : Type := list (Q * label).
Inductive sense := Le | Ge | Eq.
Record con := { lhs : lin; sns : sense; rhs : Q }.

(* a solution gives every variable a value *)
Definition sol : Type := var -> Q.
Definition val (x : sol) (v : label) : Q := match v with Some v => x v | None => 0 end.
Fixpoint eval (x : sol) (l : lin) : Q :=
  match l with [] => 0 | (c, v) :: r => c * val x v + eval x r end.
Definition holds (x : sol) (c : con) : Prop :=
  match sns c with
  | Le => eval x (lhs c) <= rhs c
  | Ge => rhs c <= eval x (lhs c)
  | Eq => eval x (lhs c) == rhs c
  end.
Definition sat (x : sol) (cs : list con) : Prop := forall c, In c cs -> holds x c.

(* m.add_constraints(lhs, sign, rhs, mask=...) over snapshots and components *)
Definition add_constraints {A} (ts : list nat) (comps : list A) (mask : nat -> A -> bool) (f : nat -> A -> con) : list con :=
  flat_map (fun t => flat_map (fun a => if mask t a then [f t a] else []) comps) ts.

(* Variable.shift(snapshot=1) *)
Definition shift (f : nat -> label) (t : nat) : label := match t with O => None | S k => f k end.
