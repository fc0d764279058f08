From Coq Require Import List String Bool QArith ZArith Arith.
From Verif Require Import LinModel ObjectiveModel OpexModel.
Import ListNotations.
Open Scope string_scope.
Open Scope list_scope.
Open Scope Q_scope.

(* Near-optimal alternatives: pypsa/optimization/abstract.py 513-659 without investment periods, statistics/expressions.py 468-471,
   573-577, 1127-1184. x0 is the solution stored in the network when the function is called. None is an exception. *)

(* the argument sense: a string, an int (bool is one: True 1, False 0), anything else *)
Inductive sense_arg := Word (s : string) | Int (z : Z) | Other.
(* 600-616 *)
Definition parse (s : sense_arg) : option Z :=
  match s with
  | Word w => if prefix "min" w then Some 1%Z else if prefix "max" w then Some (-1)%Z else None
  | Int z => if (0 <? z)%Z then Some 1%Z else if (z <? 0)%Z then Some (-1)%Z else None
  | Other => None
  end.

(* coefficients of one variable: a float, a dict or Series by name, a DataFrame by snapshot and name; None where not given (NaN) *)
Inductive coeffs := Scalar (q : Q) | Series (f : string -> option Q) | Frame (f : nat -> string -> option Q).
Record wish := { for_class : string; for_attr : string; with_coeffs : coeffs }.

Section M.
Variable n : net.
Variable ws : weightings.

(* expressions.py 573-577: ..._nom * capital_cost of active assets *)
Definition installed_capex : list (string * string * Q) :=
  flat_map (fun ca => map (fun a => (fst ca, a_name a, a_nom a * a_capital a)) (filter a_flag (cls n (fst ca)))) nominal.
(* 583-584 *)
Definition optimal_cost (x0 : sol) : Q := sum_series (capex n x0) + sum_series (opex n ws x0).
Definition fixed_cost : Q := sum_series installed_capex.

(* 592-598: objective + fixed_cost <= (1 + slack) * optimal_cost; linopy takes the constant to the right-hand side and refuses
   a constraint on a quadratic expression *)
Fixpoint linear (ps : list piece) : option lin :=
  match ps with
  | [] => Some []
  | Linear l :: r => option_map (app l) (linear r)
  | _ :: _ => None
  end.
Definition budget (x0 : sol) (slack : Q) : option con :=
  match objective n with
  | Some ps => option_map (fun l => {| lhs := l; sns := Le; rhs := (1 + slack) * optimal_cost x0 - fixed_cost |}) (linear ps)
  | None => None
  end.

(* variables.csv: variables over snapshots (those of unit commitment and modules are left out) *)
Definition operational : list (string * string) :=
  [("Generator", "p"); ("Line", "s"); ("Transformer", "s"); ("Link", "p"); ("Store", "e"); ("Store", "p");
   ("StorageUnit", "p_dispatch"); ("StorageUnit", "p_store"); ("StorageUnit", "state_of_charge"); ("StorageUnit", "spill")].
Definition row_eqb (a b : string * string) : bool := String.eqb (fst a) (fst b) && String.eqb (snd a) (snd b).
(* a NaN coefficient disappears when linopy collects the terms of the objective *)
Definition given (q : option Q) : Q := match q with Some q => q | None => 0 end.

(* 619-631: the terms of m[c-attr] * coeffs * sense; the array exists if the class has assets (extendable ones for capacities).
   A Series for a variable over snapshots raises (Series.reindex has no argument columns); a DataFrame for capacities is not modelled *)
Definition wish_terms (sense : Z) (w : wish) : option lin :=
  let c := for_class w in let attr := for_attr w in
  if existsb (row_eqb (c, attr)) nominal then
    if nonempty (ext n c) then
      match with_coeffs w with
      | Scalar q => Some (map (fun a => (q * inject_Z sense, nom_label c attr a)) (ext n c))
      | Series f => Some (map (fun a => (given (f (a_name a)) * inject_Z sense, nom_label c attr a)) (ext n c))
      | Frame _ => None
      end
    else None
  else if existsb (row_eqb (c, attr)) operational && exists_array n c attr then
    match with_coeffs w with
    | Scalar q => Some (flat_map (fun a => map (fun t => (q * inject_Z sense, op_label c attr a t)) (seq 0 (nsnaps n))) (cls n c))
    | Series _ => None
    | Frame f => Some (flat_map (fun a => map (fun t => (given (f t (a_name a)) * inject_Z sense, op_label c attr a t)) (seq 0 (nsnaps n))) (cls n c))
    end
  else None.
Fixpoint alternative (sense : Z) (l : list wish) : option lin :=
  match l with
  | [] => Some []
  | w :: r => match wish_terms sense w, alternative sense r with Some a, Some b => Some (a ++ b) | _, _ => None end
  end.
(* 566-567 *)
Definition default_wishes : list wish := [{| for_class := "Generator"; for_attr := "p_nom"; with_coeffs := Series (fun _ => Some 1) |}].
(* 569-572, 600-633: the constraint added and the objective to be minimised *)
Definition optimize_mga (solved : bool) (x0 : sol) (weights : option (list wish)) (sense : sense_arg) (slack : Q) : option (con * lin) :=
  if solved then
    match budget x0 slack, parse sense with
    | Some b, Some s =>
        match alternative s (match weights with Some l => l | None => default_wishes end) with
        | Some o => match o with [] => None | _ => Some (b, o) end
        | None => None
        end
    | _, _ => None
    end
  else None.
End M.
