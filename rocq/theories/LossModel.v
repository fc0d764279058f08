From Coq Require Import List String Bool QArith ZArith Arith.
From Verif Require Import LinModel.
Import ListNotations.
Open Scope string_scope.
Open Scope list_scope.
Open Scope Q_scope.

(* Transmission losses: pypsa/optimization/constraints.py 978-1020, variables.py 145-157.
   Cls is the branch class (Line or Transformer); other classes are skipped (981-982). Infinite numbers are None. *)
Record branch := {
  b_name : string;
  b_active : nat -> bool;
  b_r : Q;                      (* r_pu_eff *)
  b_max_pu : nat -> Q;          (* s_max_pu *)
  b_ext : bool;                 (* s_nom_extendable *)
  b_nom : option Q;             (* s_nom *)
  b_nom_max : option Q          (* s_nom_max *)
}.
Definition q_of (n : nat) : Q := inject_Z (Z.of_nat n).

Section L.
Variable cls : string.
Variable tangents : nat.
Variable T : nat.

(* 988-990 *)
Definition limit (b : branch) : option Q := if b_ext b then b_nom_max b else b_nom b.
Definition limit_value (b : branch) : Q := match limit b with Some q => q | None => 0 end.
Definition loss (b : branch) (t : nat) : label := if b_active b t then Some ((cls ++ "-loss")%string, t, b_name b) else None.
Definition flow (b : branch) (t : nat) : label := if b_active b t then Some ((cls ++ "-s")%string, t, b_name b) else None.

(* 1000-1005 *)
Definition upper_limit (b : branch) (t : nat) : Q := b_r b * ((b_max_pu b t * limit_value b) * (b_max_pu b t * limit_value b)).
Definition upper (bs : list branch) : list con :=
  add_constraints (seq 0 T) bs (fun t b => b_active b t) (fun t b => {| lhs := [(1, loss b t)]; sns := Le; rhs := upper_limit b t |}).

(* 1007-1020 *)
Definition p_k (k : nat) (b : branch) (t : nat) : Q := q_of k / q_of tangents * b_max_pu b t * limit_value b.
Definition loss_k (k : nat) (b : branch) (t : nat) : Q := b_r b * (p_k k b t * p_k k b t).
Definition slope_k (k : nat) (b : branch) (t : nat) : Q := 2 * b_r b * p_k k b t.
Definition offset_k (k : nat) (b : branch) (t : nat) : Q := loss_k k b t - slope_k k b t * p_k k b t.
Definition tangent (k : nat) (sign : Q) (bs : list branch) : list con :=
  add_constraints (seq 0 T) bs (fun t b => b_active b t)
    (fun t b => {| lhs := [(1, loss b t); (sign * slope_k k b t, flow b t)]; sns := Ge; rhs := offset_k k b t |}).

(* None is the ValueError of 992-997 *)
Definition loss_constraints (bs : list branch) : option (list con) :=
  match bs with
  | [] => Some []
  | _ =>
    if forallb (fun b => match limit b with Some _ => true | None => false end) bs then
      Some (upper bs ++ flat_map (fun k => flat_map (fun s => tangent k s bs) [-(1); 1]) (seq 1 tangents))
    else None
  end.
End L.
