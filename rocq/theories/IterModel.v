From Coq Require Import List String Bool QArith Qround ZArith Arith.
Import ListNotations.
Open Scope list_scope.
Open Scope Q_scope.

(* pypsa/optimization/abstract.py 27-128. Unit sizes are positive (callers skip 0); an infinite nom_max is None. *)
Definition fdiv (a b : Q) : Z := Qfloor (a / b).                   (* a // b *)
Definition fmod (a b : Q) : Q := a - inject_Z (fdiv a b) * b.      (* a % b *)
Definition Qge_bool (a b : Q) : bool := Qle_bool b a.
Definition Qlt_bool (a b : Q) : bool := negb (Qle_bool b a).
Definition b2z (b : bool) : Z := if b then 1%Z else 0%Z.

Section D.
Variables (nom_opt : Q) (nom_max : option Q) (unit_size threshold : Q) (fractional : bool).
(* 107, 112 *)
Definition units : Z := (fdiv nom_opt unit_size + b2z (Qge_bool (fmod nom_opt unit_size) (threshold * unit_size)))%Z.
Definition block_capacity : Q := inject_Z units * unit_size.
(* 113-128; inf % unit_size is NaN, which is not 0, and inf - nom_opt is not below unit_size *)
Definition discretized_capacity : Q :=
  match nom_max with
  | None => block_capacity
  | Some m =>
      if Qeq_bool (fmod m unit_size) 0 then block_capacity
      else if Qlt_bool (m - nom_opt) unit_size then
        if fractional && Qge_bool (fmod nom_opt unit_size / fmod m unit_size) threshold then m
        else if Qlt_bool m unit_size then m
        else inject_Z (fdiv nom_opt unit_size) * unit_size
      else block_capacity
  end.
End D.

(* Iterative transmission expansion: abstract.py 131-352. Floating point numbers that occur are non-negative, infinite or NaN. *)
Inductive num := Fin (q : Q) | Inf | NaN.
Definition ndiv (a b : num) : num :=
  match a, b with
  | NaN, _ | _, NaN => NaN
  | Fin a, Fin b => if Qeq_bool b 0 then if Qeq_bool a 0 then NaN else Inf else Fin (a / b)
  | Fin _, Inf => Fin 0
  | Inf, Fin _ => Inf
  | Inf, Inf => NaN
  end.

Record line := {
  l_ext : bool;                 (* s_nom_extendable *)
  l_typed : bool;               (* type != "" *)
  l_ac : bool; l_dc : bool;     (* carrier of bus0 *)
  l_x : num; l_r : num; l_b : num; l_par : num;   (* x, r, b, num_parallel *)
  l_base : Q;                   (* base_s_nom, 195-199 *)
  l_nom : Q; l_opt : Q; l_max : option Q          (* s_nom, s_nom_opt, s_nom_max *)
}.

Section I.
(* n.optimize: the capacities it reports for extendable lines; None if the status is not "ok" *)
Variable optimize : nat -> list line -> option (list Q).
(* msq_diff(...) >= msq_threshold, 210-218 (square root and means are not modelled) *)
Variable diff_ge : list Q -> list line -> bool.
Variables min_iterations max_iterations : nat.

Definition set_opt (l : line) (o : Q) : line :=
  {| l_ext := l_ext l; l_typed := l_typed l; l_ac := l_ac l; l_dc := l_dc l; l_x := l_x l; l_r := l_r l; l_b := l_b l; l_par := l_par l;
     l_base := l_base l; l_nom := l_nom l; l_opt := (if l_ext l then o else l_nom l); l_max := l_max l |}.
Fixpoint assign_opt (ls : list line) (os : list Q) : list line :=
  match ls, os with l :: ls, o :: os => set_opt l o :: assign_opt ls os | _, _ => [] end.

(* 201 *)
Definition init_line (l : line) : line :=
  if l_ext l && l_typed l then
    {| l_ext := l_ext l; l_typed := l_typed l; l_ac := l_ac l; l_dc := l_dc l; l_x := l_x l; l_r := l_r l; l_b := l_b l;
       l_par := ndiv (Fin (l_nom l)) (Fin (l_base l)); l_base := l_base l; l_nom := l_nom l; l_opt := l_opt l; l_max := l_max l |}
  else l.
(* update_line_params 203-212 (x for AC lines, r for DC lines) *)
Definition update (l : line) (prev : Q) : line :=
  let factor := ndiv (Fin (l_opt l)) (Fin prev) in
  let un := l_ext l && negb (l_typed l) in
  {| l_ext := l_ext l; l_typed := l_typed l; l_ac := l_ac l; l_dc := l_dc l;
     l_x := if un && l_ac l then ndiv (l_x l) factor else l_x l;
     l_r := if un && l_dc l then ndiv (l_r l) factor else l_r l;
     l_b := l_b l;
     l_par := if l_ext l && l_typed l then ndiv (Fin (l_opt l)) (Fin (l_base l)) else l_par l;
     l_base := l_base l; l_nom := l_nom l; l_opt := l_opt l; l_max := l_max l |}.
Fixpoint update_all (ls : list line) (prev : list Q) : list line :=
  match ls, prev with l :: ls, p :: ps => update l p :: update_all ls ps | _, _ => [] end.

(* 279-303: state is the lines and the number of optimisations; None is the RuntimeError. fuel counts the iterations
   left up to max_iterations. s_nom_prev is s_nom_opt in every iteration, as iteration starts from 1. *)
Fixpoint iterate (fuel iteration : nat) (go : bool) (ls : list line) : option (list line * nat) :=
  if go || (iteration <? min_iterations)%nat then
    match fuel with
    | O => Some (ls, iteration - 1)%nat
    | S fuel =>
        let prev := map l_opt ls in
        match optimize iteration ls with
        | None => None
        | Some os =>
            let ls1 := assign_opt ls os in
            iterate fuel (S iteration) (diff_ge prev ls1) (update_all ls1 prev)
        end
    end
  else Some (ls, iteration - 1)%nat.

(* discretize_branch_components for lines, 222-250: every line, extendable or not *)
Definition set_nom (q : Q) (e : bool) (l : line) : line :=
  {| l_ext := e; l_typed := l_typed l; l_ac := l_ac l; l_dc := l_dc l; l_x := l_x l; l_r := l_r l; l_b := l_b l; l_par := l_par l;
     l_base := l_base l; l_nom := q; l_opt := l_opt l; l_max := l_max l |}.
Variable unit_size : option Q.
Variable threshold : Q.
Variable fractional : bool.
Definition fix_line (l : line) : line :=
  let l1 := if l_ext l then set_nom (l_opt l) false l else l in
  match unit_size with
  | Some u => set_nom (discretized_capacity (l_opt l1) (l_max l1) u threshold fractional) (l_ext l1) l1
  | None => l1
  end.
(* 312-343; the final optimisation reports s_nom for the lines, which are all fixed *)
Definition finish (l : line) : line :=
  let l1 := fix_line l in
  let l2 := set_opt l1 0 in
  if l_ext l then set_nom (l_nom l) true l2 else l2.

Definition expand (ls : list line) : option (list line * nat) :=
  match iterate max_iterations 1 true (map init_line ls) with
  | Some (ls, k) => Some (map finish ls, k)
  | None => None
  end.
End I.
