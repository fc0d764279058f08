From Coq Require Import QArith ZArith Bool.

(* pypsa/pf.py 275-317 newton_raphson_sparse. The residual f, the step guess - spsolve(dfdx(guess), F) and the
   norm are arbitrary functions; None is NaN, which every comparison with > rejects. *)
Section Newton.
Variables X V : Type.
Variable f : X -> V.
Variable step : X -> V -> X.
Variable norm : V -> option Q.

Definition gt (a b : option Q) : bool :=
  match a, b with Some x, Some y => negb (Qle_bool x y) | _, _ => false end.

Fixpoint loop (fuel : nat) (tol : option Q) (guess : X) (n : nat) : X * nat :=
  match fuel with
  | O => (guess, n)
  | S k => if gt (norm (f guess)) tol then loop k tol (step guess (f guess)) (S n) else (guess, n)
  end.

Record nr_result := { nr_guess : X; nr_iter : nat; nr_diff : option Q; nr_converged : bool }.

Definition newton_raphson (guess : X) (tol : option Q) (lim_iter : Z) : nr_result :=
  let '(g, n) := loop (Z.to_nat lim_iter) tol guess 0 in
  let diff := norm (f g) in
  {| nr_guess := g; nr_iter := n; nr_diff := diff;
     nr_converged := if gt diff tol then false
                     else match diff with None => false | Some _ => true end |}.
End Newton.
