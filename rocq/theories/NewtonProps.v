From Coq Require Import QArith ZArith Bool Lia.
From Verif Require Import NewtonModel NewtonProofs.
Open Scope nat_scope.

(* the loop reports exactly its own trace *)
Theorem C24_trace X V f step norm x tol lim :
  let r := newton_raphson X V f step norm x tol lim in
  nr_iter _ r <= Z.to_nat lim /\ nr_guess _ r = iterate X V f step (nr_iter _ r) x /\
  nr_diff _ r = norm (f (nr_guess _ r)) /\
  forall j, j < nr_iter _ r -> exists d t, norm (f (iterate X V f step j x)) = Some d /\ tol = Some t /\ (t < d)%Q.
Proof. exact (run_trace X V f step norm x tol lim). Qed.
Print Assumptions C24_trace.

(* converged is reported exactly if some iterate within the limit is within tolerance and no earlier one is NaN *)
Theorem C24_converged_iff X V f step norm x t lim :
  nr_converged _ (newton_raphson X V f step norm x (Some t) lim) = true <->
  exists k d, k <= Z.to_nat lim /\ norm (f (iterate X V f step k x)) = Some d /\ (d <= t)%Q /\
    (forall j, j < k -> exists e, norm (f (iterate X V f step j x)) = Some e /\ (t < e)%Q).
Proof. exact (run_converged X V f step norm x t lim). Qed.
Print Assumptions C24_converged_iff.

Theorem C24_not_converged X V f step norm x t lim :
  let r := newton_raphson X V f step norm x (Some t) lim in
  nr_converged _ r = false ->
  nr_diff _ r = None \/ nr_iter _ r = Z.to_nat lim /\ exists d, nr_diff _ r = Some d /\ (t < d)%Q.
Proof. exact (run_not_converged X V f step norm x t lim). Qed.
Print Assumptions C24_not_converged.

Theorem C24_good_guess X V f step norm x t lim d : norm (f x) = Some d -> (d <= t)%Q ->
  let r := newton_raphson X V f step norm x (Some t) lim in nr_iter _ r = 0 /\ nr_guess _ r = x /\ nr_converged _ r = true.
Proof. exact (run_zero X V f step norm x t lim d). Qed.
Print Assumptions C24_good_guess.

(* f x = x - 4 solved by halving the error: three steps from 8 + 4 *)
Example C24_ex :
  let r := newton_raphson Q Q (fun x => x - 4)%Q (fun x F => x - F / 2)%Q (fun F => Some F) 12%Q (Some 1%Q) 10 in
  nr_iter _ r = 3 /\ nr_converged _ r = true /\
  nr_converged _ (newton_raphson Q Q (fun x => x - 4)%Q (fun x F => x - F / 2)%Q (fun F => Some F) 12%Q (Some 1%Q) 2) = false.
Proof. repeat split. Qed.

(* a NaN tolerance is reported as convergence whatever the residual *)
Theorem C24_nan_tolerance_refuted :
  exists X V f step norm x lim, nr_converged _ (newton_raphson X V f step norm x None lim) = true /\
    exists d, norm (f x) = Some d /\ (1000 < d)%Q.
Proof.
  exists Q, Q, (fun x => x), (fun x _ => x), (fun x => Some x), 2000%Q, 10%Z. split; [reflexivity|]. exists 2000%Q. split; reflexivity.
Qed.
Print Assumptions C24_nan_tolerance_refuted.
