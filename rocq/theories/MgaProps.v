From Coq Require Import List String Bool QArith ZArith Arith Lqa.
From Verif Require Import LinModel ObjectiveModel ObjectiveSpec ObjectiveProofs OpexModel OpexSpec OpexProofs MgaModel MgaSpec MgaProofs.
Import ListNotations.
Open Scope string_scope.
Open Scope list_scope.
Open Scope Q_scope.

(* the candidates allowed are those whose cost is within the slack of the cost of the stored solution *)
Theorem C64_budget : forall n ws solved x0 weights sense slack c o x,
  single n -> alike n ws -> no_links n -> proper n a_start -> proper n a_shut -> const_fixed n x ->
  optimize_mga n ws solved x0 weights sense slack = Some (c, o) -> (holds x c <-> near n x0 slack x).
Proof. exact mga_budget. Qed.
Print Assumptions C64_budget.

(* the stored solution is one of them *)
Theorem C64_optimum_allowed : forall n ws solved x0 weights sense slack c o,
  single n -> alike n ws -> no_links n -> proper n a_start -> proper n a_shut -> const_fixed n x0 ->
  0 <= slack -> 0 <= system_cost n x0 -> optimize_mga n ws solved x0 weights sense slack = Some (c, o) -> holds x0 c.
Proof. exact mga_optimum. Qed.
Print Assumptions C64_optimum_allowed.

(* what the solver returns for the new model has the least (greatest) figure among all feasible candidates near the optimum *)
Theorem C64_best : forall n ws solved x0 weights sense slack c o (P : sol -> Prop) y,
  single n -> alike n ws -> no_links n -> proper n a_start -> proper n a_shut -> (forall x, P x -> const_fixed n x) ->
  optimize_mga n ws solved x0 weights sense slack = Some (c, o) ->
  least (fun x => P x /\ holds x c) (fun x => eval x o) y ->
  let l := match weights with Some l => l | None => default_wishes end in
  (parse sense = Some 1%Z -> least (fun x => P x /\ near n x0 slack x) (fun x => figures n x l) y) /\
  (parse sense = Some (-1)%Z -> greatest (fun x => P x /\ near n x0 slack x) (fun x => figures n x l) y).
Proof. exact mga_best. Qed.
Print Assumptions C64_best.

(* no weights: the capacity of the extendable generators *)
Theorem C64_default : forall n x, figures n x default_wishes == installed_generation n x.
Proof. exact default_figure. Qed.
Print Assumptions C64_default.

(* words starting with min or max and the sign of an integer; one of the two senses or an error *)
Theorem C64_sense : (forall w, parse (Word ("min" ++ w)) = Some 1%Z /\ parse (Word ("max" ++ w)) = Some (-1)%Z) /\
  (forall z, parse (Int z) = if Z.eqb z 0 then None else Some (Z.sgn z)) /\ (forall s d, parse s = Some d -> d = 1%Z \/ d = (-1)%Z) /\
  (forall n ws x0 weights s slack, parse s = None -> optimize_mga n ws true x0 weights s slack = None).
Proof. exact (conj sense_words (conj sense_ints (conj parse_two bad_sense))). Qed.
Print Assumptions C64_sense.

(* it works whenever the wishes make sense, and not before the network is solved *)
Theorem C64_defined : forall n ws x0 weights sense slack ps s,
  no_squares n -> objective n = Some ps -> (0 < nsnaps n)%nat -> parse sense = Some s ->
  let l := match weights with Some l => l | None => default_wishes end in
  l <> [] -> (forall w, In w l -> granted n w) -> exists c o, optimize_mga n ws true x0 weights sense slack = Some (c, o).
Proof. exact mga_defined. Qed.
Print Assumptions C64_defined.
Theorem C64_unsolved : forall n ws x0 weights sense slack, optimize_mga n ws false x0 weights sense slack = None.
Proof. exact unsolved. Qed.
Print Assumptions C64_unsolved.

(* a second run starts from the result of the first: the slacks multiply *)
Theorem C64_compounds : forall n ws x0 x1 x2 w1 w2 s1 s2 slack c1 o1 c2 o2,
  single n -> alike n ws -> no_links n -> proper n a_start -> proper n a_shut -> const_fixed n x1 -> const_fixed n x2 -> 0 <= 1 + slack ->
  optimize_mga n ws true x0 w1 s1 slack = Some (c1, o1) -> holds x1 c1 -> optimize_mga n ws true x1 w2 s2 slack = Some (c2, o2) -> holds x2 c2 ->
  system_cost n x2 <= (1 + slack) * (1 + slack) * system_cost n x0.
Proof. exact mga_twice. Qed.
Print Assumptions C64_compounds.
(* and the result of the second may be outside the slack of the first optimum *)
Theorem C64_second_run_refuted : exists n ws x0 x1 x2 slack c1 o1 c2 o2, single n /\ alike n ws /\ no_links n /\ proper n a_start /\ proper n a_shut /\
  optimize_mga n ws true x0 None (Word "min") slack = Some (c1, o1) /\ holds x1 c1 /\ optimize_mga n ws true x1 None (Word "min") slack = Some (c2, o2) /\ holds x2 c2 /\
  ~ near n x0 slack x2.
Proof. exact compounds. Qed.
Print Assumptions C64_second_run_refuted.

(* the statistics leave out what links cost: the optimum itself may be forbidden *)
Theorem C64_links_refuted : exists n ws x slack c o, single n /\ alike n ws /\ proper n a_start /\ proper n a_shut /\ const_fixed n x /\ 0 < slack /\ 0 < system_cost n x /\
  optimize_mga n ws true x (Some [{| for_class := "Link"; for_attr := "p"; with_coeffs := Scalar 1 |}]) (Word "min") slack = Some (c, o) /\ ~ holds x c.
Proof. exact links_excluded. Qed.
Print Assumptions C64_links_refuted.
(* likewise where the weighting of generators differs from that of the objective *)
Theorem C64_weightings_refuted : exists n ws x slack c o, single n /\ no_links n /\ proper n a_start /\ proper n a_shut /\ const_fixed n x /\ 0 < slack /\ 0 < system_cost n x /\
  (forall t, w_objective ws t == w_snap n t) /\
  optimize_mga n ws true x None (Word "min") slack = Some (c, o) /\ ~ holds x c.
Proof. exact weightings_excluded. Qed.
Print Assumptions C64_weightings_refuted.
(* with a negative cost a positive slack asks for a better solution than the optimum *)
Theorem C64_negative_refuted : exists n ws x slack c o, single n /\ alike n ws /\ no_links n /\ proper n a_start /\ proper n a_shut /\ const_fixed n x /\ 0 < slack /\
  optimize_mga n ws true x (Some [{| for_class := "Generator"; for_attr := "p"; with_coeffs := Scalar 1 |}]) (Word "min") slack = Some (c, o) /\ ~ holds x c.
Proof. exact negative_excluded. Qed.
Print Assumptions C64_negative_refuted.
(* quadratic costs, and a Series or dict for a decision over snapshots, raise *)
Theorem C64_quadratic_refuted : exists n ws, single n /\ alike n ws /\ (exists ps, objective n = Some ps) /\ forall x0 weights sense slack, optimize_mga n ws true x0 weights sense slack = None.
Proof. exact quadratic_raises. Qed.
Print Assumptions C64_quadratic_refuted.
Theorem C64_series_refuted : forall n ws x0 weights sense slack w f l, weights = Some l -> In w l -> In (for_class w, for_attr w) operational -> with_coeffs w = Series f ->
  optimize_mga n ws true x0 weights sense slack = None.
Proof. exact series_stops. Qed.
Print Assumptions C64_series_refuted.

(* one generator to be built at 10 with running cost 1, one that exists with running cost 5; two hours of a load of 4 *)
Example C64_case_ex : single two /\ alike two (weigh 1 1 1) /\ no_links two /\ proper two a_start /\ proper two a_shut /\ forall x, const_fixed two x.
Proof. exact two_ok. Qed.
Example C64_budget_ex : exists c o, optimize_mga two (weigh 1 1 1) true (plan 0 0 4) None (Word "min") (1 # 20) = Some (c, o) /\
  system_cost two (plan 0 0 4) == 40 /\ rhs c == 42 /\ holds (plan 0 0 4) c /\ holds (plan 0 1 4) c /\ ~ holds (plan 1 1 4) c /\ eval (plan 3 1 4) o == 3.
Proof. exact two_case. Qed.
(* the most that can be built within a slack of 5 per cent is 1 *)
Definition meets (x : sol) : Prop := exists cap p, 0 <= p /\ p <= cap /\ x = plan cap p (4 - p).
Example C64_best_ex : exists c o, optimize_mga two (weigh 1 1 1) true (plan 0 0 4) None (Word "maximise") (1 # 20) = Some (c, o) /\
  least (fun x => meets x /\ holds x c) (fun x => eval x o) (plan 1 1 3) /\
  greatest (fun x => meets x /\ near two (plan 0 0 4) (1 # 20) x) (fun x => installed_generation two x) (plan 1 1 3).
Proof.
  eexists. eexists. split; [reflexivity|].
  assert (C : forall cap p, system_cost two (plan cap p (4 - p)) == 40 + 10 * cap - 8 * p) by (intros cap p; cbv -[Qplus Qmult Qminus Qopp Qeq]; ring).
  assert (I : forall cap p q, installed_generation two (plan cap p q) == cap) by (intros cap p q; cbv -[Qplus Qmult Qminus Qopp Qeq]; ring).
  split.
  - split; [split; [exists 1, 1; repeat split; discriminate|vm_compute; discriminate]|]. intros x [[cap [p [P1 [P2 ->]]]] H].
    cbv -[Qplus Qmult Qminus Qopp Qle Qeq] in H |- *. lra.
  - split; [split; [exists 1, 1; repeat split; discriminate|vm_compute; discriminate]|]. intros x [[cap [p [P1 [P2 ->]]]] H].
    rewrite !I. unfold near in H. rewrite C in H. change (system_cost two (plan 0 0 4)) with (system_cost two (plan 0 0 (4 - 0))) in H. rewrite C in H. lra.
Qed.
