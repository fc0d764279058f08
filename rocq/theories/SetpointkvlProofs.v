From Coq Require Import ZArith List QArith Lia String.
From Verif Require Import CyclesModel.
From mathcomp Require Import all_ssreflect all_algebra.
From Verif Require Import MCRing LinflowModel LinflowSpec LinflowProofs KvlModel KvlSpec KvlProofs.
From Verif Require BalanceModel BalanceSpec BalanceProofs ControlModel PfoutModel PfoutSpec PfoutProofs SetpointModel SetpointSpec SetpointProofs.
Set Implicit Arguments. Unset Strict Implicit. Unset Printing Implicit Defensive.
Import Order.TTheory GRing.Theory Num.Theory.
Local Open Scope ring_scope.

(* rational numbers in any ordered field *)
Section QF.
Variable F : realFieldType.
Add Field FFq : (field_th F).
Definition qF (q : Q) : F := zF F (Qnum q) / zF F (Zpos (Qden q)).

Lemma zF_nat k : zF F (Z.of_nat k) = k%:R.
Proof.
by rewrite /zF Nat2Z.id (_ : Z.to_nat (- Z.of_nat k) = 0%N) ?subr0 //; lia.
Qed.
Lemma zFM a b : zF F (a * b) = zF F a * zF F b.
Proof.
have P : forall i j, zF F (Z.of_nat i * Z.of_nat j) = zF F (Z.of_nat i) * zF F (Z.of_nat j).
  by move=> i j; rewrite -Nat2Z.inj_mul !zF_nat multE natrM.
have S : forall c, exists k, c = Z.of_nat k \/ c = Z.opp (Z.of_nat k).
  by move=> c; exists (Z.to_nat (Z.abs c)); lia.
case: (S a) => i [->|->]; case: (S b) => j [->|->].
- exact: P.
- by rewrite Z.mul_opp_r !zFN P mulrN.
- by rewrite Z.mul_opp_l !zFN P mulNr.
by rewrite Z.mul_opp_opp !zFN P mulrNN.
Qed.
Lemma zFpos p : zF F (Zpos p) != 0.
Proof.
rewrite -positive_nat_Z zF_nat pnatr_eq0; apply/eqP => e.
by have := Pos2Nat.is_pos p; rewrite e => h; inversion h.
Qed.
Lemma qF_eq q r : Qeq q r -> qF q = qF r.
Proof.
rewrite /Qeq /qF => e; apply/eqP; rewrite eqr_div ?zFpos //.
by rewrite -!zFM e.
Qed.
Lemma qFD q r : qF (Qplus q r) = qF q + qF r.
Proof.
rewrite /qF /Qplus /= Pos2Z.inj_mul zFD !zFM.
have := zFpos (Qden q); have := zFpos (Qden r) => /eqP h1 /eqP h2.
by ffield F; split.
Qed.
Lemma qFN q : qF (Qopp q) = - qF q.
Proof. by rewrite /qF /Qopp /= zFN mulNr. Qed.
Lemma qF0 : qF (Qmake Z0 xH) = 0.
Proof. by rewrite /qF /= zF0 mul0r. Qed.

Lemma qF_total A (g : A -> Q) (l : list A) : qF (BalanceSpec.total g l) = \sum_(a <- l) qF (g a).
Proof.
elim: l => [|a l IH]; first by rewrite big_nil -[RHS]qF0; exact: qF_eq.
by rewrite big_cons -IH -qFD.
Qed.
Lemma qF_total_ord A (d : A) (g : A -> Q) (l : list A) m : List.length l = m ->
  qF (BalanceSpec.total g l) = \sum_(i < m) qF (g (nth d l i)).
Proof. by move=> <-; rewrite qF_total (big_nth d) big_mkord. Qed.
End QF.

Lemma nth_error_nth A (d : A) (l : list A) i a : List.nth_error l i = Some a -> nth d l i = a.
Proof. by elim: l i => [|b l IH] [|i] //=; [case|exact: IH]. Qed.
Lemma nth_error_inj A (l : list A) i j a :
  List.NoDup l -> List.nth_error l i = Some a -> List.nth_error l j = Some a -> i = j.
Proof.
move=> nd hi hj; apply: (proj1 (List.NoDup_nth_error l) nd).
  by apply/List.nth_error_Some; rewrite hi.
by rewrite hi hj.
Qed.
Lemma nth_error_ord A (d : A) (l : list A) k (i : 'I_k) : List.length l = k -> List.nth_error l i = Some (nth d l i).
Proof.
move=> e; case: i => i; rewrite -{}e /=.
by elim: l i => [|b l IH] [|i] //=; exact: IH.
Qed.

Section Flow.
Variable F : realFieldType.
Add Field FFr : (field_th F).
Variables (nn m : nat) (b0 b1 : 'I_m -> 'I_(1 + nn)) (z : 'I_m -> F) (sc : F).
Variables (cycles : list (list nat)) (cols : list (list (nat * Z))) (f : 'I_m -> F).
Variables (n : BalanceModel.net) (x : LinModel.sol) (t : nat) (bs : list string) (rp : string -> Q).

Hypothesis nd : List.NoDup bs.
Hypothesis Lb : List.length bs = (1 + nn)%N.
Hypothesis Lm : List.length (SetpointSpec.sub_branches n bs) = m.
Hypothesis cl : SetpointSpec.closed n t bs.
Hypothesis num : forall l : 'I_m, exists v br,
  [/\ List.nth_error (SetpointSpec.sub_branches n bs) l = Some (v, br),
      List.nth_error bs (b0 l) = Some (BalanceModel.b_bus0 br),
      List.nth_error bs (b1 l) = Some (BalanceModel.b_bus1 br) &
      f l = qF F (BalanceSpec.flow x t v br)].
Hypothesis rpE : forall b, List.In b bs -> Qeq (rp b) (SetpointSpec.taken n x t b).

Let p : 'cV[F]_(1 + nn) := \col_i qF F (rp (nth ""%string bs i)).

Lemma nth_in (i : 'I_(1 + nn)) : List.In (nth ""%string bs i) bs.
Proof. by apply: (@List.nth_error_In _ bs i); apply: nth_error_ord; rewrite Lb. Qed.

Lemma at_ord (i j : 'I_(1 + nn)) a q : List.nth_error bs j = Some a ->
  qF F (BalanceSpec.at_bus a (nth ""%string bs i) q) = if j == i then qF F q else 0.
Proof.
move=> h; rewrite /BalanceSpec.at_bus; have hi := nth_error_ord ""%string i Lb.
case: (String.eqb_spec a (nth ""%string bs i)) => e; case: eqP => e' //; last by rewrite qF0.
- by case: e'; apply: val_inj; apply: (nth_error_inj nd h); rewrite e.
- by case: e; rewrite -(nth_error_nth ""%string h) e'.
Qed.

Lemma flow_balanced : balanced_at b0 b1 (fun i => p i ord0) f.
Proof.
move=> i; rewrite mxE (qF_eq F (rpE (nth_in i))) (qF_eq F (SetpointProofs.taken_sub n x t bs _ cl (nth_in i))).
set d := (""%string, BalanceModel.Build_branch ""%string ""%string ""%string (fun=> false)).
rewrite (qF_total_ord F d _ Lm) /outflow.
rewrite [X in X - _]big_mkcond [X in _ - X]big_mkcond /= -sumrB; apply: eq_bigr => l _.
case: (num l) => v [br [h h0 h1 ->]]; rewrite (nth_error_nth d h) /= /SetpointSpec.leaving /Qminus qFD qFN.
by rewrite (at_ord i _ h0) (at_ord i _ h1).
Qed.

Lemma flow_sum : \sum_i p i ord0 = 0.
Proof.
rewrite (eq_bigr _ (fun i _ => esym (flow_balanced i))) /outflow sumrB.
have S : forall b : 'I_m -> 'I_(1 + nn), \sum_i \sum_(l | b l == i) f l = \sum_l f l.
  move=> b; rewrite [RHS](partition_big b xpredT) //=.
by rewrite !S subrr.
Qed.

Theorem fixed_flows :
  (forall l, b0 l != b1 l) -> sc != 0 -> (forall l, 0 < z l) -> LinflowSpec.connected b0 b1 ->
  find_cycles (branch_list b0 b1) cycles = Some cols -> cycle_basis F b0 b1 cycles ->
  kvl_constraints z xpredT sc cols f ->
  forall l, branch_p0 b0 b1 z (fun=> 0) p l = f l.
Proof.
move=> ns sn zp cn fc cb kv l.
have [h _] := @kvl_lpf F nn m b0 b1 z sc cycles cols p f ns sn zp cn fc cb flow_sum.
by rewrite (h (conj kv flow_balanced) l).
Qed.
End Flow.

Theorem flows_of_fixed :
  forall (F : realFieldType) (nn m : nat) (b0 b1 : 'I_m -> 'I_(1 + nn)) (z : 'I_m -> F) (sc : F)
         (cycles : list (list nat)) (cols : list (list (nat * Z))) (f : 'I_m -> F)
         s n0 nc c n x sns t tb,
    SetpointSpec.optimised s n0 nc c n false x sns t tb -> SetpointSpec.no_conductance tb ->
    List.length (ControlModel.buses_o c) = (1 + nn)%N ->
    List.length (SetpointSpec.sub_branches n (ControlModel.buses_o c)) = m ->
    (forall l : 'I_m, exists v br,
      [/\ List.nth_error (SetpointSpec.sub_branches n (ControlModel.buses_o c)) l = Some (v, br),
          List.nth_error (ControlModel.buses_o c) (b0 l) = Some (BalanceModel.b_bus0 br),
          List.nth_error (ControlModel.buses_o c) (b1 l) = Some (BalanceModel.b_bus1 br) &
          f l = qF F (BalanceSpec.flow x t v br)]) ->
    (forall l, b0 l != b1 l) -> sc != 0 -> (forall l, 0 < z l) -> LinflowSpec.connected b0 b1 ->
    find_cycles (branch_list b0 b1) cycles = Some cols -> cycle_basis F b0 b1 cycles ->
    kvl_constraints z xpredT sc cols f ->
    let r := PfoutModel.lpf_out c (SetpointModel.fix_optimal_dispatch tb) in
    forall l, branch_p0 b0 b1 z (fun=> 0)
      (\col_i qF F (PfoutModel.r_p r (nth ""%string (ControlModel.buses_o c) i))) l = f l.
Proof.
move=> F nn m b0 b1 z sc cycles cols f s n0 nc c n x sns t tb op nc0 Lb Lm num ns sn zp cn fc cb kv r.
have nd := SetpointProofs.optimised_nodup _ _ _ _ _ _ _ _ _ _ op.
have cl := SetpointProofs.optimised_closed _ _ _ _ _ _ _ _ _ _ op.
have [rp _] := SetpointProofs.fixed_lpf_lossless _ _ _ _ _ _ _ _ _ op nc0.
exact: (fixed_flows nd Lb Lm cl num rp ns sn zp cn fc cb kv).
Qed.
