From Coq Require Import List String Bool QArith Qabs Arith.
From Verif Require Import ControlModel PfoutModel BalanceSpec.
Import ListNotations.
Open Scope string_scope.
Open Scope list_scope.
Open Scope Q_scope.

(* ---------- what the set points mean ---------- *)
Definition rows (t : tabs) : list one := t_gens t ++ List.concat (t_rest t).

(* power fed in at bus b by one row, if it is switched on and connected there *)
Definition fed (f : one -> Q) (b : string) (o : one) : Q :=
  if o_active o then at_bus (o_bus o) b (o_sign o * f o) else 0.

(* power a link with set point p delivers at bus b: -p at bus0, efficiency times p at every other port *)
Definition link_fed (ports : nat) (b : string) (l : lnk) : Q :=
  at_bus (l_bus l 0) b (- l_pset l) +
  total (fun i => at_bus (l_bus l i) b (l_eff l i * l_pset l)) (seq 1 ports).

Definition set_p (t : tabs) (b : string) : Q :=
  total (fed o_pset b) (rows t) + total (link_fed (t_ports t) b) (t_links t).
Definition set_q (t : tabs) (b : string) : Q := total (fed o_qset b) (rows t).
(* the linear power flow sees shunts as constant loads *)
Definition set_p_lin (t : tabs) (b : string) : Q := set_p t b + total (fed o_pset b) (t_shunts t).

(* ---------- what the result tables add up to ---------- *)
Definition inj_p (t : tabs) (b : string) : Q :=
  total (fed o_p b) (rows t) + total (link_fed (t_ports t) b) (t_links t).
Definition inj_q (t : tabs) (b : string) : Q := total (fed o_q b) (rows t).
Definition inj_p_lin (t : tabs) (b : string) : Q := inj_p t b + total (fed o_p b) (t_shunts t).

Definition close (tol x y : Q) : Prop := Qabs (x - y) <= tol.

(* ---------- distributed slack ---------- *)
(* the weight the caller gives to a generator *)
Definition weight_of (k : weighting) (o : one) : Q :=
  match k with
  | PSet => o_pset o
  | PNom => o_pnom o
  | PNomOpt => o_popt o
  | Custom _ w => total (fun e => if String.eqb (fst e) (o_name o) then snd e else 0) w
  end.
(* a generator that is switched on and counts positively *)
Definition plain (o : one) : Prop := o_active o = true /\ o_sign o == 1.
(* the generators of the sub-network are those of the network at its buses *)
Definition own_gens (buses : list string) (all gs : list one) : Prop :=
  gs = filter (fun o => if in_dec string_dec (o_bus o) buses then true else false) all.
(* active power of every generator after against its set point before *)
Definition moved (before after : list one) (f : one -> Q) : Prop :=
  Forall2 (fun o o' => o_name o' = o_name o /\ o_bus o' = o_bus o /\ o_p o' == o_pset o + f o) before after.
(* custom weights, one per key, either for generators of the sub-network or for buses that have generators *)
Definition for_gens (w : list (string * Q)) (gs : list one) : Prop := forall e, In e w -> In (fst e) (map o_name gs).
Definition for_buses (w : list (string * Q)) (gs : list one) : Prop := forall e, In e w -> In (fst e) (map o_bus gs).
Definition weights_ok (k : weighting) (gs : list one) : Prop :=
  match k with
  | Custom _ w => NoDup (map fst w) /\ (for_gens w gs \/ for_buses w gs)
  | _ => True
  end.
Definition by_generator (k : weighting) (gs : list one) : Prop :=
  match k with
  | PSet | PNom => True
  | PNomOpt => False
  | Custom _ w => NoDup (map fst w) /\ for_gens w gs
  end.

(* the rows of the generator table used for sub-network s are the generators at its buses *)
Definition gens_of (s : string) (n : cnet) (gs : list one) : Prop :=
  map (fun o => (o_name o, o_bus o)) gs =
  map (fun g => (gname g, gbus g))
    (filter (fun g => existsb (fun x => String.eqb (bname x) (gbus g) && String.eqb (bsub x) s) (buses n)) (gens n)).
(* active power an untouched row reports: its set point if active, else what was there before *)
Definition plain_p (o : one) : Q := if o_active o then o_pset o else o_p o.
Definition plain_q (o : one) : Q := if o_active o then o_qset o else o_q o.
