From Coq Require Import List String Bool QArith ZArith Arith Qround Qpower.
Import ListNotations.
Open Scope string_scope.
Open Scope list_scope.
Open Scope Q_scope.

(* Statistics: pypsa/statistics/abstract.py 172-379, expressions.py 43-51, 184-273, 1625-1756.
   Snapshots without investment periods, aggregate_groups = "sum". Time series tables have a column for every component. *)
Record comp := {
  s_name : string; s_carrier : string;
  s_bus : nat -> string;               (* bus of port k *)
  s_sign : Q;
  s_active : bool;
  s_p : nat -> nat -> Q                (* p of port k at a snapshot *)
}.
Record class := { k_name : string; k_branch : bool; k_ports : nat; k_comps : list comp }.
Inductive direction := Balance | Supply | Withdrawal.
Inductive time := Sum | Mean.
Record args := {
  a_dir : direction; a_time : time;
  a_at_port : bool;                                    (* all ports, or the first only *)
  a_bus_ok : string -> bool;                           (* bus_carrier: mask on the bus of the port (304-331) *)
  a_carrier_ok : string -> bool;                       (* carrier (333-357) *)
  a_key : option (comp -> nat -> option string);       (* groupby: a key (None: NaN) by component and port; False *)
  a_across : bool;
  a_round : option nat;
  a_drop : option bool                                 (* drop_zero, after defaults *)
}.

Definition sumq (l : list Q) : Q := fold_right Qplus 0 l.
Definition sumt (f : nat -> Q) (nt : nat) : Q := sumq (map f (seq 0 nt)).

(* expressions.py 1728-1737 *)
Definition clip_low (q : Q) : Q := if Qle_bool q 0 then 0 else q.
Definition clip_up (q : Q) : Q := if Qle_bool 0 q then 0 else q.
Definition directed (d : direction) (p : Q) : Q := match d with Balance => p | Supply => clip_low p | Withdrawal => - clip_up p end.
Definition power (c : class) (a : comp) (port t : nat) : Q := (if k_branch c then -(1) else s_sign a) * s_p a port t.

(* expressions.py 243-263: df.round(k) (half to even) and df[df != 0] *)
Definition rint (q : Q) : Z :=
  let f := Qfloor q in
  match Qcompare (q - inject_Z f) (1 # 2) with Lt => f | Gt => (f + 1)%Z | Eq => if Z.even f then f else (f + 1)%Z end.
Definition ten (k : nat) : Q := inject_Z (10 ^ Z.of_nat k).
Definition round_to (k : nat) (q : Q) : Q := inject_Z (rint (q * ten k)) / ten k.

Section S.
Context {K : Type}.
Variable eqb : K -> K -> bool.
(* groupby(...).sum(): one entry for each key *)
Fixpoint distinct (l : list K) : list K := match l with [] => [] | k :: r => k :: filter (fun k' => negb (eqb k k')) (distinct r) end.
Definition group_sum (l : list (K * Q)) : list (K * Q) :=
  map (fun k => (k, sumq (map snd (filter (fun e => eqb k (fst e)) l)))) (distinct (map fst l)).
Definition unique (l : list K) : bool := Nat.eqb (List.length (distinct l)) (List.length l).
End S.
Definition pair_eqb (a b : string * string) : bool := String.eqb (fst a) (fst b) && String.eqb (snd a) (snd b).

Section N.
Variable nt : nat.
(* expressions.py 43-51: the weighting by class *)
Variables w_generators w_stores w_objective : nat -> Q.
Definition weights (c : string) : nat -> Q :=
  if String.eqb c "Generator" then w_generators else if existsb (String.eqb c) ["StorageUnit"; "Store"] then w_stores else w_objective.

(* abstract.py 172-187, expressions.py 192-204 *)
Definition aggregate_time (agg : time) (w : nat -> Q) (f : nat -> Q) : Q :=
  match agg with Sum => sumt (fun t => w t * f t) nt | Mean => sumt (fun t => w t / sumt w nt * f t) nt end.

(* 1726-1738, then 290-357: one port of a class *)
Definition port_series (r : args) (c : class) (port : nat) : list (string * Q) :=
  let rows := filter (fun a => s_active a && a_bus_ok r (s_bus a port) && a_carrier_ok r (s_carrier a)) (k_comps c) in
  let val a := aggregate_time (a_time r) (weights (k_name c)) (fun t => directed (a_dir r) (power c a port t)) in
  match a_key r with
  | None => map (fun a => (s_name a, val a)) rows
  | Some key => group_sum String.eqb (flat_map (fun a => match key a port with Some k => [(k, val a)] | None => [] end) rows)
  end.
Definition empty {A} (l : list A) : bool := match l with [] => true | _ => false end.
(* 244-283, expressions.py 211-218 *)
Definition class_series (r : args) (c : class) : option (list (string * Q)) :=
  let ports := if a_at_port r then seq 0 (k_ports c) else [O] in
  let values := filter (fun v => negb (empty v)) (map (port_series r c) ports) in
  if empty values then None
  else let df := List.concat values in Some (if unique String.eqb (map fst df) then df else group_sum String.eqb df).
(* expressions.py 220-241 *)
Definition all_series (r : args) (cs : list class) : list ((string * string) * Q) :=
  flat_map (fun c => match class_series r c with Some l => map (fun e => ((k_name c, fst e), snd e)) l | None => [] end) cs.
Definition apply_options {K} (r : args) (l : list (K * Q)) : list (K * Q) :=
  let l := match a_round r with Some k => map (fun e => (fst e, round_to k (snd e))) l | None => l end in
  match a_drop r with Some _ => filter (fun e => negb (Qeq_bool (snd e) 0)) l | None => l end.
(* 285-302 *)
Definition energy_balance (r : args) (cs : list class) : list ((string * string) * Q) :=
  let l := apply_options r (all_series r cs) in
  if a_across r then group_sum pair_eqb (map (fun e => (("", snd (fst e)), snd e)) l) else l.
End N.

(* expressions.py 253-259: arguments and options *)
Definition effective (arg opt : option bool) : option bool := match arg with None => opt | Some b => Some b end.
