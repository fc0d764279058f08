From Coq Require Import List String Bool QArith Arith.
From Verif Require Import LinModel DispatchModel.
Import ListNotations.
Open Scope string_scope.
Open Scope list_scope.
Open Scope Q_scope.

(* Ramp limits: pypsa/optimization/constraints.py 393-570, for one component class with dispatch variable p.
   None is NaN. Dispatch and status before the first optimised snapshot are assumed present for every asset. *)
Record rasset := {
  base :> asset;
  up : nat -> option Q; down : nat -> option Q;       (* get_as_dense ramp_limit_up, ramp_limit_down *)
  up_static : option Q; down_static : option Q;       (* static columns ramp_limit_up, ramp_limit_down *)
  start_lim : Q; shut_lim : Q;                        (* ramp_limit_start_up, ramp_limit_shut_down *)
  p_start : Q; status_start : Q                       (* solved dispatch and status before sns[0] *)
}.

Section Class.
Variable cls : string.
Variable nattr : string.
Variable T : nat.
Variable rolling : bool.   (* is_rolling_horizon *)
Variable assets : list rasset.

Definition is_none (o : option Q) : bool := match o with None => true | _ => false end.
Definition is_one (o : option Q) : bool := match o with Some q => Qeq_bool q 1 | None => false end.
Definition get (o : option Q) : Q := match o with Some q => q | None => 0 end.
Definition everywhere (f : option Q -> bool) : bool :=
  forallb (fun a => forallb (fun t => f (up a t) && f (down a t)) (seq 0 T)) assets.
(* 411-414 *)
Definition early_return : bool := everywhere is_none || everywhere is_one.

(* 427-450: all snapshots in a later window, all but the first otherwise *)
Definition times : list nat := if rolling then seq 0 T else seq 1 (T - 1).
Definition p (a : rasset) : nat -> label := op cls "p" a.
Definition status (a : rasset) : nat -> label := op cls "status" a.
Definition rhs_start (a : rasset) (t : nat) : Q := if rolling && Nat.eqb t 0 then p_start a else 0.
Definition first (t : nat) (v : Q) : Q := if rolling && Nat.eqb t 0 then v else 0.

(* 452-455 *)
Definition fix_ : list rasset := filter (fun a : rasset => negb (ext a) && negb (com a)) assets.
Definition ext_ : list rasset := filter (fun a : rasset => ext a) assets.
Definition com_ : list rasset := filter (fun a : rasset => com a) assets.

(* 464-490 *)
Definition fixed_ramps : list con :=
  add_constraints times fix_ (fun t a => active a t && negb (is_none (up a t)))
    (fun t a => mk [(1, p a t); (-(1), shift (p a) t)] Le (get (up a t) * nom a + rhs_start a t)) ++
  add_constraints times fix_ (fun t a => active a t && negb (is_none (down a t)))
    (fun t a => mk [(1, p a t); (-(1), shift (p a) t)] Ge (- get (down a t) * nom a + rhs_start a t)).

(* 496-522 *)
Definition extendable_ramps : list con :=
  add_constraints times ext_ (fun t a => active a t && negb (is_none (up a t)))
    (fun t a => mk [(1, p a t); (-(1), shift (p a) t); (- get (up a t), cap cls nattr a)] Le (rhs_start a t)) ++
  add_constraints times ext_ (fun t a => active a t && negb (is_none (down a t)))
    (fun t a => mk [(1, p a t); (-(1), shift (p a) t); (get (down a t), cap cls nattr a)] Ge (rhs_start a t)).

(* 528-570 *)
Definition com_ramps : list con :=
  add_constraints times com_ (fun t a => active a t && negb (is_none (up_static a)))
    (fun t a => let limit_start := start_lim a * nom a in let limit_up := get (up_static a) * nom a in
       mk [(1, p a t); (-(1), shift (p a) t); (limit_start - limit_up, shift (status a) t); (- limit_start, status a t)] Le
          (rhs_start a t + first t ((limit_up - limit_start) * status_start a))) ++
  add_constraints times com_ (fun t a => active a t && negb (is_none (down_static a)))
    (fun t a => let limit_shut := shut_lim a * nom a in let limit_down := get (down_static a) * nom a in
       mk [(1, p a t); (-(1), shift (p a) t); (limit_down - limit_shut, status a t); (limit_shut, shift (status a) t)] Ge
          (rhs_start a t + first t (- limit_shut * status_start a))).

Definition ramps : list con := if early_return then [] else fixed_ramps ++ extendable_ramps ++ com_ramps.
End Class.
