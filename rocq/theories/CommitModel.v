From Coq Require Import List String Bool QArith ZArith Arith.
From Verif Require Import LinModel.
Import ListNotations.
Open Scope string_scope.
Open Scope list_scope.
Open Scope Q_scope.

(* Unit commitment: pypsa/optimization/constraints.py 132-360, variables.py 43-86.
   One committable unit at a time (every constraint concerns a single unit). *)
Record unit_ := {
  u_name : string;
  u_active : nat -> bool;                        (* get_activity_mask *)
  min_up : nat; min_down : nat;                  (* min_up_time, min_down_time *)
  up_before : nat; down_before : nat;            (* up_time_before, down_time_before *)
  hist : list Z;                                 (* status before the first optimised snapshot, latest first *)
  lower_p : nat -> Q; upper_p : nat -> Q;        (* min_pu * nominal, max_pu * nominal *)
  r_up : Q; r_down : Q; r_start : Q; r_shut : Q  (* ramp limits times nominal, NaN replaced by 1 for the first two *)
}.

Section Unit.
Variable cls : string.
Variable u : unit_.
Variable T : nat.
Variable rolling : bool.   (* sns[0] != n.snapshots[0] *)

Definition uvar (v : string) (t : nat) : label :=
  if u_active u t then Some ((cls ++ "-" ++ v)%string, t, u_name u) else None.
Definition status := uvar "status".
Definition start_up := uvar "start_up".
Definition shut_down := uvar "shut_down".
Definition power := uvar "p".

(* 174-186: h[h.cumsum().eq(range(1, len(h) + 1))].sum() *)
Fixpoint leading (h : list Z) (ref acc : Z) : Z :=
  match h with
  | [] => 0%Z
  | x :: r => ((if Z.eqb (acc + x) ref then x else 0) + leading r (ref + 1) (acc + x))%Z
  end.
Definition flip (x : Z) : Z := if Z.eqb x 0 then 1%Z else 0%Z.   (* ~status.astype(bool) *)
Definition up_before_set : nat :=
  if rolling then Nat.min (Z.to_nat (leading (hist u) 1 0)) (min_up u) else up_before u.
Definition down_before_set : nat :=
  if rolling then Nat.min (Z.to_nat (leading (map flip (hist u)) 1 0)) (min_down u) else down_before u.
Definition initially_up : bool := negb (Nat.eqb up_before_set 0).
Definition initially_down : bool := negb (Nat.eqb down_before_set 0).

Definition con1 l s r : con := {| lhs := l; sns := s; rhs := r |}.
Definition at_first (t : nat) (v : Q) : Q := if (Nat.eqb t 0 && initially_up)%bool then v else 0.

(* 200-214 *)
Definition transition : list con :=
  add_constraints (seq 0 T) [u] (fun t u => u_active u t)
    (fun t _ => con1 [(1, start_up t); (-(1), status t); (1, shift status t)] Ge (at_first t (-(1)))) ++
  add_constraints (seq 0 T) [u] (fun t u => u_active u t)
    (fun t _ => con1 [(1, shut_down t); (1, status t); (-(1), shift status t)] Ge (at_first t 1)).

(* Variable.rolling(snapshot=k).sum(): the last k snapshots, fewer at the beginning *)
Definition window (f : nat -> label) (t k : nat) : lin := map (fun j => (1, f j)) (seq (S t - k) (Nat.min k (S t))).

(* 217-232 *)
Definition up_time : list con :=
  if Nat.eqb (min_up u) 0 then [] else
  add_constraints (seq 1 (T - 1)) [u] (fun t u => u_active u t)
    (fun t _ => con1 ((-(1), status t) :: window start_up t (min_up u)) Le 0).

(* 235-250 *)
Definition down_time : list con :=
  if Nat.eqb (min_down u) 0 then [] else
  add_constraints (seq 1 (T - 1)) [u] (fun t u => u_active u t)
    (fun t _ => con1 ((1, status t) :: window shut_down t (min_down u)) Le 1).

(* 252-267 *)
Definition stay_up : list con :=
  add_constraints (seq 0 T) [u] (fun t u => Nat.leb (S t) (min_up u - up_before_set) && initially_up && u_active u t)%bool
    (fun t _ => con1 [(1, status t)] Eq 1).
Definition stay_down : list con :=
  add_constraints (seq 0 T) [u] (fun t u => Nat.leb (S t) (min_down u - down_before_set) && initially_down && u_active u t)%bool
    (fun t _ => con1 [(1, status t)] Eq 0).

Definition commitment : list con := transition ++ up_time ++ down_time ++ stay_up ++ stay_down.

(* variables.py 50-54, 65-69, 80-84 *)
Definition is_binary (x : sol) (f : nat -> label) : Prop :=
  forall t, (t < T)%nat -> u_active u t = true -> val x (f t) == 0 \/ val x (f t) == 1.
Definition binary (x : sol) : Prop := is_binary x status /\ is_binary x start_up /\ is_binary x shut_down.
(* with linearized_unit_commitment *)
Definition is_relaxed (x : sol) (f : nat -> label) : Prop :=
  forall t, (t < T)%nat -> u_active u t = true -> 0 <= val x (f t) /\ val x (f t) <= 1.
Definition relaxed (x : sol) : Prop := is_relaxed x status /\ is_relaxed x start_up /\ is_relaxed x shut_down.

(* 295-360: added for linearized_unit_commitment if start-up and shut-down cost agree *)
Definition tighten : list con :=
  let mk f := add_constraints (seq 1 (T - 1)) [u] (fun t u => u_active u t) (fun t _ => con1 (f t) Le 0) in
  mk (fun t => [(1, shift power t); (- r_shut u, shift status t);
                (- (upper_p u t - r_shut u), status t); (upper_p u t - r_shut u, start_up t)]) ++
  mk (fun t => [(1, power t); (- upper_p u t, status t); (upper_p u t - r_start u, start_up t)]) ++
  mk (fun t => [(1, power t); (-(1), shift power t); (- (lower_p u t + r_up u), status t);
                (lower_p u t, shift status t); (lower_p u t + r_up u - r_start u, start_up t)]) ++
  mk (fun t => [(1, shift power t); (-(1), power t); (- r_shut u, shift status t);
                (r_shut u - r_down u, status t); (- (lower_p u t + r_down u - r_shut u), start_up t)]).

(* 190-197 *)
Definition limits : list con :=
  add_constraints (seq 0 T) [u] (fun t u => u_active u t) (fun t _ => con1 [(1, power t); (- lower_p u t, status t)] Ge 0) ++
  add_constraints (seq 0 T) [u] (fun t u => u_active u t) (fun t _ => con1 [(1, power t); (- upper_p u t, status t)] Le 0).
End Unit.
