From Coq Require Import List String Bool QArith Qround ZArith Arith.
From Verif Require Import LinModel DispatchModel RampModel CommitModel RollingModel.
Import ListNotations.
Open Scope string_scope.
Open Scope list_scope.

(* Committable units and ramp limits in optimize_with_rolling_horizon: pypsa/optimization/abstract.py 457-510 with
   constraints.py 168-187 and 417-447. Each window sees the rows of its snapshots and the results stored so far. *)

(* sns[0] != n.snapshots[0] *)
Definition later (w : nat * nat) : bool := negb (Nat.eqb (fst w) 0).

(* n.dynamic(c).status.iloc[:start_i][::-1], latest first. The stored values are taken for whole numbers: Qfloor only
   converts the type *)
Definition past (cls nm : string) (n : net) (start : nat) : list Z :=
  map (fun k => Qfloor (res n ((cls ++ "-status")%string, start - 1 - k, nm)%nat)) (seq 0 start).

Definition unit_at (cls : string) (u : unit_) (start : nat) (n : net) : unit_ :=
  {| u_name := u_name u; u_active := fun t => u_active u (start + t)%nat; min_up := min_up u; min_down := min_down u;
     up_before := up_before u; down_before := down_before u; hist := past cls (u_name u) n start;
     lower_p := fun t => lower_p u (start + t)%nat; upper_p := fun t => upper_p u (start + t)%nat;
     r_up := r_up u; r_down := r_down u; r_start := r_start u; r_shut := r_shut u |}.

Definition asset_at (a : asset) (start : nat) : asset :=
  {| name := name a; nom := nom a; nom_min := nom_min a; nom_max := nom_max a; nom_set := nom_set a; nom_mod := nom_mod a;
     ext := ext a; com := com a; active := fun t => active a (start + t)%nat; min_pu := fun t => min_pu a (start + t)%nat;
     max_pu := fun t => max_pu a (start + t)%nat; max_hours := max_hours a; fix_set := fun t => fix_set a (start + t)%nat |}.
(* p_start, status_start: the stored row before the window (the dispatch of a link is stored as p0) *)
Definition ramp_at (cls : string) (start : nat) (n : net) (a : rasset) : rasset :=
  {| base := asset_at a start; up := fun t => up a (start + t)%nat; down := fun t => down a (start + t)%nat;
     up_static := up_static a; down_static := down_static a; start_lim := start_lim a; shut_lim := shut_lim a;
     p_start := res n ((cls ++ "-p")%string, start - 1, name a)%nat;
     status_start := res n ((cls ++ "-status")%string, start - 1, name a)%nat |}.

(* the constraints of a window *)
Definition window_commitment (cls : string) (u : unit_) (w : nat * nat) (n : net) : list con :=
  commitment cls (unit_at cls u (fst w) n) (snd w - fst w) (later w).
Definition window_binary (cls : string) (u : unit_) (w : nat * nat) (n : net) (x : sol) : Prop :=
  binary cls (unit_at cls u (fst w) n) (snd w - fst w) x.
Definition window_ramps (cls nattr : string) (assets : list rasset) (w : nat * nat) (n : net) : list con :=
  ramps cls nattr (snd w - fst w) (later w) (map (ramp_at cls (fst w) n) assets).
