From Coq Require Import List String Bool QArith ZArith Arith.
From Verif Require Import LinModel StorageModel.
Import ListNotations.
Open Scope string_scope.
Open Scope list_scope.

(* Rolling horizon: pypsa/optimization/abstract.py 457-510. Snapshots are positions 0 .. len-1. *)
Inductive outcome := ValueError | IndexError | Windows (ws : list (nat * nat)).

Section W.
Variable len : nat.
Variables horizon overlap : Z.

(* len(range(0, len, step)) for a positive step *)
Definition n_starts (step : nat) : nat := ((len + step - 1) / step)%nat.
(* snapshots[start:end] with end = min(len(snapshots), start + horizon); a negative end counts from the back *)
Definition stop (start : nat) : nat :=
  let e := Z.min (Z.of_nat len) (Z.of_nat start + horizon) in
  if (e <? 0)%Z then Z.to_nat (Z.of_nat len + e) else Z.to_nat e.
(* 486-496; sns[0] of an empty window raises (within the log message) *)
Definition windows : outcome :=
  if (horizon <=? overlap)%Z then ValueError
  else
    let step := Z.to_nat (horizon - overlap) in
    let ws := map (fun k => (k * step, stop (k * step)))%nat (seq 0 (n_starts step)) in
    if forallb (fun w => fst w <? snd w)%nat ws then Windows ws else IndexError.
End W.

(* the stored results n.stores_t, n.storage_units_t, and the columns e_initial / state_of_charge_initial *)
Record net := { res : sol; e_initial : string -> Q; soc_initial : string -> Q }.

Section Run.
(* solving one window: i-th optimisation, window, initial levels. None: status is not "ok", nothing is assigned *)
Variable optimize : nat -> nat * nat -> net -> option sol.

(* assign_solution writes the rows of the window; its solution is indexed by the position within the window *)
Definition assign (w : nat * nat) (x : sol) (n : net) : net :=
  {| res := fun v => let '(nm, t, c) := v in
       if (fst w <=? t)%nat && (t <? snd w)%nat then x (nm, t - fst w, c)%nat else res n v;
     e_initial := e_initial n; soc_initial := soc_initial n |}.
(* 498-505 *)
Definition hand_over (start : nat) (n : net) : net :=
  {| res := res n; e_initial := fun c => res n ("Store-e", start - 1, c)%nat;
     soc_initial := fun c => res n ("StorageUnit-state_of_charge", start - 1, c)%nat |}.

Fixpoint loop (i : nat) (ws : list (nat * nat)) (n : net) : net :=
  match ws with
  | [] => n
  | w :: r =>
      let n1 := match i with O => n | S _ => hand_over (fst w) n end in
      loop (S i) r (match optimize i w n1 with Some x => assign w x n1 | None => n1 end)
  end.
End Run.

(* the store as the window sees it: rows of the window, current initial level *)
Definition in_window (a : storage) (start : nat) (init : Q) : storage :=
  {| s_name := s_name a; s_active := fun t => s_active a (start + t)%nat; s_stand := fun t => s_stand a (start + t)%nat; s_init := init;
     s_cyclic := s_cyclic a; s_cyclic_pp := s_cyclic_pp a; s_init_pp := s_init_pp a |}.
Definition unit_in_window (d : unit_data) (start : nat) : unit_data :=
  {| eh := fun t => eh d (start + t)%nat; eff_dispatch := fun t => eff_dispatch d (start + t)%nat;
     eff_store := fun t => eff_store d (start + t)%nat; inflow := fun t => inflow d (start + t)%nat |}.
