From Coq Require Import List String Bool QArith Arith.
From Verif Require Import LinModel BalanceModel.
Import ListNotations.
Open Scope string_scope.
Open Scope list_scope.
Open Scope Q_scope.

(* Writing results into the network: pypsa/optimization/optimize.py 336-386 (assign_solution), 446-499 (post_processing),
   optimization/common.py 39-48. A series gives the values of one column; None is NaN (or no such column yet).
   prev is the column before the call, sns the snapshots that were optimised. *)
Definition series : Type := nat -> option Q.

(* common.py 39-48 *)
Definition set_from_frame (sns : nat -> bool) (prev df : series) : series :=
  fun t => Some (match (if sns t then df t else prev t) with Some q => q | None => 0 end).
Definition smap (f : Q -> Q) (s : series) : series := fun t => option_map f (s t).
Definition szip (f : Q -> Q -> Q) (a b : series) : series :=
  fun t => match a t, b t with Some p, Some q => Some (f p q) | _, _ => None end.

Section A.
Variable x : sol.
Variable sns : nat -> bool.
(* variable.solution.to_pandas(): NaN where masked, rows sns only *)
Definition solution (active : nat -> bool) (v nm : string) : series :=
  fun t => if sns t && active t then Some (x (v, t, nm)) else None.

(* 353-355 *)
Definition assign_branch (v : string) (b : branch) (prev : series * series) : series * series :=
  let df := solution (b_active b) v (b_name b) in
  (set_from_frame sns (fst prev) df, set_from_frame sns (snd prev) (smap Qopp df)).
(* 470-473: lines only *)
Definition add_losses (b : branch) (p : series * series) : series * series :=
  let l := solution (b_active b) "Line-loss" (b_name b) in
  (szip (fun q r => q + r / 2) (fst p) l, szip (fun q r => q + r / 2) (snd p) l).
Definition line_flows (losses : bool) (b : branch) (prev : series * series) : series * series :=
  let p := assign_branch "Line-s" b prev in if losses then add_losses b p else p.
Definition trafo_flows (b : branch) (prev : series * series) : series * series := assign_branch "Transformer-s" b prev.

(* 357-367 *)
Definition link_p0 (l : link) (prev : series) : series := set_from_frame sns prev (solution (l_active l) "Link-p" (l_name l)).
Definition link_port (l : link) (bus : string) (eff : nat -> Q) (prev : series) : series :=
  fun t => if sns t && String.eqb bus "" then Some 0 else
    set_from_frame sns prev (fun t => option_map (fun q => - q * eff t) (solution (l_active l) "Link-p" (l_name l) t)) t.

(* 369-370; 380-382 *)
Definition one_port (v : string) (c : comp) (prev : series) : series := set_from_frame sns prev (solution (c_active c) v (c_name c)).
Definition unit_power (c : comp) (prev_d prev_s : series) : series :=
  szip Qminus (one_port "StorageUnit-p_dispatch" c prev_d) (one_port "StorageUnit-p_store" c prev_s).
(* 465-467 *)
Definition load_power (d : load) (prev : series) : series := set_from_frame sns prev (fun t => Some (d_p d t)).

(* 475-499: injection per bus; NaN counts as 0 in the sum *)
Definition num (s : series) (t : nat) : Q := match s t with Some q => q | None => 0 end.
Definition none : series := fun _ => None.
Definition at_ (b b' : string) (q : Q) : Q := if String.eqb b b' then q else 0.
Definition add_up {A} (f : A -> Q) (l : list A) : Q := fold_right (fun a q => f a + q) 0 l.
(* tables as they were before are empty *)
Definition bus_power (n : net) (b : string) (t : nat) : Q :=
  add_up (fun c => at_ (c_bus c) b (num (one_port "Generator-p" c none) t * c_sign c)) (gens n) +
  add_up (fun c => at_ (c_bus c) b (num (one_port "Store-p" c none) t * c_sign c)) (stores n) +
  add_up (fun d => at_ (d_bus d) b (num (load_power d none) t * d_sign d)) (loads n) +
  add_up (fun c => at_ (c_bus c) b (num (unit_power c none none) t * c_sign c)) (units n) +
  add_up (fun l => at_ (l_bus0 l) b (num (link_p0 l none) t * -(1))) (links n) +
  add_up (fun l => at_ (l_bus1 l) b (num (link_port l (l_bus1 l) (l_eff1 l) none) t * -(1))) (links n) +
  add_up (fun l => add_up (fun pe => at_ (fst pe) b (num (link_port l (fst pe) (snd pe) none) t * -(1))) (l_ports l)) (links n).
End A.

(* rolling horizon: the windows one after the other *)
Fixpoint roll_line (losses : bool) (b : branch) (ws : list (sol * (nat -> bool))) (prev : series * series) : series * series :=
  match ws with [] => prev | (x, sns) :: r => roll_line losses b r (line_flows x sns losses b prev) end.
