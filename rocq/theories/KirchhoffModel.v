From Coq Require Import List String Bool ZArith QArith Arith.
From Verif Require Import LinModel CyclesModel WholeModel.
Import ListNotations.
Open Scope string_scope.
Open Scope list_scope.
Open Scope Q_scope.

(* Kirchhoff's voltage law over the assets of the whole problem (constraints.py 669-725, pf.py 1376-1423).
   place: the position of a bus; fin: x_pu is finite (graph.py 76-80); weight: x_pu_eff or r_pu_eff by the carrier of
   the sub-network (constraints.py 700-701); basis: nx.cycle_basis of the graph without parallel edges, for all
   sub-networks together. *)
Section Rows.
Variable place : string -> nat.
Variable fin : asset -> bool.
Variable weight : asset -> Q.
Variable basis : list gbranch -> list (list nat).
Variable T : nat.

Definition edge (a : asset) : gbranch := {| g0 := place (bus0 a); g1 := place (bus1 a); gfin := fin a |}.
(* constraints.py 702-716: 1e5 * weight * C, the entries that are not zero; the variables of inactive branches are missing *)
Definition entries_of (l : list asset) (col : list (nat * Z)) (t : nat) : lin :=
  flat_map (fun la => let '(i, a) := la in
    if Z.eqb (col_entry col i) 0 then []
    else [(100000 * weight a * inject_Z (col_entry col i), if on a t then Some ((cls a ++ "-s")%string, t, nm a) else None)]) (numbered l).
(* constraints.py 723-725. No columns where find_cycles raises (a cycle that does not follow edges, not with nx.cycle_basis). *)
Definition kirchhoff (l : list asset) : list con :=
  match find_cycles (map edge l) (basis (map edge l)) with
  | Some cols => flat_map (fun t => map (fun col => {| lhs := entries_of l col t; sns := Eq; rhs := 0 |}) cols) (seq 0 T)
  | None => []
  end.
End Rows.
