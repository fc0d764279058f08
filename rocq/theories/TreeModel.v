(* The spanning tree of a sub-network: /repo/pypsa/pf.py find_tree 1345-1373. Buses and branches by their positions. *)
From Coq Require Import List Bool ZArith Arith.
From Verif Require Import CyclesModel.
Import ListNotations.
Open Scope list_scope.

(* 1355: graph(weight, inf_weight=1.0) skips no edge (graph.py 70-82) *)
Definition kept (b : gbranch) : gbranch := {| g0 := g0 b; g1 := g1 b; gfin := true |}.
(* nx: tree.degree(), for the nodes in the order of buses_i; an edge from a bus to itself counts twice *)
Definition degree (tree : list gbranch) (v : nat) : nat :=
  list_sum (map (fun b => (if Nat.eqb (g0 b) v then 1 else 0) + (if Nat.eqb (g1 b) v then 1 else 0)) tree).
(* 1359: max(..., key=itemgetter(1)) takes the first of equal ones; None: ValueError *)
Definition max_degree (ds : list (nat * nat)) : option (nat * nat) :=
  match ds with [] => None | e :: r => Some (fold_left (fun best e => if Nat.ltb (snd best) (snd e) then e else best) r e) end.
Definition tree_slack (tree : list gbranch) (nb : nat) : option nat :=
  option_map fst (max_degree (map (fun v => (v, degree tree v)) (seq 0 nb))).
(* 1369-1370: path[i], path[i + 1] *)
Definition steps (path : list nat) : list (nat * nat) := combine path (tl path).
(* 1367-1373. The loop body is that of find_cycles (walk_column). tree: the edges of nx.minimum_spanning_tree;
   path: nx.shortest_path in that tree. One list of assignments T[branch_i, j] = sign per bus; None: an exception. *)
Definition find_tree (brs tree : list gbranch) (nb : nat) (path : nat -> nat -> list nat) : option (list (list (nat * Z))) :=
  match tree_slack tree nb with
  | None => None
  | Some s => sequence (map (fun j => walk_column (map kept brs) (steps (path j s))) (seq 0 nb))
  end.
(* 1365, 1373: a dok_matrix of zeros; the last assignment to a place stays *)
Definition assigned (col : list (nat * Z)) (l : nat) : Z := fold_left (fun z e => if Nat.eqb (fst e) l then snd e else z) col 0%Z.
Definition T_entry (cols : list (list (nat * Z))) (l j : nat) : Z := assigned (nth j cols []) l.
