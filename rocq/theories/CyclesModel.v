(* Incidence matrix and cycles:
     /repo/pypsa/graph.py incidence_matrix 168-225, graph 22-93
     /repo/pypsa/pf.py    find_cycles 1376-1423 *)
From Coq Require Import List String Bool ZArith Arith.
From Verif Require Import Assoc TablesModel PeriodsModel TopologyModel.
Import ListNotations.
Open Scope string_scope.
Open Scope list_scope.

(* a sparse matrix in coordinate form; equal coordinates are summed (scipy coo -> csr) *)
Definition coo := list (nat * nat * Z).
Definition entry (m : coo) (i j : nat) : Z :=
  fold_right (fun e s => (if Nat.eqb (fst (fst e)) i && Nat.eqb (snd (fst e)) j then snd e + s else s)%Z) 0%Z m.

Definition numbered {A} (l : list A) : list (nat * A) := combine (seq 0 (List.length l)) l.

(* graph.py:205-225. tabs: the non-empty tables of the branch classes in the order of iteration.
   np.concatenate of no arrays raises ValueError, so does a bus outside busorder (index -1). *)
Definition incidence_matrix (busorder : list string) (tabs : list (list branch))
  : (nat * nat * coo) + nerr :=
  match tabs with
  | [] => inr ValueErr
  | _ =>
      let sel := flat_map (filter (fun b => aactive (basset b))) tabs in
      match all_some (map (fun b => (index_of busorder (bus0 b), index_of busorder (bus1 b))) sel) with
      | None => inr ValueErr
      | Some inds =>
          inl (List.length busorder, List.length sel,
               map (fun le => (fst (snd le), fst le, 1%Z)) (numbered inds) ++
               map (fun le => (snd (snd le), fst le, (-1)%Z)) (numbered inds))
      end
  end.

(* ---- find_cycles: buses and branches by their positions in the sub-network ---- *)
Record gbranch := { g0 : nat; g1 : nat; gfin : bool }.     (* gfin: the weight x_pu is finite *)

(* list(mgraph[u][v].keys()): the branches between u and v with finite weight, in table order *)
Definition between (u v : nat) (b : gbranch) : bool :=
  gfin b && ((Nat.eqb (g0 b) u && Nat.eqb (g1 b) v) || (Nat.eqb (g0 b) v && Nat.eqb (g1 b) u)).
Definition keys (brs : list gbranch) (u v : nat) : list nat :=
  map fst (filter (fun lb => between u v (snd lb)) (numbered brs)).

Definition g0_at (brs : list gbranch) (l : nat) : option nat := option_map g0 (nth_error brs l).

(* (cycle[i], cycle[(i + 1) % len(cycle)]) *)
Definition cyclic_pairs (cycle : list nat) : list (nat * nat) :=
  match cycle with [] => [] | x :: r => combine cycle (r ++ [x]) end.

(* pf.py:1399-1404; None is the KeyError for nodes that are not adjacent *)
Fixpoint walk_column (brs : list gbranch) (ps : list (nat * nat)) : option (list (nat * Z)) :=
  match ps with
  | [] => Some []
  | (u, v) :: r =>
      match keys brs u v, walk_column brs r with
      | l :: _, Some col =>
          let sign := match g0_at brs l with Some z => if Nat.eqb z u then 1 else -1 | None => -1 end%Z in
          Some ((l, sign) :: col)
      | _, _ => None
      end
  end.

(* pf.py:1409-1423: a column for every further branch between the same two buses. The order of the
   columns (nx: graph.edges()) is simplified to the order of the first branches. *)
Definition multi_columns (brs : list gbranch) : list (list (nat * Z)) :=
  flat_map (fun lb =>
    let '(l, b) := lb in
    match keys brs (g0 b) (g1 b) with
    | first :: others =>
        if gfin b && Nat.eqb first l
        then map (fun o => [(l, 1%Z);
               (o, match g0_at brs o with Some z => if Nat.eqb z (g0 b) then -1 else 1 | None => 1 end%Z)]) others
        else []
    | [] => []
    end) (numbered brs).

Fixpoint sequence {A} (l : list (option A)) : option (list A) :=
  match l with
  | [] => Some []
  | Some x :: r => option_map (cons x) (sequence r)
  | None :: _ => None
  end.

(* cycles: the result of nx.cycle_basis of the graph without parallel edges *)
Definition find_cycles (brs : list gbranch) (cycles : list (list nat)) : option (list (list (nat * Z))) :=
  option_map (fun cs => cs ++ multi_columns brs)
    (sequence (map (fun c => walk_column brs (cyclic_pairs c)) cycles)).

(* C[l, j] *)
Definition col_entry (col : list (nat * Z)) (l : nat) : Z :=
  fold_right (fun e s => (if Nat.eqb (fst e) l then snd e + s else s)%Z) 0%Z col.

(* pf.py:1392: the number of parallel branches, len(mgraph.edges()) - len(graph.edges()) *)
Definition num_multi (brs : list gbranch) : nat :=
  List.length (filter (fun b => gfin b) brs) -
  List.length (filter (fun lb => gfin (snd lb) &&
    match keys brs (g0 (snd lb)) (g1 (snd lb)) with f :: _ => Nat.eqb f (fst lb) | [] => false end) (numbered brs)).
