(* Sub-networks: /repo/pypsa/networks.py determine_network_topology 1701-1771, iterate_components 1780-1790,
     SubNetwork.components / branches 1902-1962; /repo/pypsa/graph.py adjacency_matrix 97-164.
   Python iterates over the *set* n.passive_branch_components: the order of the classes is a parameter
   (`passive`). Labels are kept as numbers; the code stores str(label), which is injective.
   Warnings about carriers and the calls of find_cycles / find_bus_controls at the end are left out
   (they are modelled in CyclesModel and ControlModel). *)
From Coq Require Import List String Bool ZArith Arith.
From Verif Require Import Assoc TablesModel PeriodsModel.
Import ListNotations.
Open Scope string_scope.
Open Scope list_scope.

Record branch := { basset : asset; bus0 : string; bus1 : string }.
Record tnet := { tbuses : list (string * string);          (* bus name, carrier *)
                 tbranches : dict (list branch) }.         (* class name -> table *)
Definition busnames (n : tnet) : list string := map fst (tbuses n).

(* pd.Index.get_indexer for one label; -1 is None *)
Fixpoint index_of (l : list string) (x : string) : option nat :=
  match l with
  | [] => None
  | y :: r => if String.eqb y x then Some 0 else option_map S (index_of r x)
  end.

(* c.static[active], graph.py:143-144 *)
Definition select_active (known : list Z) (period : option Z) (brs : list branch) : list branch + nerr :=
  match get_active_assets known true (option_map (fun p => [p]) period) (map basset brs) with
  | inr e => inr e
  | inl mask => inl (map fst (filter snd (combine brs (map snd mask))))
  end.

(* iterate_components(passive): classes with an empty table are skipped *)
Definition tables_in_order (passive : list string) (n : tnet) : list (list branch) :=
  filter (fun brs => match brs with [] => false | _ => true end)
    (map (fun cls => match dget (tbranches n) cls with Some brs => brs | None => [] end) passive).

(* the loop graph.py:142-152: the index pairs of all classes and the variable no_branches, which line
   146 overwrites in every round *)
Fixpoint collect (known : list Z) (period : option Z) (names : list string) (tabs : list (list branch))
  (last : nat) : (list (option nat * option nat) * nat) + nerr :=
  match tabs with
  | [] => inl ([], last)
  | brs :: r =>
      match select_active known period brs with
      | inr e => inr e
      | inl sel =>
          match collect known period names r (List.length sel) with
          | inr e => inr e
          | inl (es, k) =>
              inl (map (fun b => (index_of names (bus0 b), index_of names (bus1 b))) sel ++ es, k)
          end
      end
  end.

Fixpoint all_some (l : list (option nat * option nat)) : option (list (nat * nat)) :=
  match l with
  | [] => Some []
  | (Some a, Some b) :: r => option_map (cons (a, b)) (all_some r)
  | _ => None
  end.

(* graph.py:154-164; coo_matrix rejects negative indices (ValueError) *)
Definition adjacency (known : list Z) (period : option Z) (passive : list string) (n : tnet)
  : list (nat * nat) + nerr :=
  match collect known period (busnames n) (tables_in_order passive n) 0 with
  | inr e => inr e
  | inl (es, k) =>
      if Nat.eqb k 0 then inl []
      else match all_some es with Some es' => inl es' | None => inr ValueErr end
  end.

(* scipy.sparse.csgraph.connected_components(directed=False): nodes get the same label iff connected,
   labels are numbered in the order of their first node. Here: merge labels edge by edge, renumber. *)
Definition merge_labels (labels : list nat) (e : nat * nat) : list nat :=
  match nth_error labels (fst e), nth_error labels (snd e) with
  | Some a, Some b => map (fun l => if Nat.eqb l b then a else l) labels
  | _, _ => labels
  end.
Definition memb (x : nat) (l : list nat) : bool := existsb (Nat.eqb x) l.
Fixpoint firsts (seen : list nat) (l : list nat) : list nat :=   (* distinct values, first occurrence *)
  match l with
  | [] => []
  | x :: r => if memb x seen then firsts seen r else x :: firsts (x :: seen) r
  end.
Fixpoint pos (l : list nat) (x : nat) : nat :=
  match l with [] => 0 | y :: r => if Nat.eqb y x then 0 else S (pos r x) end.
Definition connected_components (size : nat) (edges : list (nat * nat)) : nat * list nat :=
  let raw := fold_left merge_labels edges (seq 0 size) in
  let u := firsts [] raw in (List.length u, map (pos u) raw).

Record topology := {
  sub_networks : list (nat * string);              (* label, carrier *)
  bus_sub : list (string * nat);                   (* buses.sub_network *)
  branch_sub : dict (list (string * option nat)) }.  (* <passive>.sub_network; None is NaN *)

(* networks.py:1724-1750 *)
Definition make_subs (skip : bool) (n : tnet) (k : nat) (labels : list nat) : list (nat * string) :=
  flat_map (fun i =>
    let buses_i := filter (fun bl => Nat.eqb (snd bl) i) (combine (tbuses n) labels) in
    match buses_i with
    | [] => []
    | [b] => if skip then [] else [(i, snd (fst b))]
    | b :: _ => [(i, snd (fst b))]
    end) (seq 0 k).

(* networks.py:1757-1766 *)
Definition label_branches (known : list Z) (period : option Z) (bsub : list (string * nat))
  (brs : list branch) : list (string * option nat) + nerr :=
  match period with
  | None => inl (map (fun b => (aname (basset b), dget bsub (bus0 b))) brs)
  | Some p =>
      match get_active_assets known true (Some [p]) (map basset brs) with
      | inr e => inr e
      | inl mask => inl (map (fun bm : branch * (string * bool) => (aname (basset (fst bm)),
                           if snd (snd bm) then dget bsub (bus0 (fst bm)) else None)) (combine brs mask))
      end
  end.
Fixpoint label_classes (known : list Z) (period : option Z) (bsub : list (string * nat)) (n : tnet)
  (passive : list string) : dict (list (string * option nat)) + nerr :=
  match passive with
  | [] => inl []
  | cls :: r =>
      match dget (tbranches n) cls with
      | None | Some [] => label_classes known period bsub n r
      | Some brs =>
          match label_branches known period bsub brs, label_classes known period bsub n r with
          | inl l, inl d => inl ((cls, l) :: d)
          | inr e, _ => inr e
          | _, inr e => inr e
          end
      end
  end.

Definition determine_network_topology (known : list Z) (period : option Z) (skip : bool)
  (passive : list string) (n : tnet) : topology + nerr :=
  match adjacency known period passive n with
  | inr e => inr e
  | inl edges =>
      let '(k, labels) := connected_components (List.length (tbuses n)) edges in
      let bsub := combine (busnames n) labels in
      match label_classes known period bsub n passive with
      | inr e => inr e
      | inl d => inl {| sub_networks := make_subs skip n k labels; bus_sub := bsub; branch_sub := d |}
      end
  end.

(* SubNetwork.buses_i (1908) and branches (1960-1962) *)
Definition sub_buses (t : topology) (i : nat) : list string :=
  map fst (filter (fun e => Nat.eqb (snd e) i) (bus_sub t)).
Definition sub_branches (t : topology) (i : nat) (cls : string) : list string :=
  match dget (branch_sub t) cls with
  | None => []
  | Some l => map fst (filter (fun e => match snd e with Some j => Nat.eqb j i | None => false end) l)
  end.
