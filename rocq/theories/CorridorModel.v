(* Parallel branches of a sub-network replaced by one: /repo/pypsa/pf.py aggregate_multi_graph 1298-1343. *)
From Coq Require Import List Bool QArith Arith.
Import ListNotations.
Open Scope list_scope.
Open Scope nat_scope.

(* float: a number or +inf (default of s_nom_max); -inf and NaN left out *)
Inductive ext := Fin (q : Q) | Inf.
Definition eadd (a b : ext) : ext := match a, b with Fin x, Fin y => Fin (x + y) | _, _ => Inf end.
Definition einv (a : ext) : ext := match a with Inf => Fin 0 | Fin x => if Qeq_bool x 0 then Inf else Fin (/ x) end.
Definition esum (l : list ext) : ext := fold_right eadd (Fin 0) l.
Definition emean (l : list ext) : ext := match esum l with Inf => Inf | Fin x => Fin (x / inject_Z (Z.of_nat (length l))) end.

(* the attributes read at 1314-1316 *)
Inductive attr := Ax | Ar | As_nom | Ab | Ag | As_nom_max | As_nom_min | Acapital_cost | Alength | Aterrain_factor.
(* 1314: attr_inv; 1315: attr_sum; 1316: attr_mean *)
Definition attr_inv := [Ax; Ar].
Definition attr_sum := [As_nom; Ab; Ag; As_nom_max; As_nom_min].
Definition attr_mean := [Acapital_cost; Alength; Aterrain_factor].
(* a row of n.lines: its name and values *)
Record line := { lname : nat; lval : attr -> ext }.
(* 1318-1323: the dictionary of new values, in order *)
Definition aggregated (ls : list line) : list (attr * ext) :=
  map (fun a => (a, einv (esum (map (fun l => einv (lval l a)) ls)))) attr_inv
  ++ map (fun a => (a, esum (map (fun l => lval l a) ls))) attr_sum
  ++ map (fun a => (a, emean (map (fun l => lval l a) ls))) attr_mean.

(* graph.py 72-90: an edge per branch of the sub-network with key (component, name) *)
Inductive cls := CLine | CTransformer.
Record edge := { eu : nat; ev : nat; ecls : cls; ename : nat }.
Definition key : Type := cls * nat.
Definition joins (u v : nat) (e : edge) : bool := (Nat.eqb (eu e) u && Nat.eqb (ev e) v) || (Nat.eqb (eu e) v && Nat.eqb (ev e) u).
(* 1310: list(graph.adj[u][v].keys()) *)
Definition adj_keys (g : list edge) (u v : nat) : list key := map (fun e => (ecls e, ename e)) (filter (joins u v) g).
(* nx: adj[u], in the order of insertion *)
Definition nbrs (g : list edge) (u : nat) : list nat :=
  fold_left (fun acc e => let o := if Nat.eqb (eu e) u then Some (ev e) else if Nat.eqb (ev e) u then Some (eu e) else None in
    match o with Some v => if existsb (Nat.eqb v) acc then acc else acc ++ [v] | None => acc end) g [].
(* nx: MultiGraph.edges(): each edge once, from the end that comes first among the nodes *)
Fixpoint edges_from (g : list edge) (seen nodes : list nat) : list (nat * nat) :=
  match nodes with
  | [] => []
  | u :: r => flat_map (fun v => if existsb (Nat.eqb v) seen then [] else repeat (u, v) (length (adj_keys g u v))) (nbrs g u) ++ edges_from g (u :: seen) r
  end.
Definition edges (g : list edge) (nodes : list nat) : list (nat * nat) := edges_from g [] nodes.

Inductive exn := KeyError | AttributeError.
Inductive out := Done (n : list line) | Raise (e : exn) (n : list line).
Definition find_line (n : list line) (x : nat) : option line := find (fun l => Nat.eqb (lname l) x) n.
(* 1313: n.lines.loc[[...]]: all names or KeyError *)
Fixpoint loc (n : list line) (xs : list nat) : option (list line) :=
  match xs with
  | [] => Some []
  | x :: r => match find_line n x, loc n r with Some l, Some ls => Some (l :: ls) | _, _ => None end
  end.
(* 1328: n.remove("Line", name) *)
Definition remove_line (n : list line) (x : nat) : list line := filter (fun l => negb (Nat.eqb (lname l) x)) n.
Fixpoint remove_all (n : list line) (xs : list nat) : out :=
  match xs with
  | [] => Done n
  | x :: r => match find_line n x with None => Raise KeyError n | Some _ => remove_all (remove_line n x) r end
  end.
(* 1332-1333: rep is the key of the first edge, a tuple; a tuple takes no attributes *)
Definition setattr_tuple (k : key) (kv : attr * ext) (n : list line) : out := Raise AttributeError n.
Fixpoint set_all (k : key) (kvs : list (attr * ext)) (n : list line) : out :=
  match kvs with
  | [] => Done n
  | kv :: r => match setattr_tuple k kv n with Done n' => set_all k r n' | e => e end
  end.
(* 1307-1335 *)
Definition pair_eqb (p q : nat * nat) : bool := Nat.eqb (fst p) (fst q) && Nat.eqb (snd p) (snd q).
Fixpoint over_edges (g : list edge) (es seen : list (nat * nat)) (n : list line) : out :=
  match es with
  | [] => Done n
  | (u, v) :: r =>
      if existsb (pair_eqb (u, v)) seen then over_edges g r seen n
      else match adj_keys g u v with
           | rep :: (_ :: _) as rest =>
               match loc n (map snd (rep :: tl (adj_keys g u v))) with
               | None => Raise KeyError n
               | Some ls => match remove_all n (map snd (tl (adj_keys g u v))) with
                            | Done n' => match set_all rep (aggregated ls) n' with Done n'' => over_edges g r ((u, v) :: seen) n'' | e => e end
                            | e => e
                            end
               end
           | _ => over_edges g r seen n
           end
  end.
Definition aggregate_multi_graph (nodes : list nat) (g : list edge) (n : list line) : out := over_edges g (edges g nodes) [] n.
