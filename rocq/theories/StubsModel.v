From Coq Require Import List String Bool Arith.
Import ListNotations.
Open Scope string_scope.
Open Scope list_scope.

(* Stub reduction: busmap_by_stubs, pypsa/clustering/spatial.py 957-999. The graph n.graph() (graph.py 34-106) is a list of
   nodes (all buses) and a list of edges; parallel edges and direction do not matter here. *)
Record graph := { nodes : list string; edges : list (string * string) }.

(* list(G.adj[u].keys()) in the graph without the nodes removed so far; a self-loop makes u its own neighbour *)
Definition alive_in (alive : list string) (b : string) : bool := existsb (String.eqb b) alive.
Definition neighbours (G : graph) (alive : list string) (u : string) : list string :=
  nodup string_dec (flat_map (fun e =>
    (if String.eqb (fst e) u && alive_in alive (snd e) then [snd e] else []) ++
    (if String.eqb (snd e) u && alive_in alive (fst e) then [fst e] else [])) (edges G)).

Section M.
(* the values of the attributes to match, by attribute and bus; None is NaN, which equals nothing *)
Variable matching : list string.
Variable value : string -> string -> option string.
Definition attrs_match (u v : string) : bool :=
  forallb (fun a => match value a u, value a v with Some x, Some y => String.eqb x y | _, _ => false end) matching.

(* 986-994: one pass over the nodes; the graph is left unchanged during the pass *)
Definition visit (G : graph) (alive : list string) (st : (string -> string) * list string) (u : string) : (string -> string) * list string :=
  match neighbours G alive u with
  | [v] => if attrs_match u v then ((fun b => if String.eqb (fst st b) u then v else fst st b), u :: snd st) else st
  | _ => st
  end.
Definition pass (G : graph) (alive : list string) (bm : string -> string) : (string -> string) * list string := fold_left (visit G alive) alive (bm, []).
(* 985-998: while True; the number of passes is bounded by fuel, None if it does not suffice *)
Fixpoint reduce (fuel : nat) (G : graph) (alive : list string) (bm : string -> string) : option ((string -> string) * list string) :=
  match fuel with
  | O => None
  | S f =>
      let '(bm', stubs) := pass G alive bm in
      match stubs with
      | [] => Some (bm', alive)
      | _ => reduce f G (filter (fun b => negb (alive_in stubs b)) alive) bm'
      end
  end.
Definition busmap_by_stubs (fuel : nat) (G : graph) : option (string -> string) := option_map fst (reduce fuel G (nodes G) (fun b => b)).
End M.
