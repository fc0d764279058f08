From Coq Require Import List String Bool Arith.
From Verif Require Import StubsModel StubsSpec StubsProofs.
Import ListNotations.
Open Scope string_scope.
Open Scope list_scope.

(* a triangle 1-2-3 with a tail 3-4-5 and a separate pair 6-7 *)
Definition ex : graph := {| nodes := ["1"; "2"; "3"; "4"; "5"; "6"; "7"]; edges := [("1", "2"); ("2", "3"); ("3", "1"); ("3", "4"); ("4", "5"); ("4", "5"); ("6", "7")] |}.
Example ex_closed : closed ex.
Proof.
  split; [repeat constructor; simpl; intuition discriminate|]. intros a b [I|I]; simpl in I;
    repeat (destruct I as [E|I]; [injection E as <- <-; simpl; auto 10|]); destruct I.
Qed.

(* C42: the loop ends, after at most as many passes as there are buses and one more *)
Theorem C42_terminates : forall matching value G, closed G -> exists bm, busmap_by_stubs matching value (S (List.length (nodes G))) G = Some bm.
Proof. exact terminates. Qed.
Print Assumptions C42_terminates.
Example C42_ex : option_map (fun bm => map bm (nodes ex)) (busmap_by_stubs [] (fun _ _ => None) 8 ex) = Some ["1"; "2"; "3"; "3"; "3"; "6"; "6"].
Proof. reflexivity. Qed.

(* C42: representatives represent themselves *)
Theorem C42_idempotent : forall matching value fuel G bm, closed G -> busmap_by_stubs matching value fuel G = Some bm -> forall b, bm (bm b) = bm b.
Proof. exact idempotent. Qed.
Print Assumptions C42_idempotent.

(* C42: every bus is mapped to a bus of its connected component *)
Theorem C42_component : forall matching value fuel G bm, closed G -> busmap_by_stubs matching value fuel G = Some bm ->
  forall b, connected G b (bm b) /\ (In b (nodes G) -> In (bm b) (nodes G)).
Proof. exact same_component. Qed.
Print Assumptions C42_component.

(* C42: every bus agrees with its representative in all matching attributes *)
Theorem C42_attributes : forall matching value fuel G bm, closed G -> busmap_by_stubs matching value fuel G = Some bm -> forall b, bm b = b \/ agree matching value b (bm b).
Proof. exact clusters_agree. Qed.
Print Assumptions C42_attributes.
Definition ex_value (a b : string) : option string := if existsb (String.eqb b) ["4"; "6"] then Some "110" else if String.eqb b "7" then None else Some "380".
Example C42_attributes_ex : option_map (fun bm => map bm (nodes ex)) (busmap_by_stubs ["v_nom"] ex_value 8 ex) = Some ["1"; "2"; "3"; "4"; "5"; "6"; "7"].
Proof. reflexivity. Qed.

(* C42: meshed buses are left alone *)
Theorem C42_mesh_kept : forall matching value fuel G bm C, closed G -> busmap_by_stubs matching value fuel G = Some bm -> meshed G C -> forall u, C u -> bm u = u.
Proof. exact mesh_kept. Qed.
Print Assumptions C42_mesh_kept.
Example C42_mesh_ex : meshed ex (fun u => u = "1" \/ u = "2" \/ u = "3").
Proof.
  intros u [E|[E|E]]; subst u; (split; [simpl; auto|]); [exists "2", "3"|exists "1", "3"|exists "1", "2"]; (split; [discriminate|]); unfold adjacent; simpl; intuition.
Qed.

(* C42: nothing is left to reduce: a cluster (without loop at its representative) joined to just one other cluster differs from it in the
   matching attributes *)
Theorem C42_no_stub_left : forall matching value fuel G bm, closed G -> busmap_by_stubs matching value fuel G = Some bm ->
  forall u v, linked G bm u v -> (forall w, linked G bm u w -> w = v) -> ~ adjacent G u u -> ~ agree matching value u v.
Proof. exact no_stub_left. Qed.
Print Assumptions C42_no_stub_left.

(* C42: without meshes and differing attributes every connected component becomes a single bus *)
Theorem C42_trees_collapse : forall matching value fuel G bm, closed G -> busmap_by_stubs matching value fuel G = Some bm -> forest G ->
  (forall u v, In u (nodes G) -> In v (nodes G) -> agree matching value u v) -> forall a b, connected G a b -> bm a = bm b.
Proof. exact trees_collapse. Qed.
Print Assumptions C42_trees_collapse.
Definition path : graph := {| nodes := ["a"; "b"; "c"]; edges := [("b", "a"); ("b", "c")] |}.
Example C42_forest_ex : forest path /\ option_map (fun bm => map bm (nodes path)) (busmap_by_stubs [] (fun _ _ => None) 4 path) = Some ["b"; "b"; "b"].
Proof.
  split; [|reflexivity]. intros C M.
  assert (NA : ~ C "a").
  { intros U. destruct (M _ U) as [_ [v [w [NE [_ [_ [A B]]]]]]]. unfold adjacent in A, B. simpl in A, B. intuition congruence. }
  assert (NC : ~ C "c").
  { intros U. destruct (M _ U) as [_ [v [w [NE [_ [_ [A B]]]]]]]. unfold adjacent in A, B. simpl in A, B. intuition congruence. }
  intros u U. destruct (M _ U) as [I [v [w [NE [CV [_ [A _]]]]]]]. unfold adjacent in A. simpl in A, I. intuition (subst; try contradiction; try congruence).
Qed.
