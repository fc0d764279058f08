(* C89: several networks in one process, and links with more than two ports. *)
From Coq Require Import List String Bool ZArith Arith.
From Verif Require Import Assoc TablesModel TablesSpec TablesProofs FileModel FileProofs SharedModel SharedSpec
  SharedProofs.
Import ListNotations.
Open Scope string_scope.
Open Scope list_scope.
Open Scope Z_scope.

(* Whatever is done to the other networks of the process, a network is what its own calls make of it in a
   process of its own, up to attributes of links that the package does not know when it is imported *)
Theorem C89_apart :
  forall (attrs : dict meta) (prog : list pop) (j : nat) (n : net),
    nth_error (p_nets (prun (start attrs) prog)) j = Some n ->
    exists n', p_nets (prun (start attrs) (alone j prog)) = [n'] /\ agree attrs n n'.
Proof. exact apart. Qed.
Print Assumptions C89_apart.

(* and exactly that as long as no link brings a port that is new to the process *)
Theorem C89_independent :
  forall (attrs : dict meta) (prog : list pop) (j : nat), no_new_ports attrs prog ->
    p_attrs (prun (start attrs) prog) = attrs /\
    nth_error (p_nets (prun (start attrs) prog)) j =
    if Nat.ltb j (made prog) then Some (nrun attrs (init_net attrs) (mine j 0 prog)) else None.
Proof. exact independent. Qed.
Print Assumptions C89_independent.

(* a new port leaves the older links of the network unconnected there *)
Theorem C89_older_links :
  forall (attrs : dict meta) (n : net) (single : bool) (raw : list string) (sfx : string)
    (kw : list (string * kwval)) (m : meta) (c : comp) (i : string) (v : val) (am : ameta) (name : string),
  dget attrs "Link" = Some m -> dget (comps n) "Link" = Some c ->
  dmem m "bus0" = true -> dget m "bus1" = Some am ->
  dmem m (String.append "bus" i) = false -> has_column c (String.append "bus" i) = false ->
  In (String.append "bus" i, Scalar v) kw ->
  snd (snd (add_link attrs n single raw sfx false kw)) = None ->
  In name (names_of c) ->
  exists c', dget (comps (fst (snd (add_link attrs n single raw sfx false kw)))) "Link" = Some c' /\
    sget c' name (String.append "bus" i) = Some (adefault am).
Proof. exact older. Qed.
Print Assumptions C89_older_links.

(* ---- cases ---- *)
Definition ports_meta : dict meta :=
  [("Bus", [("v_nom", {| akind := KStatic; adefault := VNum 1 |})]);
   ("Link", [("bus0", {| akind := KStatic; adefault := VStr "" |});
             ("bus1", {| akind := KStatic; adefault := VStr "" |});
             ("efficiency", {| akind := KBoth; adefault := VNum 1 |});
             ("p_nom", {| akind := KStatic; adefault := VNum 0 |});
             ("p0", {| akind := KSeries; adefault := VNum 0 |});
             ("p1", {| akind := KSeries; adefault := VNum 0 |})])].
Definition two (name : string) : nop :=
  Add "Link" true [name] "" false
    [("bus0", Scalar (VStr "x")); ("bus1", Scalar (VStr "y")); ("p_nom", Scalar (VNum 3))].
Definition three (name : string) : nop :=
  Add "Link" true [name] "" false
    [("bus0", Scalar (VStr "x")); ("bus1", Scalar (VStr "y")); ("bus2", Scalar (VStr "z"))].
Definition after (l : list pop) (j : nat) : option net := nth_error (p_nets (prun (start ports_meta) l)) j.
Definition link_of (o : option net) : comp :=
  match o with Some n => match dget (comps n) "Link" with Some c => c | None => empty_comp [] end
             | None => empty_comp [] end.

(* two networks, one of them with a link of three ports: the other is as on its own *)
Definition mixed : list pop := [New; Do 0 (two "a"); New; Do 1 (three "b"); Do 0 (Remove "Link" ["a"] "")].
Example C89_apart_ex :
  after mixed 0 = after (alone 0 mixed) 0 /\ after mixed 0 <> None /\
  sget (link_of (after mixed 1)) "b" "bus2" = Some (VStr "z").
Proof. vm_compute. repeat split; congruence. Qed.

Definition plain : list pop := [New; Do 0 (two "a"); New; Do 1 (two "b"); Do 0 (two "c")].
Example C89_independent_ex : no_new_ports ports_meta plain /\ made plain = 2%nat /\
  option_map (fun n => map fst (static (link_of (Some n)))) (after plain 0) = Some ["a"; "c"].
Proof.
  split; [|split; reflexivity].
  intros i single names sfx ow kw m H D a v j I E N0 N1.
  assert (K : map fst kw = ["bus0"; "bus1"; "p_nom"]).
  { repeat (destruct H as [H|H]; [try discriminate H; injection H as _ _ _ _ _ <-; reflexivity|]). destruct H. }
  apply (in_map fst) in I. rewrite K in I. cbn [fst] in I.
  destruct I as [I|[I|[I|[]]]]; rewrite <- I in *; try congruence. discriminate E.
Qed.

Example C89_older_links_ex :
  sget (link_of (after [New; Do 0 (two "a"); Do 0 (three "b")] 0)) "a" "bus2" = Some (VStr "").
Proof. reflexivity. Qed.

(* ---- what is not so ---- *)
(* A network made after another one got a link with three ports is not an empty network of a process of its
   own: it has the frames of the third port *)
Theorem C89_later_refuted :
  ~ forall (attrs : dict meta) (prog : list pop) (j : nat) (n : net),
      nth_error (p_nets (prun (start attrs) prog)) j = Some n ->
      p_nets (prun (start attrs) (alone j prog)) = [n].
Proof.
  intros H. specialize (H ports_meta [New; Do 0 (three "b"); New] 1%nat _ eq_refl).
  apply (f_equal (fun l => option_map (fun n => dmem (dyn (link_of (Some n))) "p2") (nth_error l 0%nat))) in H.
  vm_compute in H. discriminate H.
Qed.
Print Assumptions C89_later_refuted.

(* One made before gets the columns of the third port with its next link, NaN for its older links, but never
   the frame p2 that n.pf() and n.lpf() fill for every column bus2 *)
Theorem C89_earlier_refuted :
  exists (l : list pop) (c : comp), link_of (after l 0) = c /\ mine 0 0 l = [two "a"; two "c"] /\
    sget c "a" "bus2" = Some VNaN /\ sget c "a" "efficiency2" = Some VNaN /\ sget c "c" "bus2" = Some (VStr "") /\
    dget (dyn c) "p2" = None /\
    (let c1 := link_of (after (alone 0 l) 0) in has_column c1 "bus2" = false).
Proof.
  exists [New; Do 0 (two "a"); New; Do 1 (three "b"); Do 0 (two "c")]. eexists.
  split; [reflexivity|]. vm_compute. repeat split.
Qed.
Print Assumptions C89_earlier_refuted.

(* The first link with three ports gets no efficiency2 though the table gives it the default 1: reading it
   raises KeyError, and after a further link it is NaN *)
Theorem C89_first_port_refuted :
  (exists n, after [New; Do 0 (three "b")] 0 = Some n /\
     option_map adefault (dget (meta_of (p_attrs (prun (start ports_meta) [New; Do 0 (three "b")])) "Link")
       "efficiency2") = Some (VNum 1) /\
     dense n (link_of (Some n)) "efficiency2" None None = None) /\
  (exists n, after [New; Do 0 (three "b"); Do 0 (three "c")] 0 = Some n /\
     sget (link_of (Some n)) "b" "efficiency2" = Some VNaN /\
     sget (link_of (Some n)) "c" "efficiency2" = Some (VNum 1)).
Proof. split; eexists; (split; [reflexivity|]); vm_compute; repeat split. Qed.
Print Assumptions C89_first_port_refuted.
