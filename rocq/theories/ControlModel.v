From Coq Require Import List String Bool ZArith QArith.
From Verif Require Import TablesModel.
Import ListNotations.
Open Scope string_scope.
Open Scope list_scope.

(* Slack bus and bus controls of a sub-network: pypsa/pf.py 1029-1105.
   Simplification: only the columns the code reads or writes. *)
Record gen := { gname : string; gbus : string; gctrl : string; gactive : bool }.
Record bus := { bname : string; bsub : string; bctrl : string; bgen : option string }.
Record cnet := { gens : list gen; buses : list bus }.

(* SubNetwork.components, networks.py 1904-1912: buses by their sub_network column, generators by their bus *)
Definition sub_buses (s : string) (n : cnet) : list bus := filter (fun b => String.eqb (bsub b) s) (buses n).
Definition buses_i (s : string) (n : cnet) : list string := map bname (sub_buses s n).
Definition isin (x : string) (l : list string) : bool := existsb (String.eqb x) l.
Definition sub_gens (s : string) (n : cnet) : list gen :=
  filter (fun g => isin (gbus g) (buses_i s n)) (gens n).

(* n.generators.loc[names, "control"] = c *)
Definition set_gctrl (names : list string) (c : string) (n : cnet) : cnet :=
  {| gens := map (fun g => if isin (gname g) names
                           then {| gname := gname g; gbus := gbus g; gctrl := c; gactive := gactive g |}
                           else g) (gens n);
     buses := buses n |}.
(* n.buses.loc[names, "control"] = c *)
Definition set_bctrl (names : list string) (c : string) (n : cnet) : cnet :=
  {| gens := gens n;
     buses := map (fun b => if isin (bname b) names
                            then {| bname := bname b; bsub := bsub b; bctrl := c; bgen := bgen b |}
                            else b) (buses n) |}.
(* n.buses.loc[x, "generator"] = g *)
Definition set_bgen (x : string) (g : option string) (n : cnet) : cnet :=
  {| gens := gens n;
     buses := map (fun b => if String.eqb (bname b) x
                            then {| bname := bname b; bsub := bsub b; bctrl := bctrl b; bgen := g |}
                            else b) (buses n) |}.

Record slack := { slack_generator : option string; slack_bus : string }.

(* pf.py 1029-1062; IndexErr: a sub-network without buses *)
Definition find_slack_bus (s : string) (n : cnet) : (cnet * slack) + nerr :=
  match sub_gens s n with
  | [] =>
      match buses_i s n with
      | [] => inr KeyErr
      | x :: _ => inl (n, {| slack_generator := None; slack_bus := x |})
      end
  | g :: _ =>
      match filter (fun g => String.eqb (gctrl g) "Slack") (sub_gens s n) with
      | [] => inl (set_gctrl [gname g] "Slack" n, {| slack_generator := Some (gname g); slack_bus := gbus g |})
      | h :: others =>
          inl (set_gctrl (map gname others) "PV" n, {| slack_generator := Some (gname h); slack_bus := gbus h |})
      end
  end.

Record controls := { ctl_slack : slack; pvs : list string; pqs : list string; buses_o : list string }.

(* the first generator with control PV at bus x: pvs.groupby(gens.bus).first() *)
Definition first_pv (gs : list gen) (x : string) : option string :=
  option_map gname (find (fun g => String.eqb (gctrl g) "PV" && String.eqb (gbus g) x) gs).

(* pf.py 1071-1105 *)
Definition find_bus_controls (s : string) (n : cnet) : (cnet * controls) + nerr :=
  match find_slack_bus s n with
  | inr e => inr e
  | inl (n1, sl) =>
      let gs := sub_gens s n1 in
      let n2 := set_bctrl (buses_i s n1) "PQ" n1 in
      let at_pv := map gbus (filter (fun g => String.eqb (gctrl g) "PV") gs) in
      let n3 := set_bctrl at_pv "PV" n2 in
      let n4 := fold_left (fun m x => set_bgen x (first_pv gs x) m) at_pv n3 in
      let n5 := set_bctrl [slack_bus sl] "Slack" n4 in
      let n6 := set_bgen (slack_bus sl) (slack_generator sl) n5 in
      let ctrl c := map bname (filter (fun b => String.eqb (bctrl b) c) (sub_buses s n6)) in
      inl (n6, {| ctl_slack := sl; pvs := ctrl "PV"; pqs := ctrl "PQ";
                  buses_o := slack_bus sl :: ctrl "PV" ++ ctrl "PQ" |})
  end.
