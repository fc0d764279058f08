From Coq Require Import List String Bool.
From Verif Require Import ControlModel.
Import ListNotations.
Open Scope string_scope.
Open Scope list_scope.

(* optimization/abstract.py 708-723 (optimize_and_run_non_linear_powerflow): controls of the generators between
   the optimisation and the power flow. subs lists the sub-networks found by the optimisation with their
   slack_generator. The set points (704-707) are those of SetpointModel. *)

(* 713 *)
Definition all_pv (n : cnet) : cnet :=
  {| gens := map (fun g => {| gname := gname g; gbus := gbus g; gctrl := "PV"; gactive := gactive g |}) (gens n);
     buses := buses n |}.

(* 714-715; slack_generator None: .loc[None, "control"] adds a row to the table, which is not followed further *)
Fixpoint mark_slack (subs : list (string * option string)) (n : cnet) : option cnet :=
  match subs with
  | [] => Some n
  | (_, None) :: _ => None
  | (_, Some g) :: r => mark_slack r (set_gctrl [g] "Slack" n)
  end.

(* Index.difference sorts: the least of the remaining names *)
Definition smaller (a b : string) : string := if String.leb a b then a else b.
Definition least (l : list string) : option string :=
  match l with [] => None | a :: r => Some (fold_left smaller r a) end.
Definition others (s : string) (g : option string) (n : cnet) : list string :=
  filter (fun h => match g with Some g => negb (String.eqb h g) | None => true end) (map gname (sub_gens s n)).
(* 717-721 *)
Definition mark_pq (subs : list (string * option string)) (n : cnet) : cnet :=
  fold_left (fun n sg => match least (others (fst sg) (snd sg) n) with
                         | Some h => set_gctrl [h] "PQ" n
                         | None => n
                         end) subs n.

Definition set_controls (subs : list (string * option string)) (n : cnet) : option cnet :=
  option_map (mark_pq subs) (mark_slack subs (all_pv n)).
