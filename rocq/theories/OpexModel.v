From Coq Require Import List String Bool QArith ZArith Arith.
From Verif Require Import LinModel ObjectiveModel.
Import ListNotations.
Open Scope string_scope.
Open Scope list_scope.
Open Scope Q_scope.

(* Costs reported after an optimisation: pypsa/statistics/expressions.py 468-471 (capex), 1127-1184 (opex), 43-51, with
   groupby=False and before rounding, on the tables written by assign_solution (optimize.py 337-386). No investment periods. *)
Record weightings := { w_generators : nat -> Q; w_stores : nat -> Q; w_objective : nat -> Q }.

Section P.
Variable n : net.
Variable ws : weightings.
Variable x : sol.

(* 43-51 *)
Definition get_weightings (c : string) : nat -> Q :=
  if String.eqb c "Generator" then w_generators ws else if existsb (String.eqb c) ["StorageUnit"; "Store"] then w_stores ws else w_objective ws.

(* n.dynamic(c)[attr] after assign_solution: the solution, 0 where masked (common.py 38-47); a table that was never written is
   empty, products with it are NaN and skipped by sum(); None: KeyError. The flow of a link is stored as p0: there is no table p *)
Definition table (c attr : string) : option (asset -> nat -> Q) :=
  if String.eqb c "Link" && String.eqb attr "p" then None
  else Some (fun a t => val x (op_label c attr a t)).

(* columns of the component tables (data/component_attrs) *)
Definition has_column (c cost : string) : bool :=
  existsb (fun r => String.eqb (fst r) c && existsb (String.eqb cost) (snd r))
    [("Generator", ["marginal_cost"; "marginal_cost_quadratic"; "start_up_cost"; "shut_down_cost"; "stand_by_cost"]);
     ("Link", ["marginal_cost"; "marginal_cost_quadratic"; "start_up_cost"; "shut_down_cost"; "stand_by_cost"]);
     ("Store", ["marginal_cost"; "marginal_cost_quadratic"; "marginal_cost_storage"]);
     ("StorageUnit", ["marginal_cost"; "marginal_cost_quadratic"; "marginal_cost_storage"; "spill_cost"])].
Definition cost_of (cost : string) (a : asset) (t : nat) : Q :=
  if String.eqb cost "marginal_cost" then a_marginal a t else if String.eqb cost "marginal_cost_quadratic" then a_quadratic a t
  else if String.eqb cost "marginal_cost_storage" then a_storage a t else if String.eqb cost "spill_cost" then a_spill a t
  else if String.eqb cost "start_up_cost" then a_start a else if String.eqb cost "shut_down_cost" then a_shut a else a_standby a t.
(* lookup.query(cost).loc[c].index.item(): data/variables.csv *)
Definition lookup (cost c : string) : option string :=
  option_map snd (find (fun r => String.eqb (fst r) c)
    (if existsb (String.eqb cost) ["marginal_cost"; "marginal_cost_quadratic"] then of_marginal
     else if String.eqb cost "marginal_cost_storage" then of_storage else of_spill)).

Definition weighted_sum (w f : nat -> Q) : Q := fold_right (fun t q => w t * f t + q) 0 (seq 0 (nsnaps n)).
(* 1151-1164; None: KeyError *)
Definition running_term (c cost : string) : option (asset -> Q) :=
  if has_column c cost then
    match lookup cost c with
    | Some attr => option_map (fun p a => weighted_sum (get_weightings c) (fun t => (if String.eqb cost "marginal_cost_quadratic" then p a t * p a t else p a t) * cost_of cost a t)) (table c attr)
    | None => None
    end
  else Some (fun _ => 0).
(* 1166-1181: committable assets only *)
Definition switching_term (c cost attr : string) : option (asset -> Q) :=
  if has_column c cost && nonempty (com n c) then
    option_map (fun v a => if a_com a then weighted_sum (if String.eqb attr "status" then get_weightings c else fun _ => 1) (fun t => v a t * cost_of cost a t) else 0) (table c attr)
  else Some (fun _ => 0).
Definition add_terms (f g : option (asset -> Q)) : option (asset -> Q) :=
  match f, g with Some f, Some g => Some (fun a => f a + g a) | _, _ => None end.
Definition opex_func (c : string) : option (asset -> Q) :=
  add_terms (running_term c "marginal_cost") (add_terms (running_term c "marginal_cost_storage") (add_terms (running_term c "marginal_cost_quadratic")
    (add_terms (running_term c "spill_cost") (add_terms (switching_term c "start_up_cost" "start_up") (add_terms (switching_term c "shut_down_cost" "shut_down") (switching_term c "stand_by_cost" "status")))))).
(* common.py 562-570: a KeyError gives an empty series; abstract.py 294-300: active assets only *)
Definition opex : list (string * string * Q) :=
  flat_map (fun c => match opex_func c with
    | Some f => map (fun a => (c, a_name a, f a)) (filter a_flag (cls n c))
    | None => [] end) ["Generator"; "Line"; "Transformer"; "Link"; "Store"; "StorageUnit"].
(* 468-471: ..._nom_opt * capital_cost, for extendable and other assets; ..._nom_opt: optimize.py 372-381 *)
Definition nom_opt (c attr : string) (a : asset) : Q := if a_ext a then val x (nom_label c attr a) else a_nom a.
Definition capex : list (string * string * Q) :=
  flat_map (fun ca => map (fun a => (fst ca, a_name a, nom_opt (fst ca) (snd ca) a * a_capital a)) (filter a_flag (cls n (fst ca)))) nominal.
Definition sum_series (l : list (string * string * Q)) : Q := fold_right (fun e q => snd e + q) 0 l.
End P.
