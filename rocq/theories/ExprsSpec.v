From Coq Require Import List String Bool QArith Arith.
From Verif Require Import LinModel StatsModel StatsSpec ExprsModel.
Import ListNotations.
Open Scope string_scope.
Open Scope list_scope.
Open Scope Q_scope.

(* an expression at a solution, and a table of expressions *)
Definition worth (x : sol) (e : expr) : Q := total (fun t => fst t * match snd t with Some v => x v | None => 0 end) (fst e) + snd e.
Definition at_solution (x : sol) (l : list ((string * string) * expr)) : list ((string * string) * Q) := map (fun e => (fst e, worth x (snd e))) l.

(* the names of the capacity variables *)
Definition size_name (c : string) : string :=
  if string_dec c "Generator" then "Generator-p_nom" else if string_dec c "Link" then "Link-p_nom" else if string_dec c "StorageUnit" then "StorageUnit-p_nom" else
  if string_dec c "Line" then "Line-s_nom" else if string_dec c "Transformer" then "Transformer-s_nom" else "Store-e_nom".
(* the network holds the solution: capacities, *)
Definition sizes_written (x : sol) (extendable : string -> string -> bool) (nom nom_opt : string -> string -> Q) : Prop :=
  forall c nm, nom_opt c nm == if extendable c nm then x (size_name c, O, nm) else nom c nm.
(* and powers at each port *)
Definition power_of (x : sol) (p_set : string -> nat -> Q) (eff : string -> nat -> option (string -> nat -> Q)) (c : string) (a : comp) (p t : nat) : Q :=
  let nm := s_name a in
  if string_dec c "Generator" then x ("Generator-p", t, nm) else
  if string_dec c "Load" then p_set nm t else
  if string_dec c "StorageUnit" then x ("StorageUnit-p_dispatch", t, nm) - x ("StorageUnit-p_store", t, nm) else
  if string_dec c "Store" then x ("Store-p", t, nm) else
  if string_dec c "Line" then if Nat.eqb p 0 then x ("Line-s", t, nm) else - x ("Line-s", t, nm) else
  if string_dec c "Transformer" then if Nat.eqb p 0 then x ("Transformer-s", t, nm) else - x ("Transformer-s", t, nm) else
  if Nat.eqb p 0 then x ("Link-p", t, nm) else
  if string_dec (s_bus a p) "" then 0 else - (match eff c p with Some f => f nm t | None => 1 end) * x ("Link-p", t, nm).
Definition powers_written (x : sol) (nt : nat) (p_set : string -> nat -> Q) (eff : string -> nat -> option (string -> nat -> Q)) (cs : list class) : Prop :=
  (forall c p, eff c p <> None -> c = "Link") /\
  forall cl, In cl cs -> In (k_name cl) ["Generator"; "Load"; "StorageUnit"; "Store"; "Line"; "Transformer"; "Link"] /\ (k_branch cl = true <-> In (k_name cl) ["Line"; "Transformer"; "Link"]) /\ (0 < k_ports cl)%nat /\ (k_branch cl = false -> k_ports cl = 1%nat) /\
  forall a p t, In a (k_comps cl) -> (p < k_ports cl)%nat -> (t < nt)%nat -> s_p a p t == power_of x p_set eff (k_name cl) a p t.
(* every port of the group has a bus *)
Definition connected (r : args) (cs : list class) (c k : string) : Prop :=
  forall cl a p, In cl cs -> k_name cl = c -> In a (k_comps cl) -> (p < k_ports cl)%nat -> chosen r k a p = true -> s_bus a p <> "".
(* each class of that name has an extendable asset *)
Definition some_extendable (extendable : string -> string -> bool) (cs : list class) (c : string) : Prop :=
  forall cl, In cl cs -> k_name cl = c -> exists a, In a (k_comps cl) /\ extendable c (s_name a) = true.
Definition none_extendable (extendable : string -> string -> bool) (cs : list class) (c : string) : Prop :=
  forall cl a, In cl cs -> k_name cl = c -> In a (k_comps cl) -> extendable c (s_name a) = false.
(* two ports with buses of the same, wanted carrier *)
Definition links_carrier (carrier_of : string -> option string) (wanted : list string) (cl : class) (a : comp) : Prop :=
  exists p q ca, (p < q < k_ports cl)%nat /\ carrier_of (s_bus a p) = Some ca /\ carrier_of (s_bus a q) = Some ca /\ In ca wanted.
(* marginal costs of the dispatch *)
Definition dispatch_name (c : string) : string :=
  if string_dec c "Generator" then "Generator-p" else if string_dec c "Link" then "Link-p" else if string_dec c "Store" then "Store-p" else "StorageUnit-p_dispatch".
