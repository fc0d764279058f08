From Coq Require Import List String Bool QArith Arith.
From Verif Require Import LinModel.
Import ListNotations.
Open Scope string_scope.
Open Scope list_scope.
Open Scope Q_scope.

(* Nodal balance: pypsa/optimization/constraints.py 573-666, optimization/common.py 50-71, optimization/optimize.py 292-311 *)
Record comp := { c_name : string; c_bus : string; c_sign : Q; c_active : nat -> bool }.   (* Generator, Store, StorageUnit *)
Record branch := { b_name : string; b_bus0 : string; b_bus1 : string; b_active : nat -> bool }.   (* Line, Transformer *)
Record link := { l_name : string; l_bus0 : string; l_bus1 : string; l_eff1 : nat -> Q;
  l_ports : list (string * (nat -> Q));   (* bus2, efficiency2; bus3, ...; "" for no bus *)
  l_active : nat -> bool }.
Record load := { d_bus : string; d_sign : Q; d_p : nat -> Q; d_active : bool }.
Record net := { buses : list string; gens : list comp; stores : list comp; units : list comp;
  lines : list branch; trafos : list branch; links : list link; loads : list load }.

Definition lab (active : nat -> bool) (v : string) (nm : string) (t : nat) : label :=
  if active t then Some (v, t, nm) else None.

Definition entry : Type := (string * (Q * label))%type.   (* bus, coefficient, variable *)

Section N.
Variable n : net.
Variable losses : bool.    (* transmission_losses *)
Variable bs : list string. (* the argument buses *)

Definition one (sg : Q) (v : string) (cs : list comp) (t : nat) : list entry :=
  map (fun c => (c_bus c, (sg * c_sign c, lab (c_active c) v (c_name c) t))) cs.
Definition br (sg0 sg1 : Q) (v : string) (cs : list branch) (t : nat) : list entry :=
  map (fun c => (b_bus0 c, (sg0, lab (b_active c) v (b_name c) t))) cs ++
  map (fun c => (b_bus1 c, (sg1, lab (b_active c) v (b_name c) t))) cs.
(* 587-615, 620-640; the port columns are taken link by link *)
Definition entries (t : nat) : list entry :=
  one 1 "Generator-p" (gens n) t ++ one 1 "Store-p" (stores n) t ++
  one 1 "StorageUnit-p_dispatch" (units n) t ++ one (-(1)) "StorageUnit-p_store" (units n) t ++
  br (-(1)) 1 "Line-s" (lines n) t ++ br (-(1)) 1 "Transformer-s" (trafos n) t ++
  map (fun l => (l_bus0 l, (-(1), lab (l_active l) "Link-p" (l_name l) t))) (links n) ++
  map (fun l => (l_bus1 l, (l_eff1 l t, lab (l_active l) "Link-p" (l_name l) t))) (links n) ++
  flat_map (fun l => map (fun pe => (fst pe, (snd pe t, lab (l_active l) "Link-p" (l_name l) t)))
                         (filter (fun pe => negb (String.eqb (fst pe) "")) (l_ports l))) (links n) ++
  (if losses then br (-(1#2)) (-(1#2)) "Line-loss" (lines n) t ++ br (-(1#2)) (-(1#2)) "Transformer-loss" (trafos n) t else []).

(* 626-638: sum per bus *)
Definition balance_lhs (b : string) (t : nat) : lin := map snd (filter (fun e => String.eqb (fst e) b) (entries t)).
(* 639-645 *)
Definition balance_rhs (b : string) (t : nat) : Q :=
  fold_right Qplus 0 (map (fun d => - d_p d t * d_sign d) (filter (fun d => d_active d && String.eqb (d_bus d) b) (loads n))).

Definition is_empty (l : lin) : bool := forallb (fun e => match snd e with None => true | _ => false end) l.
Variable T : nat.
(* 638: merge of no expression at all fails *)
Definition no_terms : bool :=
  negb (existsb (fun e => existsb (String.eqb (fst e)) bs) (entries 0)).
(* 650-657 *)
Definition empty_demand : bool :=
  existsb (fun t => existsb (fun b => is_empty (balance_lhs b t) && negb (Qeq_bool (balance_rhs b t) 0)) bs) (seq 0 T).
(* None: an exception *)
Definition balance : option (list con) :=
  if no_terms || empty_demand then None else
  Some (add_constraints (seq 0 T) bs (fun t b => negb (is_empty (balance_lhs b t)))
    (fun t b => {| lhs := balance_lhs b t; sns := Eq; rhs := balance_rhs b t |})).
End N.

(* common.py 64-71: buses attached to more than threshold components; here cols are the entries of all columns with
   "bus" in their name *)
Definition meshed (cols : list string) (threshold : nat) : list string :=
  filter (fun b => negb (String.eqb b "") && Nat.ltb threshold (count_occ string_dec cols b)) (nodup string_dec cols).
Definition difference (bs ms : list string) : list string := filter (fun b => negb (existsb (String.eqb b) ms)) bs.
Definition emptyb {A} (l : list A) : bool := match l with [] => true | _ => false end.

(* optimize.py 292-311 *)
Definition nodal_balance (n : net) (losses : bool) (T : nat) (cols : list string) (threshold : nat) : option (list con) :=
  let ms := meshed cols threshold in
  let ws := difference (buses n) ms in
  if negb (emptyb ms) && negb (emptyb ws) then
    match balance n losses ws T, balance n losses ms T with
    | Some a, Some b => Some (a ++ b)
    | _, _ => None
    end
  else balance n losses (buses n) T.
