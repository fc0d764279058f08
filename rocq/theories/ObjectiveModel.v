From Coq Require Import List String Bool QArith ZArith Arith.
From Verif Require Import LinModel.
Import ListNotations.
Open Scope string_scope.
Open Scope list_scope.
Open Scope Q_scope.

(* Objective: pypsa/optimization/optimize.py 78-209, data/variables.csv, optimization/variables.py 22-143.
   One record for the assets of all classes with a capacity; attributes a class lacks are not read. *)
Record asset := {
  a_class : string; a_name : string;
  a_flag : bool;                           (* column active: get_active_assets(c) *)
  a_in : Z -> bool;                        (* get_active_assets(c, period) *)
  a_on : nat -> bool;                      (* get_activity_mask *)
  a_ext : bool; a_com : bool;              (* ..._nom_extendable, committable *)
  a_nom : Q; a_capital : Q;                (* p_nom / s_nom / e_nom, capital_cost *)
  a_marginal : nat -> Q; a_storage : nat -> Q; a_spill : nat -> Q; a_quadratic : nat -> Q; a_standby : nat -> Q;
  a_start : Q; a_shut : Q;                 (* start_up_cost, shut_down_cost *)
  a_inflow : nat -> Q
}.
Record net := {
  assets : list asset; nsnaps : nat;
  w_snap : nat -> Q;                       (* snapshot_weightings.objective *)
  per : nat -> Z;
  multi : option (list Z * (Z -> Q))       (* sns.unique("period"), investment_period_weightings.objective *)
}.

(* descriptors.py 215-222 *)
Definition nominal : list (string * string) :=
  [("Generator", "p_nom"); ("Line", "s_nom"); ("Transformer", "s_nom"); ("Link", "p_nom"); ("Store", "e_nom"); ("StorageUnit", "p_nom")].
(* data/variables.csv: rows with marginal_cost, marginal_cost_storage, spill_cost *)
Definition of_marginal : list (string * string) := [("Generator", "p"); ("Link", "p"); ("Store", "p"); ("StorageUnit", "p_dispatch")].
Definition of_storage : list (string * string) := [("Store", "e"); ("StorageUnit", "state_of_charge")].
Definition of_spill : list (string * string) := [("StorageUnit", "spill")].

Definition nonempty {A} (l : list A) : bool := match l with [] => false | _ => true end.
Definition vname (c attr : string) : string := (c ++ "-" ++ attr)%string.

Section O.
Variable n : net.
Definition cls (c : string) : list asset := filter (fun a => String.eqb (a_class a) c) (assets n).
Definition ext (c : string) : list asset := filter a_ext (cls c).
Definition com (c : string) : list asset := filter a_com (cls c).

Definition nom_label (c attr : string) (a : asset) : label := Some (vname c attr, O, a_name a).
Definition positive (q : Q) : bool := negb (Qle_bool q 0).
Definition is_spill (v : string) : bool := String.eqb v "StorageUnit-spill".
(* variables.py 22-40, 126-143 *)
Definition op_label (c attr : string) (a : asset) (t : nat) : label :=
  let v := vname c attr in
  if a_on a t && (if is_spill v then positive (a_inflow a t) else true) then Some (v, t, a_name a) else None.
(* the array exists: for spill only if some inflow is positive *)
Definition exists_array (c attr : string) : bool :=
  if is_spill (vname c attr) then existsb (fun a => existsb (fun t => positive (a_inflow a t)) (seq 0 (nsnaps n))) (cls c) else nonempty (cls c).

(* 100-113, 172-187: capital cost per unit of capacity *)
Definition annual (a : asset) : Q :=
  match multi n with
  | None => if a_flag a then a_capital a else 0
  | Some (ps, ww) => fold_right (fun p q => (if a_in a p then ww p else 0) + q) 0 ps * a_capital a
  end.
(* 92-115 *)
Definition constant : Q := fold_right (fun ca q => fold_right (fun a q' => annual a * a_nom a + q') 0 (ext (fst ca)) + q) 0 nominal.
Definition const_label : label := Some ("objective_constant", O, "").
(* 121-126 *)
Definition weighting (t : nat) : Q := match multi n with None => w_snap n t | Some (_, ww) => w_snap n t * ww (per n t) end.
(* get_as_dense(...).loc[:, (ds != 0).any()] *)
Definition charged (f : asset -> nat -> Q) (a : asset) : bool := existsb (fun t => negb (Qeq_bool (f a t) 0)) (seq 0 (nsnaps n)).

Inductive piece := Linear (l : lin) | Square (l : lin) | Missing.   (* Missing: KeyError *)
Definition terms (f : asset -> nat -> Q) (lab : asset -> nat -> label) (l : list asset) : lin :=
  flat_map (fun a => map (fun t => (f a t * weighting t, lab a t)) (seq 0 (nsnaps n))) l.
(* 129-139, 142-153 *)
Definition operation (sq : lin -> piece) (f : asset -> nat -> Q) (rows : list (string * string)) : list piece :=
  flat_map (fun ca => let l := filter (charged f) (cls (fst ca)) in
    if nonempty l then [if exists_array (fst ca) (snd ca) then sq (terms f (op_label (fst ca) (snd ca)) l) else Missing] else []) rows.
(* 155-169 *)
Definition standby : list piece :=
  flat_map (fun c => if nonempty (com c) then [Linear (terms a_standby (op_label c "status") (filter (charged a_standby) (com c)))] else []) ["Generator"; "Link"].
(* 171-190 *)
Definition investment : list piece :=
  flat_map (fun ca => if nonempty (ext (fst ca)) then [Linear (map (fun a => (annual a, nom_label (fst ca) (snd ca) a)) (ext (fst ca)))] else []) nominal.
(* 192-200 *)
Definition switching (attr : string) (f : asset -> Q) : list piece :=
  flat_map (fun c => if Qeq_bool (fold_right (fun a q => f a + q) 0 (com c)) 0 then []
    else [Linear (flat_map (fun a => map (fun t => (f a, op_label c attr a t)) (seq 0 (nsnaps n))) (com c))]) ["Generator"; "Link"].

Definition pieces : list piece :=
  (if Qeq_bool constant 0 then [] else [Linear [(-(1), const_label)]]) ++
  operation Linear a_marginal of_marginal ++ operation Linear a_storage of_storage ++ operation Linear a_spill of_spill ++
  operation Square a_quadratic of_marginal ++ standby ++ investment ++ switching "start_up" a_start ++ switching "shut_down" a_shut.

Definition is_missing (p : piece) : bool := match p with Missing => true | _ => false end.
(* None: an exception (no such variable; 202-206 no costs at all) *)
Definition objective : option (list piece) := if existsb is_missing pieces then None else if nonempty pieces then Some pieces else None.
End O.

Fixpoint square (x : sol) (l : lin) : Q := match l with [] => 0 | (c, v) :: r => c * (val x v * val x v) + square x r end.
Definition piece_value (x : sol) (p : piece) : Q := match p with Linear l => eval x l | Square l => square x l | Missing => 0 end.
Definition value_of (x : sol) (ps : list piece) : Q := fold_right (fun p q => piece_value x p + q) 0 ps.
(* 117-119: the variable is fixed by its bounds *)
Definition const_fixed (n : net) (x : sol) : Prop := Qeq_bool (constant n) 0 = false -> val x const_label == constant n.
