From Coq Require Import List String Bool QArith ZArith Arith.
From Verif Require Import LinModel StorageModel.
Import ListNotations.
Open Scope string_scope.
Open Scope list_scope.
Open Scope Q_scope.

(* Primary energy and operational limits: pypsa/optimization/global_constraints.py 240-367. *)
Record gen := { g_name : string; g_carrier : string; g_active : nat -> bool; g_eff : nat -> Q }.
Record sto := { st_of : storage; st_carrier : string }.
Record net := {
  gens : list gen; units : list sto; stores : list sto;
  carriers : list (string * Q);               (* n.carriers[glc.carrier_attribute] *)
  weight : nat -> Q;                          (* generators weighting, times the years of the period when multi-invest *)
  nsnaps : nat; period : option (nat -> Z)
}.
Record glc := { constant : Q; sense_of : sense; inv_period : option Z; carrier_attr : string }.

Definition lookup (l : list (string * Q)) (c : string) : option Q := option_map snd (find (fun e => String.eqb (fst e) c) l).

Section L.
Variable n : net.
(* sns[sns_sel]: 268-273; None: the period is not among the snapshots *)
Definition selected (g : glc) : option (list nat) :=
  match inv_period g with
  | None => Some (seq 0 (nsnaps n))
  | Some p =>
      match period n with
      | None => None
      | Some per => if existsb (fun t => Z.eqb (per t) p) (seq 0 (nsnaps n)) then Some (filter (fun t => Z.eqb (per t) p) (seq 0 (nsnaps n))) else None
      end
  end.

Definition gen_var (g : gen) (t : nat) : label := if g_active g t then Some ("Generator-p", t, g_name g) else None.
(* var.loc[sel].ffill("snapshot").isel(snapshot=-1) *)
Definition final_label (lev : string) (s : storage) (sel : list nat) : label :=
  fold_left (fun acc t => match level lev s t with Some v => Some v | None => acc end) sel None.

Variable em : string -> option Q.             (* carriers the limit is about *)
Variable coef : gen -> nat -> Q.              (* coefficient per unit of generation, besides em *)
Definition em_of (c : string) : Q := match em c with Some q => q | None => 0 end.
Definition concerned (c : string) : bool := match em c with Some _ => true | None => false end.
Definition my_gens : list gen := filter (fun g => concerned (g_carrier g)) (gens n).
Definition my_units : list sto := filter (fun s => concerned (st_carrier s) && negb (s_cyclic (st_of s))) (units n).
Definition my_stores : list sto := filter (fun s => concerned (st_carrier s) && negb (s_cyclic (st_of s))) (stores n).

Definition gen_terms (sel : list nat) : lin := flat_map (fun g => map (fun t => (em_of (g_carrier g) * coef g t, gen_var g t)) sel) my_gens.
Definition sto_terms (lev : string) (l : list sto) (sel : list nat) : lin :=
  map (fun s => (- em_of (st_carrier s), final_label lev (st_of s) sel)) l.
Definition initial_of (l : list sto) : Q := fold_right (fun s q => em_of (st_carrier s) * s_init (st_of s) + q) 0 l.
Definition nonempty {A} (l : list A) : bool := match l with [] => false | _ => true end.

Definition limit_con (g : glc) (sel : list nat) : option con :=
  if nonempty my_gens || nonempty my_units || nonempty my_stores then
    Some {| lhs := gen_terms sel ++ sto_terms "StorageUnit-state_of_charge" my_units sel ++ sto_terms "Store-e" my_stores sel;
            sns := sense_of g; rhs := constant g - initial_of my_units - initial_of my_stores |}
  else None.
End L.

(* 240-313 *)
Definition emissions (n : net) : list (string * Q) := filter (fun e => negb (Qeq_bool (snd e) 0)) (carriers n).
Definition primary_energy (n : net) (g : glc) : option con :=
  match selected n g with
  | None => None
  | Some sel =>
      if nonempty (emissions n) then limit_con n (lookup (emissions n)) (fun g t => weight n t / g_eff g t) g sel else None
  end.
(* 316-367; a period outside the snapshots raises instead *)
Definition operational_limit (n : net) (g : glc) : option con :=
  match selected n g with
  | None => None
  | Some sel => limit_con n (fun c => if String.eqb c (carrier_attr g) then Some 1 else None) (fun _ t => weight n t) g sel
  end.
