From Coq Require Import List String Ascii Bool QArith Arith.
From Verif Require Import AssignModel.
Import ListNotations.
Open Scope string_scope.
Open Scope list_scope.
Open Scope Q_scope.

(* Shadow prices: pypsa/optimization/optimize.py 388-443 (assign_duals), 446-463 (post_processing), 607-610,
   optimization/common.py 39-48. *)

(* a table by component: None where there is no column *)
Definition frame : Type := string -> option series.

(* common.py 39-48 for a table *)
Definition zeros (s : series) : series := fun t => Some (num s t).
Definition set_frame (sns : nat -> bool) (prev df : frame) : frame :=
  fun c => match df c with
           | Some s => Some (set_from_frame sns (match prev c with Some p => p | None => none end) s)
           | None => option_map zeros (prev c)
           end.

(* str.split("-", 1) with two parts, str.rsplit("-", 1)[-1], str.endswith *)
Definition dash : ascii := "-".
Fixpoint split1 (s : string) : option (string * string) :=
  match s with
  | EmptyString => None
  | String a r => if Ascii.eqb a dash then Some ("", r) else match split1 r with Some (p, q) => Some (String a p, q) | None => None end
  end.
Fixpoint has_dash (s : string) : bool := match s with EmptyString => false | String a r => Ascii.eqb a dash || has_dash r end.
Fixpoint after_last (s : string) : string :=
  match s with EmptyString => "" | String a r => if has_dash r then after_last r else if Ascii.eqb a dash then r else s end.
Fixpoint ends_with (e s : string) : bool := String.eqb s e || match s with EmptyString => false | String _ r => ends_with e r end.

(* a constraint array with its duals. a_cols: the duals over snapshots and one more dimension, NaN where masked (None for
   three dimensions and more, where to_pandas fails; arrays over the snapshots alone are not modelled). *)
Record carray := { a_name : string; a_snap : bool; a_cols : option frame; a_scalar : Q }.

Record net := {
  known : string -> bool;                    (* component classes *)
  attrs : string -> list (string * string);  (* attribute and type, data/component_attrs *)
  globals : string -> bool                   (* n.global_constraints.index *)
}.
(* components/types.py 95: columns of n.static(c) *)
Definition static (n : net) (c : string) : list string :=
  map fst (filter (fun at_ => negb (String.eqb (snd at_) "series")) (attrs n c)).

(* n.dynamic(c)[attr]; n.global_constraints.mu *)
Record state := { dyn : string -> string -> frame; gmu : string -> option Q }.
Definition set_dyn (st : state) (c a : string) (f : frame) : state :=
  {| dyn := fun c' a' => if String.eqb c c' && String.eqb a a' then f else dyn st c' a'; gmu := gmu st |}.
Definition set_gmu (st : state) (g : string) (q : Q) : state :=
  {| dyn := dyn st; gmu := fun g' => if String.eqb g g' then Some q else gmu st g' |}.
Definition mem (s : string) (l : list string) : bool := existsb (String.eqb s) l.

Section D.
Variable n : net.
Variable all : bool.   (* assign_all_duals *)
Variable sns : nat -> bool.

(* 407-437: one constraint array *)
Definition assign_one (st : state) (a : carray) : state :=
  match split1 (a_name a) with
  | None => st
  | Some (c, attr) =>
    if a_snap a then
      match a_cols a with
      | None => st
      | Some df =>
        let to (x : string) := if known n c then set_dyn st c x (set_frame sns (dyn st c x) df) else st in
        if ends_with "nodal_balance" attr then to "marginal_price"
        else if all || mem ("mu_" ++ after_last attr) (static n c) then to ("mu_" ++ after_last attr)%string
        else st
      end
    else if String.eqb c "GlobalConstraint" && (all || globals n attr) then set_gmu st attr (a_scalar a)
    else st
  end.

(* 401-405: nothing happens without duals *)
Definition assign_duals (has_duals : bool) (l : list carray) (st : state) : state :=
  if has_duals then fold_left assign_one l st else st.

(* 453-463; a division by zero leaves no finite number *)
Variable w : nat -> Q.
Definition divided (s : series) : series :=
  fun t => if sns t then match s t with Some q => if Qeq_bool (w t) 0 then None else Some (q / w t) | None => None end else s t.
Definition correct_prices (st : state) : state :=
  set_dyn st "Bus" "marginal_price" (fun b => option_map divided (dyn st "Bus" "marginal_price" b)).
End D.

(* 607-610: one optimisation over the snapshots sns; ok: status == "ok" *)
Record run := { r_ok : bool; r_all : bool; r_has : bool; r_sns : nat -> bool; r_arrays : list carray }.
Definition optimise (n : net) (w : nat -> Q) (r : run) (st : state) : state :=
  if r_ok r then correct_prices (r_sns r) w (assign_duals n (r_all r) (r_sns r) (r_has r) (r_arrays r) st) else st.

(* data/component_attrs: the attributes with mu_ in their name *)
Definition mu_attrs (c : string) : list (string * string) :=
  map (fun a => (a, "series"))
    (if String.eqb c "Generator" then ["mu_upper"; "mu_lower"; "mu_p_set"; "mu_ramp_limit_up"; "mu_ramp_limit_down"]
     else if String.eqb c "Line" || String.eqb c "Transformer" then ["mu_lower"; "mu_upper"]
     else if String.eqb c "Link" then ["mu_lower"; "mu_upper"; "mu_p_set"; "mu_ramp_limit_up"; "mu_ramp_limit_down"]
     else if String.eqb c "Store" then ["mu_upper"; "mu_lower"; "mu_energy_balance"]
     else if String.eqb c "StorageUnit" then ["mu_upper"; "mu_lower"; "mu_state_of_charge_set"; "mu_energy_balance"] else []).
