From Coq Require Import List String Ascii Bool QArith ZArith Arith.
From Verif Require Import LinModel CapModel.
From Verif Require BalanceSpec LimitSpec.
Import ListNotations.
Open Scope string_scope.
Open Scope list_scope.
Open Scope Q_scope.
Notation total := BalanceSpec.total.
Notation sense_holds := LimitSpec.sense_holds.

(* the capacity the solution gives to an asset *)
Definition attr_of (c : string) : option string :=
  if String.eqb c "Generator" then Some "p_nom" else if String.eqb c "Line" then Some "s_nom" else if String.eqb c "Transformer" then Some "s_nom"
  else if String.eqb c "Link" then Some "p_nom" else if String.eqb c "Store" then Some "e_nom" else if String.eqb c "StorageUnit" then Some "p_nom" else None.
Definition capacity (x : sol) (a : asset) : Q :=
  match attr_of (k_class a) with Some at_ => x ((k_class a ++ "-" ++ at_)%string, O, k_name a) | None => 0 end.
Definition has_capacity (a : asset) : Prop := attr_of (k_class a) <> None.
(* sum over the assets with a property *)
Definition sum_where (P : asset -> bool) (f : asset -> Q) (n : net) : Q := total (fun a => if P a then f a else 0) (assets n).

(* extendable assets of a carrier, active in the period *)
Definition of_tech (n : net) (k : string) (p : option Z) (a : asset) : bool :=
  k_ext a && String.eqb (k_carrier a) k && has_carrier n (k_class a) && match p with Some p => k_in a p | None => true end.
Definition at_bus (b : string) (a : asset) : bool := String.eqb (k_bus a) b.
Definition on_bus (a : asset) : bool := String.eqb (k_class a) "Generator" || String.eqb (k_class a) "Store" || String.eqb (k_class a) "StorageUnit".

(* column names of the buses *)
Fixpoint free_of (c : ascii) (s : string) : Prop := match s with EmptyString => True | String d r => d <> c /\ free_of c r end.
Definition prefix_of (s : sense) : option string := match s with Ge => Some "nom_min_" | Le => Some "nom_max_" | Eq => None end.
Definition denotes (carriers : list string) (ps : list Z) (ms : bool) (int_of : string -> option Z) (col : string) (s : sense) (k : string) (p : option Z) : Prop :=
  exists pre rest, prefix_of s = Some pre /\ col = (pre ++ rest)%string /\ In k carriers /\
    ((rest = k /\ p = None) \/
     (exists w z, rest = (k ++ "_" ++ w)%string /\ free_of "_" w /\ p = Some z /\ int_of w = Some z /\ In z ps /\ ms = true /\ ~ In rest carriers)).

(* built in the period of position i: active then and in no earlier one *)
Definition built_in (n : net) (i : nat) (a : asset) : bool :=
  match nth_error (sns_periods n) i with
  | Some p => k_in a p && forallb (fun q => negb (k_in a q)) (firstn i (sns_periods n))
  | None => false
  end.
Definition built (n : net) (x : sol) (k : string) (i : nat) : Q :=
  sum_where (fun a => k_ext a && String.eqb (k_carrier a) k && has_carrier n (k_class a) && built_in n i a) (capacity x) n.
Definition before (f : nat -> Q) (i : nat) : Q := match i with O => 0 | S j => f j end.
Definition rate (c : carrier) : Q := if Qle_bool (c_relative c) 0 then 0 else c_relative c.
Definition restricted (n : net) (cs : list carrier) (a : asset) : bool :=
  k_ext a && has_carrier n (k_class a) && existsb (fun c => String.eqb (c_name c) (k_carrier a) && match c_growth c with Some _ => true | None => false end) cs.
Definition grows_within (n : net) (cs : list carrier) (x : sol) : Prop :=
  forall i c q, (i < List.length (sns_periods n))%nat -> In c cs -> c_growth c = Some q ->
    built n x (c_name c) i <= q + rate c * before (built n x (c_name c)) i.
(* assets do not retire one period after they were built *)
Definition outlasts (n : net) (a : asset) : Prop :=
  forall i p, built_in n i a = true -> nth_error (sns_periods n) (S i) = Some p -> k_in a p = true.

(* lists of carriers: words separated by commas, possibly with spaces and brackets around *)
Fixpoint all_of (P : ascii -> Prop) (s : string) : Prop := match s with EmptyString => True | String c r => P c /\ all_of P r end.
Definition space (c : ascii) : Prop := In (nat_of_ascii c) [9; 10; 11; 12; 13; 28; 29; 30; 31; 32]%nat.
Definition bracket (c : ascii) : Prop := In c ["["; "]"; "("; ")"]%char.
Definition plain (w : string) : Prop :=
  all_of (fun c => ~ bracket c /\ c <> ","%char) w /\
  (forall c r, w = String c r -> ~ space c) /\ (forall c r, w = (r ++ String c "")%string -> ~ space c).
Definition writes_word (w u : string) : Prop :=
  exists s1 b1 b2 s2, u = (s1 ++ b1 ++ w ++ b2 ++ s2)%string /\ plain w /\ all_of space s1 /\ all_of bracket b1 /\ all_of bracket b2 /\ all_of space s2.
Inductive writes : list string -> string -> Prop :=
| writes_one w u : writes_word w u -> writes [w] u
| writes_more w u ws s : writes_word w u -> writes ws s -> writes (w :: ws) (u ++ "," ++ s).

(* the period of a limit, if any, is one of the network *)
Definition good_period (n : net) (p : option Z) : Prop := forall z, p = Some z -> In z (inv_periods n).
Definition listed (names : list string) (n : net) (p : option Z) (a : asset) : bool :=
  k_ext a && (String.eqb (k_class a) "Line" || String.eqb (k_class a) "Link") && existsb (String.eqb (k_carrier a)) names &&
  match p with Some p => k_in a p | None => if multi n then existsb (k_in a) (sns_periods n) else true end.
(* cost of capacity over the periods the asset is active in *)
Definition cost_of (n : net) (p : option Z) (a : asset) : Q :=
  k_capital a * match p with Some _ => 1 | None => if multi n then total (fun p => if k_in a p then weight_of n p else 0) (sns_periods n) else 1 end.

(* energy of a generator over snapshots *)
Definition energy (w : nat -> Q) (x : sol) (ts : list nat) (u : supplier) : Q :=
  total (fun t => if u_active u t then w t * x ("Generator-p", t, u_name u) else 0) ts.
Definition within_sums (w : nat -> Q) (x : sol) (ts : list nat) (u : supplier) : Prop :=
  (forall q, u_min u = Some q -> q <= energy w x ts u) /\ (forall q, u_max u = Some q -> energy w x ts u <= q).

(* expressions of several classes are merged by label: linopy aligns, or there is one class only *)
Definition by_label (override : bool) (P : asset -> bool) (n : net) : Prop :=
  override = false \/ exists c, forall a, In a (assets n) -> P a = true -> k_class a = c.
