From Coq Require Import List String Bool QArith Permutation.
From Verif Require Import LinModel WholeModel.
From Verif Require CapModel BalanceModel.
Import ListNotations.
Open Scope string_scope.
Open Scope list_scope.
Open Scope Q_scope.

(* the same network, its components, loads, buses, carriers, global constraints and columns of buses added in another order *)
Record reordered (n n' : net) : Prop := {
  ro_assets : Permutation (assets n) (assets n');
  ro_loads : Permutation (loads n) (loads n');
  ro_buses : Permutation (buses n) (buses n');
  ro_carriers : Permutation (carriers n) (carriers n');
  ro_limits : Permutation (limits n) (limits n');
  ro_columns : Permutation (columns n) (columns n');
  ro_emission : forall attr, Permutation (emission n attr) (emission n' attr) /\ NoDup (map fst (emission n attr));
  ro_rest : nsnaps n' = nsnaps n /\ w_obj n' = w_obj n /\ w_gen n' = w_gen n /\ w_sto n' = w_sto n /\ tangents n' = tangents n /\ linear n' = linear n
}.
(* Kirchhoff's voltage law admits the same flows whichever cycle basis is found (C18) *)
Definition kvl_unordered (kvl : list asset -> list con) : Prop :=
  forall l l' x, Permutation l l' -> sat x (CapModel.problem (kvl l)) -> sat x (CapModel.problem (kvl l')).
Definition same_value (a b : option Q) : Prop := match a, b with Some p, Some q => p == q | None, None => True | _, _ => False end.
