From Coq Require Import List String Bool QArith ZArith Arith.
From Verif Require Import LinModel ObjectiveModel ObjectiveSpec OpexModel.
Import ListNotations.
Open Scope string_scope.
Open Scope list_scope.
Open Scope Q_scope.

(* active assets are so at all snapshots, there are no investment periods, and all assets belong to known classes *)
Definition single (n : net) : Prop := multi n = None /\ known n /\ forall a t, In a (assets n) -> a_on a t = a_flag a.
(* all weightings agree with that of the objective *)
Definition alike (n : net) (ws : weightings) : Prop := forall t, w_generators ws t == w_snap n t /\ w_stores ws t == w_snap n t /\ w_objective ws t == w_snap n t.
Definition no_links (n : net) : Prop := forall a, In a (assets n) -> a_class a <> "Link".
Definition own_weight (ws : weightings) (a : asset) (t : nat) : Q :=
  if is a ["Generator"] then w_generators ws t else if is a ["Store"; "StorageUnit"] then w_stores ws t else w_objective ws t.
