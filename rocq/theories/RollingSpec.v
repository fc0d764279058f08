From Coq Require Import List String Bool QArith ZArith Arith.
From Verif Require Import LinModel StorageModel StorageSpec RollingModel.
Import ListNotations.
Open Scope string_scope.
Open Scope list_scope.

Definition covers (ws : list (nat * nat)) (t : nat) : Prop := exists w, In w ws /\ (fst w <= t < snd w)%nat.
Definition starts (ws : list (nat * nat)) : list nat := map fst ws.

(* every window is solved, and its solution meets the balance of the store (of the storage unit) *)
Definition solves_store (a : storage) (hours : nat -> Q) (optimize : nat -> nat * nat -> net -> option sol) (ws : list (nat * nat)) : Prop :=
  forall i w n, In w ws -> exists x, optimize i w n = Some x /\
    sat x (store_balance (snd w - fst w) None (in_window a (fst w) (e_initial n (s_name a))) (fun t => hours (fst w + t)%nat)).
Definition solves_unit (a : storage) (d : unit_data) (optimize : nat -> nat * nat -> net -> option sol) (ws : list (nat * nat)) : Prop :=
  forall i w n, In w ws -> exists x, optimize i w n = Some x /\
    sat x (unit_balance (snd w - fst w) None (in_window a (fst w) (soc_initial n (s_name a))) (unit_in_window d (fst w))).

Open Scope Q_scope.
(* the level over the whole horizon: no standing loss at the first snapshot of a window *)
Definition assembled (len : nat) (st : list nat) (a : storage) (init : Q) (lvl gain : nat -> Q) : Prop :=
  forall t, (t < len)%nat ->
    lvl t == match t with O => init | S k => (if existsb (Nat.eqb t) st then 1 else s_stand a t) * lvl k end + gain t.
