From Coq Require Import List String Bool QArith.
From Verif Require Import LinModel.
Import ListNotations.
Open Scope string_scope.
Open Scope list_scope.
Open Scope Q_scope.

(* Dispatch bounds: pypsa/optimization/constraints.py 39-216, 363-390, 725-812, variables.py 22-150.
   One component class c. A row carries the attributes read; time-varying ones as functions of the snapshot position.
   Infinite bounds other than nom_max are not modelled. *)
Record asset := {
  name : string;
  nom : Q; nom_min : Q; nom_max : option Q;   (* None: infinite *)
  nom_set : option Q;                         (* None: NaN *)
  nom_mod : Q;
  ext : bool; com : bool;
  active : nat -> bool;                       (* get_activity_mask *)
  min_pu : nat -> Q; max_pu : nat -> Q;       (* columns <p|s|e>_min_pu, <p|s|e>_max_pu, dense *)
  max_hours : Q;
  fix_set : nat -> option Q                   (* <attr>_set series, None: NaN or no series *)
}.

Inductive kind := Passive | Storage_dispatch | Storage_store | Storage_soc | Other.

(* descriptors.get_bounds_pu 346-400 *)
Definition bounds_pu (k : kind) (a : asset) (t : nat) : Q * Q :=
  match k with
  | Passive => (- max_pu a t, max_pu a t)
  | Storage_dispatch => (0, max_pu a t)
  | Storage_store => (0, - min_pu a t)
  | Storage_soc => (0, max_hours a)
  | Other => (min_pu a t, max_pu a t)
  end.

Definition mk l s r : con := {| lhs := l; sns := s; rhs := r |}.

Section Class.
Variable cls : string.     (* e.g. Generator *)
Variable attr : string.    (* e.g. p *)
Variable nattr : string.   (* nominal attribute, e.g. p_nom *)
Variable k : kind.
Variable losses : bool.    (* transmission_losses, only relevant for passive branches *)
Variable T : nat.
Variable assets : list asset.

Definition vname (v : string) : string := cls ++ "-" ++ v.
(* variables.py 22-40, 43-86, 89-103, 106-128, 146-157: masked by activity *)
Definition op (v : string) (a : asset) (t : nat) : label :=
  if active a t then Some (vname v, t, name a) else None.
Definition cap (a : asset) : label := Some (vname nattr, O, name a).
Definition n_mod (a : asset) : label := Some (vname "n_mod", O, name a).

Definition snaps : list nat := seq 0 T.
Definition is_passive : bool := match k with Passive => true | _ => false end.

(* constraints.py 39-83 *)
Definition fixed_assets : list asset := filter (fun a => negb (ext a) && negb (com a)) assets.
Definition loss_term (sign : Q) (a : asset) (t : nat) : lin :=
  if is_passive && losses then [(sign, op "loss" a t)] else [].
Definition non_extendables : list con :=
  add_constraints snaps fixed_assets (fun t a => active a t)
    (fun t a => mk ((1, op attr a t) :: loss_term (-(1)) a t) Ge (fst (bounds_pu k a t) * nom a)) ++
  add_constraints snaps fixed_assets (fun t a => active a t)
    (fun t a => mk ((1, op attr a t) :: loss_term 1 a t) Le (snd (bounds_pu k a t) * nom a)).

(* constraints.py 86-129 *)
Definition ext_assets : list asset := filter ext assets.
Definition extendables : list con :=
  add_constraints snaps ext_assets (fun t a => active a t)
    (fun t a => mk ((1, op attr a t) :: (- fst (bounds_pu k a t), cap a) :: loss_term (-(1)) a t) Ge 0) ++
  add_constraints snaps ext_assets (fun t a => active a t)
    (fun t a => mk ((1, op attr a t) :: (- snd (bounds_pu k a t), cap a) :: loss_term 1 a t) Le 0).

(* constraints.py 190-197 (the rest of the function is CommitModel) *)
Definition com_assets : list asset := filter com assets.
Definition committables : list con :=
  add_constraints snaps com_assets (fun t a => active a t)
    (fun t a => mk [(1, op "p" a t); (- (fst (bounds_pu Other a t) * nom a), op "status" a t)] Ge 0) ++
  add_constraints snaps com_assets (fun t a => active a t)
    (fun t a => mk [(1, op "p" a t); (- (snd (bounds_pu Other a t) * nom a), op "status" a t)] Le 0).

(* constraints.py 363-390 *)
Definition nominal : list con :=
  add_constraints [O] ext_assets (fun _ _ => true) (fun _ a => mk [(1, cap a)] Ge (nom_min a)) ++
  add_constraints [O] ext_assets (fun _ a => match nom_max a with None => false | _ => true end)
    (fun _ a => mk [(1, cap a)] Le (match nom_max a with Some u => u | None => 0 end)).

(* constraints.py 727-752; a value for a non-extendable asset fails there, such rows are left out here *)
Definition fixed_nominal : list con :=
  add_constraints [O] ext_assets (fun _ a => match nom_set a with None => false | _ => true end)
    (fun _ a => mk [(1, cap a)] Eq (match nom_set a with Some u => u | None => 0 end)).

(* constraints.py 755-780 *)
Definition mod_assets : list asset := filter (fun a => ext a && negb (Qle_bool (nom_mod a) 0)) assets.
Definition modular : list con :=
  add_constraints [O] mod_assets (fun _ _ => true)
    (fun _ a => mk [(1, cap a); (- nom_mod a, n_mod a)] Eq 0).

(* constraints.py 783-812 *)
Definition fixed_operation : list con :=
  add_constraints snaps assets (fun t a => match fix_set a t with None => false | _ => active a t end)
    (fun t a => mk [(1, op attr a t)] Eq (match fix_set a t with Some u => u | None => 0 end)).

(* variable domains: losses >= 0 (variables.py 157), n_mod a non-negative integer (variables.py 127),
   status binary (variables.py 50-54, not linearised) *)
Definition domains (x : sol) : Prop :=
  (forall a t, In a assets -> (t < T)%nat -> active a t = true -> 0 <= x (vname "loss", t, name a)) /\
  (forall a, In a mod_assets -> exists z : nat, x (vname "n_mod", O, name a) == inject_Z (Z.of_nat z)) /\
  (forall a t, In a com_assets -> (t < T)%nat -> active a t = true ->
     x (vname "status", t, name a) == 0 \/ x (vname "status", t, name a) == 1).

Definition all_constraints : list con :=
  nominal ++ fixed_nominal ++ modular ++ non_extendables ++ extendables ++ committables ++ fixed_operation.

(* assign_solution 336-387: a masked variable has no value and set_from_frame fills in 0 *)
Definition reported (x : sol) (v : string) (a : asset) (t : nat) : Q := val x (op v a t).
(* optimize.py 370-371, 375-379: optimal capacity, the given one for non-extendable assets *)
Definition nom_opt (x : sol) (a : asset) : Q := if ext a then val x (cap a) else nom a.
End Class.
