(* Investment periods:
     /repo/pypsa/components/descriptors.py get_active_assets 22-61
     /repo/pypsa/descriptors.py            get_activity_mask 293-343
     /repo/pypsa/networks.py               periods 879-901, set_investment_periods 1025-1094
   Years are integers, lifetimes rationals or infinite (the default). *)
From Coq Require Import List String Bool ZArith QArith.
From Verif Require Import Assoc TablesModel.
Import ListNotations.
Open Scope string_scope.
Open Scope list_scope.

Record asset := { aname : string; aactive : bool; build_year : Z; lifetime : option Q }.

(* build_year <= @period < build_year + lifetime, descriptors.py:60 *)
Definition in_life (a : asset) (period : Z) : bool :=
  (build_year a <=? period)%Z &&
  match lifetime a with
  | None => true
  | Some l => negb (Qle_bool (inject_Z (build_year a) + l) (inject_Z period))
  end.

(* descriptors.py:49-61. has_life: the table has the columns build_year and lifetime.
   req = None: no period given; Some ps: np.atleast_1d of the argument. *)
Definition get_active_assets (known : list Z) (has_life : bool) (req : option (list Z))
  (assets : list asset) : list (string * bool) + nerr :=
  match req with
  | None => inl (map (fun a => (aname a, aactive a)) assets)
  | Some ps =>
      if negb has_life then inl (map (fun a => (aname a, aactive a)) assets)
      else if forallb (fun p => existsb (Z.eqb p) known) ps
      then inl (map (fun a => (aname a, existsb (in_life a) ps && aactive a)) assets)
      else inr ValueErr
  end.

(* snapshots of a network with investment periods: (period, timestep) *)
Definition msnap := (Z * string)%type.
Definition msnap_eqb (a b : msnap) : bool := Z.eqb (fst a) (fst b) && String.eqb (snd a) (snd b).

(* snapshots.get_level_values("period").unique() *)
Fixpoint uniq (l : list Z) : list Z :=
  match l with
  | [] => []
  | x :: r => x :: filter (fun y => negb (Z.eqb x y)) (uniq r)
  end.
Definition periods_of (sns : list msnap) : list Z := uniq (map fst sns).

(* descriptors.py:321-338, multi-period: one row of the mask per requested snapshot *)
Definition activity_row (sns : list msnap) (has_life : bool) (assets : list asset) (s : msnap)
  : list (string * bool) + nerr :=
  if existsb (msnap_eqb s) sns
  then get_active_assets (periods_of sns) has_life (Some [fst s]) assets
  else inr KeyErr.                                      (* .loc[sns_] *)

(* single-period: np.tile of the active flags *)
Definition activity_row_single (assets : list asset) : list (string * bool) + nerr :=
  get_active_assets [] true None assets.

(* ---- set_investment_periods ---- *)
Record mtable := { mindex : list msnap; mcols : dict (list val) }.

Fixpoint assoc_snap (d : list (msnap * val)) (k : msnap) : option val :=
  match d with
  | [] => None
  | (k', v) :: r => if msnap_eqb k' k then Some v else assoc_snap r k
  end.
Definition mget (t : mtable) (name : string) (k : msnap) : option val :=
  match dget (mcols t) name with
  | None => None
  | Some col => assoc_snap (combine (mindex t) col) k
  end.

(* pd.concat({p: df for p in periods}) *)
Definition repeat_table (ps : list Z) (t : table) : mtable :=
  {| mindex := flat_map (fun p => map (fun s => (p, s)) (tindex t)) ps;
     mcols := map (fun e => (fst e, flat_map (fun _ => snd e) ps)) (tcols t) |}.

(* frames of all components under one key space (component, attribute) *)
Inductive pnet :=
| Single (snaps : list string) (weights : table) (frames : dict table)
| Multi (snaps : list msnap) (weights : mtable) (frames : dict mtable)
        (pweights : list (Z * val)).

Fixpoint increasing (l : list Z) : bool :=
  match l with
  | x :: ((y :: _) as r) => (x <? y)%Z && increasing r
  | _ => true
  end.

Fixpoint assocz (d : list (Z * val)) (k : Z) : option val :=
  match d with
  | [] => None
  | (k', v) :: r => if Z.eqb k' k then Some v else assocz r k
  end.
(* investment_period_weightings.reindex(self.periods, fill_value=1.0) *)
Definition reindex_pw (ps : list Z) (pw : list (Z * val)) : list (Z * val) :=
  map (fun p => (p, match assocz pw p with Some v => v | None => VNum 1 end)) ps.

Definition set_periods (n : pnet) (ps : list Z) : pnet * option nerr :=
  match ps with
  | [] => (n, None)
  | _ =>
      if negb (increasing ps) then (n, Some ValueErr)
      else match n with
      | Multi sns w fr pw =>
          if negb (forallb (fun p => existsb (Z.eqb p) (periods_of sns)) ps) then (n, Some ValueErr)
          else if Nat.ltb (List.length ps) (List.length (periods_of sns)) then (n, Some NotImpl)
          else (Multi sns w fr (reindex_pw (periods_of sns) pw), None)
      | Single sns w fr =>
          let sns' := flat_map (fun p => map (fun s => (p, s)) sns) ps in
          (Multi sns' (repeat_table ps w) (map (fun e => (fst e, repeat_table ps (snd e))) fr)
                 (reindex_pw (periods_of sns') []), None)
      end
  end.
