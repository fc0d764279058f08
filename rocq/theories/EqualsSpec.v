From Coq Require Import List String Bool ZArith.
From Verif Require Import Assoc TablesModel EqualsModel.
Import ListNotations.
Open Scope string_scope.
Open Scope list_scope.

(* ---- independent description: what is found at the end of a path ---- *)
Inductive step := K (k : string) | I (i : nat).
Inductive leaf :=
| LBool (b : bool) | LInt (z : Z) | LFloat (z : Z) | LStr (s : string) | LNaN | LNone
| LArr (l : list val) | LFrame (idx : list string) (cols : dict (list val))
| LDict | LList (n : nat) | LTuple (n : nat) | LIgn (tag : string).

Definition head (v : pyv) : leaf :=
  match v with
  | PBool b => LBool b | PInt z => LInt z | PFloat z => LFloat z | PStr s => LStr s
  | PNaN => LNaN | PNone => LNone | PArr l => LArr l | PFrame i c => LFrame i c
  | PDict _ => LDict | PList l => LList (List.length l) | PTuple l => LTuple (List.length l)
  | PIgn t => LIgn t
  end.
Definition child (v : pyv) (s : step) : option pyv :=
  match v, s with
  | PDict d, K k => dget d k
  | PList l, I i | PTuple l, I i => nth_error l i
  | _, _ => None
  end.
Fixpoint at_path (v : pyv) (p : list step) : option pyv :=
  match p with
  | [] => Some v
  | s :: r => match child v s with Some w => at_path w r | None => None end
  end.
Definition obs (v : pyv) (p : list step) : option leaf := option_map head (at_path v p).

(* dictionaries have distinct keys *)
Inductive wf : pyv -> Prop :=
| wf_dict d : NoDup (dkeys d) -> (forall k v, In (k, v) d -> wf v) -> wf (PDict d)
| wf_list l : (forall v, In v l -> wf v) -> wf (PList l)
| wf_tuple l : (forall v, In v l -> wf v) -> wf (PTuple l)
| wf_other v : (match v with PDict _ | PList _ | PTuple _ => False | _ => True end) -> wf v.

(* the differences equals overlooks on purpose or by accident *)
Inductive close : leaf -> leaf -> Prop :=
| c_same h : close h h
| c_bool b : close (LBool b) (LInt (if b then 1 else 0)%Z)
| c_frames i c i' c' : empty_frame i c = true -> empty_frame i' c' = true ->
    close (LFrame i c) (LFrame i' c')
| c_lt n : close (LList n) (LTuple n)
| c_tl n : close (LTuple n) (LList n)
| c_dl : close LDict (LList 0) | c_dt : close LDict (LTuple 0)
| c_ld : close (LList 0) LDict | c_td : close (LTuple 0) LDict
| c_ign t h : close (LIgn t) h.

(* scalars of one kind; None for containers, arrays, frames, None and other objects *)
Inductive skind := SBool | SInt | SFloat | SStr.
Definition scalar (v : pyv) : option skind :=
  match v with
  | PBool _ => Some SBool | PInt _ => Some SInt | PFloat _ | PNaN => Some SFloat | PStr _ => Some SStr
  | _ => None
  end.
