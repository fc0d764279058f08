(* Network equality: /repo/pypsa/common.py equals 180-305, /repo/pypsa/networks.py Network.equals 394-459.
   Python values are trees; numbers inside arrays and frames are the codes of TablesModel.val (NaN equals
   NaN there, as in array_equal(equal_nan=True) and DataFrame.equals). None stands for an exception or
   for a comparison across kinds that is not modelled. Dtype differences between frames with equal
   values do not matter to equals (common.py:243-245) and are not represented. A Components object is
   compared by its ctype, static and dynamic (components/abstract.py 210-275) and a ComponentsStore by
   its keys and then entry by entry (common.py:252-260): both are PDict here. *)
From Coq Require Import List String Bool ZArith.
From Verif Require Import Assoc TablesModel TransferModel.
Import ListNotations.
Open Scope string_scope.
Open Scope list_scope.

Inductive pyv :=
| PBool (b : bool) | PInt (z : Z) | PFloat (z : Z) | PStr (s : string) | PNaN | PNone
| PArr (l : list val)                                     (* np.ndarray *)
| PFrame (idx : list string) (cols : dict (list val))     (* DataFrame, Series, Index *)
| PDict (d : list (string * pyv))
| PList (l : list pyv) | PTuple (l : list pyv)
| PIgn (tag : string).                                    (* instance of an ignored class *)

(* the numpy scalar class np.dtype(type(x)).type: everything that is no scalar is object_ *)
Inductive npclass := NBool | NInt | NFloat | NStr | NObj.
Definition npclass_eqb (a b : npclass) : bool :=
  match a, b with
  | NBool, NBool | NInt, NInt | NFloat, NFloat | NStr, NStr | NObj, NObj => true
  | _, _ => false
  end.
Definition np_of (v : pyv) : npclass :=
  match v with
  | PBool _ => NBool | PInt _ => NInt | PFloat _ | PNaN => NFloat | PStr _ => NStr | _ => NObj
  end.

(* common.py:224-230: isinstance(a, type(b)) or issubdtype in one direction *)
Definition types_ok (a b : pyv) : bool :=
  npclass_eqb (np_of a) (np_of b) ||
  match a, b with PBool _, PInt _ => true | _, _ => false end.      (* bool is a subclass of int *)

Definition empty_frame (idx : list string) (cols : dict (list val)) : bool :=
  match idx, cols with [], _ | _, [] => true | _, _ => false end.

Fixpoint equals (a b : pyv) {struct a} : option bool :=
  if negb (types_ok a b) then Some false
  else match a with
  | PIgn _ => Some true
  | PArr l => match b with PArr l' => Some (vals_eqb l l') | PNone => Some false | _ => None end
  | PFrame i c =>
      match b with
      | PFrame i' c' => Some ((empty_frame i c && empty_frame i' c')
                              || (list_eqb i i' && tcols_eqb c c'))
      | _ => None
      end
  | PDict d =>
      match b with
      | PDict d' =>
          match (fix go (l : list (string * pyv)) : option bool :=
                   match l with
                   | [] => Some true
                   | (k, v) :: r =>
                       match dget d' k with
                       | None => Some false
                       | Some w => match equals v w with Some true => go r | o => o end
                       end
                   end) d with
          | Some true => Some (forallb (fun k => dmem d k) (dkeys d'))
          | o => o
          end
      | PList l | PTuple l => match d, l with [], [] => Some true | [], _ => Some false | _, _ => None end
      | _ => None
      end
  | PList l | PTuple l =>
      match b with
      | PList l' | PTuple l' =>
          if negb (Nat.eqb (List.length l) (List.length l')) then Some false
          else (fix go (l l' : list pyv) : option bool :=
                  match l, l' with
                  | x :: r, y :: r' => match equals x y with Some true => go r r' | o => o end
                  | _, _ => Some true
                  end) l l'
      | PDict d => if negb (Nat.eqb (List.length l) (List.length d)) then Some false
                   else match l with [] => Some true | _ => None end
      | _ => None
      end
  | PNaN => match b with PNaN => Some true | _ => Some false end
  | PNone => match b with PNone => Some true | PDict _ | PIgn _ => Some false | _ => None end
  | PBool x => match b with
               | PBool y => Some (Bool.eqb x y)
               | PInt z => Some (Z.eqb (if x then 1 else 0) z)
               | _ => Some false
               end
  | PInt x => match b with PInt y => Some (Z.eqb x y) | _ => Some false end
  | PFloat x => match b with PFloat y => Some (Z.eqb x y) | _ => Some false end
  | PStr x => match b with PStr y => Some (String.eqb x y) | _ => Some false end
  end.

(* networks.py:430-457: every attribute of self is looked up in other (KeyError when missing); all of
   them are compared, a difference does not stop the loop *)
Fixpoint net_equals (a b : list (string * pyv)) : option bool :=
  match a with
  | [] => Some true
  | (k, v) :: r =>
      match dget b k with
      | None => None
      | Some w => match equals v w, net_equals r b with
                  | Some x, Some y => Some (x && y)
                  | _, _ => None
                  end
      end
  end.
