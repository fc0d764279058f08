From Coq Require Import String.
From Verif Require Import LinflowModel.
From mathcomp Require Import all_ssreflect all_algebra.
Set Implicit Arguments. Unset Strict Implicit. Unset Printing Implicit Defensive.
Import Order.TTheory GRing.Theory Num.Theory.
Local Open Scope nat_scope.
Local Open Scope ring_scope.

(* Branch outages: optimize_security_constrained (optimization/abstract.py 355-454) and
   network_lpf_contingency (contingency.py 67-136). *)

(* a label of a pandas index is a name, or a tuple if the index is a MultiIndex *)
Inductive label := Name of string | Tuple of string & string.
Definition label_eqb (a b : label) : bool :=
  match a, b with
  | Name x, Name y => String.eqb x y
  | Tuple c x, Tuple d y => String.eqb c d && String.eqb x y
  | _, _ => false
  end.
(* an entry of n.passive_branches().index: component class and label *)
Definition bkey := (string * label)%type.
Definition bkey_eqb (a b : bkey) : bool := String.eqb a.1 b.1 && label_eqb a.2 b.2.
Definition isin (k : bkey) (ks : seq bkey) : bool := has (bkey_eqb k) ks.

(* the argument branch_outages: None; a list, an Index or a MultiIndex (all of them are caught by the isinstance test of
   line 396, a MultiIndex being an Index whose elements are tuples); any other collection of (class, name) pairs *)
Inductive outages_arg := NoOutages | Listed of seq label | Pairs of seq bkey.

(* abstract.py 392-402; None is the ValueError *)
Definition select (all_passive : seq bkey) (a : outages_arg) : option (seq bkey) :=
  match a with
  | NoOutages => Some all_passive
  | Listed xs =>
      let ks := [seq ("Line"%string, x) | x <- xs] in
      if all (isin^~ all_passive) ks then Some ks else None
  | Pairs ks => Some ks
  end.

(* one linear constraint at given values of the variables: lhs, sign (true is >=) and right-hand side *)
Record con (F : Type) := Con { clhs : F; cge : bool; crhs : F }.
Definition holds (F : realFieldType) (c : con F) : bool :=
  if cge c then crhs c <= clhs c else clhs c <= crhs c.

Section Security.
Variable F : realFieldType.
(* one sub-network and one snapshot; off lists its branches that are not active, which have no variables *)
Variables n m : nat.
Variables b0 b1 : 'I_m -> 'I_(1 + n).
Variable z : 'I_m -> F.
Variable key : 'I_m -> bkey.
Variable off : seq bkey.
Variable ext : 'I_m -> bool.                  (* s_nom_extendable *)
Variables pu nom : 'I_m -> F.                 (* s_max_pu in the snapshot, column s_nom *)
Variables f cap loss : 'I_m -> F.             (* variables s, s_nom and loss (0 without transmission_losses) *)

(* the templates: constraints.py 65-83 (kind fix) and 111-129 (kind ext); get_bounds_pu gives -s_max_pu and s_max_pu for
   passive branches *)
Definition template (lower : bool) (l : 'I_m) : con F :=
  let x := if lower then f l - loss l else f l + loss l in
  let bound := if lower then - pu l else pu l in
  if ext l then Con (x - bound * cap l) lower 0 else Con x lower (bound * nom l).

(* abstract.py 420: branches_i.intersection(branch_outages) *)
Definition outages (sel : seq bkey) : seq 'I_m := [seq k <- enum 'I_m | isin (key k) sel].
Definition no_outage (sel : seq bkey) : bool := nilp (outages sel) && ~~ has (isin^~ sel) off.

(* unique(0) of an index *)
Definition classes (ls : seq 'I_m) : seq string :=
  foldr (fun l cs => if has (String.eqb (key l).1) cs then cs else (key l).1 :: cs) [::] ls.
Definition of_class (c : string) (l : 'I_m) : bool := String.eqb (key l).1 c.

(* abstract.py 430-452; bodf is indexed by the labels of branches_i, rows are the affected branches *)
Definition security_constraints (sel : seq bkey) : seq (con F) :=
  flatten [seq
    flatten [seq
      [seq let con := template bk.1 l in
           Con (clhs con + BODF b0 b1 z l k * f k) (cge con) (crhs con)
       | l <- [seq l <- enum 'I_m | of_class cc.2 l && (ext l == bk.2)], k <- [seq k <- outages sel | of_class cc.1 k]]
    | bk <- [:: (true, false); (true, true); (false, false); (false, true)]]
  | cc <- [seq (co, ca) | co <- classes (outages sel), ca <- classes (enum 'I_m)]].

(* abstract.py 419-452: no constraint if no outage concerns the sub-network; calculate_BODF has rows for the active
   branches only (pf.py 1125-1130, graph.py 211-217), so labelling them by all branches raises when one is not active *)
Definition security (sel : seq bkey) : option (seq (con F)) :=
  if no_outage sel then Some [::] else if nilp off then Some (security_constraints sel) else None.
End Security.

(* contingency.py 67-136 *)
Section Contingency.
Variable F : fieldType.

(* a sub-network: its passive branches, all of them active *)
Record subnet := Subnet {
  sn : nat; sm : nat;
  sb0 : 'I_sm -> 'I_(1 + sn); sb1 : 'I_sm -> 'I_(1 + sn);
  sz : 'I_sm -> F;
  skey : 'I_sm -> bkey }.

(* get_loc of a label among the branches of a sub-network *)
Definition get_loc (s : subnet) (k : bkey) : option 'I_(sm s) := [pick i | bkey_eqb (skey i) k].

(* line 126: the sub-network the branch belongs to *)
Fixpoint home (nets : seq subnet) (k : bkey) : option { s : subnet & 'I_(sm s) } :=
  match nets with
  | [::] => None
  | s :: nets => match get_loc s k with Some i => Some (existT _ s i) | None => home nets k end
  end.

(* lines 122-124: a label that is not a tuple is taken for a line *)
Definition branch_of (x : label) : bkey :=
  match x with Name y => ("Line"%string, Name y) | Tuple c y => (c, Name y) end.

(* lines 128-131: p0_base + Series over the branches of the sub-network; labels missing there become NaN (None) *)
Definition p0_new (base : bkey -> F) (s : subnet) (i : 'I_(sm s)) (t : bkey) : option F :=
  match get_loc s t with
  | Some j => Some (base t + BODF (@sb0 s) (@sb1 s) (@sz s) j i * base (skey i))
  | None => None
  end.

(* lines 121-134: one column for every outage besides the column base; None is the KeyError of line 126 *)
Fixpoint columns (nets : seq subnet) (base : bkey -> F) (xs : seq label) : option (seq (bkey * (bkey -> option F))) :=
  match xs with
  | [::] => Some [::]
  | x :: xs =>
      match home nets (branch_of x), columns nets base xs with
      | Some (existT s i), Some cs => Some ((branch_of x, @p0_new base s i) :: cs)
      | _, _ => None
      end
  end.

(* lines 117-119: np.concatenate of an empty list raises for a sub-network without branches (pf.py 1125) *)
Definition contingency (nets : seq subnet) (base : bkey -> F) (xs : seq label)
    : option (seq (bkey * (bkey -> option F))) :=
  if has (fun s => sm s == 0%N) nets then None else columns nets base xs.

(* lines 92-115: which snapshot is used. A pandas Index is no collections.abc.Sequence, so it is passed on as it is; then
   p0.loc[snapshots] is a DataFrame and the result of pd.concat has no to_frame (AttributeError) *)
Inductive snaps_arg := NoSnaps | SeqSnaps of seq nat | IndexSnaps of seq nat | OneSnap of nat.
Definition snapshot_of (a : snaps_arg) : option nat :=
  match a with
  | NoSnaps | IndexSnaps _ => None
  | SeqSnaps [::] => None
  | SeqSnaps (t :: _) => Some t
  | OneSnap t => Some t
  end.
End Contingency.
