From Coq Require Import List String Bool QArith Arith.
From Verif Require Import ClusterModel.
From Verif Require BalanceSpec.
Import ListNotations.
Open Scope string_scope.
Open Scope list_scope.
Open Scope Q_scope.
Notation total := BalanceSpec.total.

Definition is_in (o : option string) (c : string) : bool := match o with Some b => String.eqb b c | None => false end.
Section S.
Variable busmap : string -> option string.
(* totals of a column over the components of cluster c with carrier k *)
Definition total_in (f : oneport -> Q) (c k : string) (l : list oneport) : Q :=
  total (fun r => if is_in (busmap (o_bus r)) c && String.eqb (o_carrier r) k then f r else 0) l.
Definition total_out (f : out -> Q) (c k : string) (l : list out) : Q :=
  total (fun u => if is_in (u_bus u) c && String.eqb (u_carrier u) k then f u else 0) l.
Definition cell (u : out) (attr : string) : Q := match u_num u attr with Some q => q | None => 0 end.

(* r is one of the components aggregated into u *)
Definition belongs (l : list oneport) (u : out) (r : oneport) : Prop := In r l /\ busmap (o_bus r) = u_bus u /\ o_carrier r = u_carrier u.

(* lines between clusters a and b, in either direction *)
Definition joins (a b x y : string) : bool := (String.eqb a x && String.eqb b y) || (String.eqb a y && String.eqb b x).
Definition joins_in (l : line) (x y : string) : bool :=
  match busmap (l_bus0 l), busmap (l_bus1 l) with Some a, Some b => joins a b x y | _, _ => false end.
Definition lines_in (f : line -> Q) (x y : string) (ls : list line) : Q := total (fun l => if joins_in l x y then f l else 0) ls.
Definition lines_out (f : lout -> Q) (x y : string) (ls : list lout) : Q := total (fun l => if joins (v_bus0 l) (v_bus1 l) x y then f l else 0) ls.
End S.
