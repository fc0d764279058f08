From Coq Require Import List String Bool ZArith Arith.
From Verif Require Import Assoc TablesModel FileModel SharedModel.
Import ListNotations.
Open Scope string_scope.
Open Scope list_scope.

(* the calls made on network number j, once it exists (k networks exist at the start) *)
Fixpoint mine (j k : nat) (l : list pop) : list nop :=
  match l with
  | [] => []
  | New :: r => mine j (S k) r
  | Do i o :: r => if Nat.eqb i j && Nat.ltb j k then o :: mine j k r else mine j k r
  end.
Definition made (l : list pop) : nat := List.length (filter (fun o => match o with New => true | _ => false end) l).

(* the same calls in a process of their own *)
Definition alone (j : nat) (l : list pop) : list pop := New :: map (Do 0) (mine j 0 l).

(* no call brings ports that the table of the process does not have *)
Definition known_ports (m : meta) (kw : list (string * kwval)) : Prop :=
  forall a v i, In (a, v) kw -> (a = "bus" ++ i)%string -> a <> "bus0" -> a <> "bus1" ->
    dmem m ("bus" ++ i) = true /\ dmem m ("efficiency" ++ i) = true /\ dmem m ("p" ++ i) = true.
Definition no_new_ports (attrs : dict meta) (l : list pop) : Prop :=
  forall i single names sfx ow kw m, In (Do i (Add "Link" single names sfx ow kw)) l ->
    dget attrs "Link" = Some m -> known_ports m kw.

(* equal up to attributes of links that the package does not know when it is imported *)
Definition links_agree (m : meta) (c c' : comp) : Prop :=
  names_of c = names_of c' /\
  (forall name a, dmem m a = true -> sget c name a = sget c' name a) /\
  (forall a, dmem m a = true -> dget (dyn c) a = dget (dyn c') a).
Definition agree (attrs : dict meta) (n n' : net) : Prop :=
  snaps n = snaps n' /\ weights n = weights n' /\ dkeys (comps n) = dkeys (comps n') /\
  (forall cls, cls <> "Link" -> dget (comps n) cls = dget (comps n') cls) /\
  (forall m c c', dget attrs "Link" = Some m -> dget (comps n) "Link" = Some c ->
     dget (comps n') "Link" = Some c' -> links_agree m c c').
