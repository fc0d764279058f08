From Coq Require Import List String Bool.
From Verif Require Import ControlModel.
Import ListNotations.
Open Scope string_scope.
Open Scope list_scope.

(* a generator belongs to sub-network s if its bus does *)
Definition bus_in (s : string) (n : cnet) (x : string) : Prop :=
  exists b, In b (buses n) /\ bname b = x /\ bsub b = s.
Definition gen_in (s : string) (n : cnet) (g : gen) : Prop := In g (gens n) /\ bus_in s n (gbus g).

(* g is the generator to balance s: the first declared Slack, or the very first if none is declared *)
Definition chosen (s : string) (n : cnet) (g : gen) : Prop :=
  gen_in s n g /\
  exists pre post, gens n = pre ++ g :: post /\
    ((gctrl g = "Slack" /\ forall h, In h pre -> gen_in s n h -> gctrl h <> "Slack") \/
     ((forall h, gen_in s n h -> gctrl h <> "Slack") /\ forall h, In h pre -> ~ gen_in s n h)).

(* what becomes of generator h once g is chosen *)
Definition gen_after (s : string) (n : cnet) (g h h' : gen) : Prop :=
  gname h' = gname h /\ gbus h' = gbus h /\ gactive h' = gactive h /\
  (h = g -> gctrl h' = "Slack") /\
  (h <> g -> gen_in s n h -> gctrl h = "Slack" -> gctrl h' = "PV") /\
  (h <> g -> (~ gen_in s n h \/ gctrl h <> "Slack") -> h' = h).

(* the control expected at bus x *)
Definition bus_after (s : string) (n' : cnet) (slack : string) (b b' : bus) : Prop :=
  bname b' = bname b /\ bsub b' = bsub b /\
  (bsub b <> s -> b' = b) /\
  (bsub b = s -> bname b = slack -> bctrl b' = "Slack") /\
  (bsub b = s -> bname b <> slack -> (exists g, In g (gens n') /\ gbus g = bname b /\ gctrl g = "PV") ->
     bctrl b' = "PV" /\ exists g, In g (gens n') /\ gbus g = bname b /\ gctrl g = "PV" /\ bgen b' = Some (gname g)) /\
  (bsub b = s -> bname b <> slack -> ~ (exists g, In g (gens n') /\ gbus g = bname b /\ gctrl g = "PV") ->
     bctrl b' = "PQ" /\ bgen b' = bgen b).
