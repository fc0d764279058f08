From Coq Require Import List String Bool.
From Verif Require Import ControlModel ControlSpec.
Import ListNotations.
Open Scope string_scope.
Open Scope list_scope.

(* every listed sub-network is listed once, with one of its own generators *)
Definition with_slacks (subs : list (string * option string)) (n : cnet) : Prop :=
  NoDup (map fst subs) /\
  forall s o, In (s, o) subs -> exists g, gen_in s n g /\ o = Some (gname g).

(* h is the slack generator of a listed sub-network *)
Definition balances (subs : list (string * option string)) (h : gen) : Prop :=
  exists s, In (s, Some (gname h)) subs.
(* h is the first generator, in the order of names, that does not balance its sub-network *)
Definition follows (subs : list (string * option string)) (n : cnet) (h : gen) : Prop :=
  exists s g, In (s, Some g) subs /\ gen_in s n h /\ gname h <> g /\
    forall k, gen_in s n k -> gname k <> g -> String.leb (gname h) (gname k) = true.

Definition controls_after (subs : list (string * option string)) (n : cnet) (h h' : gen) : Prop :=
  gname h' = gname h /\ gbus h' = gbus h /\ gactive h' = gactive h /\
  (balances subs h -> gctrl h' = "Slack") /\ (follows subs n h -> gctrl h' = "PQ") /\
  (~ balances subs h -> ~ follows subs n h -> gctrl h' = "PV").

(* the sub-networks with the slack generators found when they were determined *)
Definition found (subs : list (string * option string)) (n : cnet) : Prop :=
  NoDup (map fst subs) /\
  forall s o, In (s, o) subs -> exists n' c, find_bus_controls s n = inl (n', c) /\ o = slack_generator (ctl_slack c).
Definition has_generator (n : cnet) (s : string) : Prop := exists g, gen_in s n g.
