From Coq Require Import List String Bool ZArith.
From Verif Require Import Assoc TablesModel TablesSpec TablesProofs EqualsModel EqualsSpec EqualsProofs.
Import ListNotations.
Open Scope string_scope.
Open Scope list_scope.

(* C11: no false alarm: values with the same contents at every path are reported equal *)
Theorem C11_complete :
  forall a b : pyv, wf a -> wf b -> (forall p, obs a p = obs b p) -> equals a b = Some true.
Proof. exact equals_complete. Qed.
Print Assumptions C11_complete.

(* True means: whatever is found in the first value along any path is found in the second, up to the
   listed confusions (close), and the second has nothing more, except below ignored objects *)
Theorem C11_sound :
  forall (a b : pyv) (p : list step),
    wf a -> equals a b = Some true ->
    (forall h, obs a p = Some h -> exists h', obs b p = Some h' /\ close h h') /\
    (forall h', obs b p = Some h' ->
       (exists h, obs a p = Some h) \/ exists q r t, p = q ++ r /\ at_path a q = Some (PIgn t)).
Proof. exact equals_sound. Qed.
Print Assumptions C11_sound.

(* values of different scalar kinds, or a scalar and anything else, are reported unequal and do not
   raise (the exception is True against 1, see below) *)
Theorem C11_kinds_differ :
  forall a b : pyv, scalar a <> scalar b -> ~ (scalar a = Some SBool /\ scalar b = Some SInt) ->
    equals a b = Some false.
Proof. exact equals_kinds. Qed.
Print Assumptions C11_kinds_differ.

(* networks: attribute dictionaries *)
Theorem C11_network_reflexive :
  forall a : list (string * pyv),
    NoDup (dkeys a) -> (forall k v, In (k, v) a -> wf v) -> net_equals a a = Some true.
Proof. exact net_equals_refl. Qed.
Print Assumptions C11_network_reflexive.

Theorem C11_network_sound :
  forall (a b : list (string * pyv)) (k : string) (v : pyv) (p : list step) (h : leaf),
    net_equals a b = Some true -> (forall k v, In (k, v) a -> wf v) ->
    In (k, v) a -> obs v p = Some h ->
    exists w h', dget b k = Some w /\ obs w p = Some h' /\ close h h'.
Proof. exact net_equals_sound. Qed.
Print Assumptions C11_network_sound.

(* a network that differs in some attribute is not reported equal, whichever attribute it is *)
Theorem C11_network_exact :
  forall a b : list (string * pyv),
    net_equals a b = Some true <->
    forall k v, In (k, v) a -> exists w, dget b k = Some w /\ equals v w = Some true.
Proof. exact net_equals_true. Qed.
Print Assumptions C11_network_exact.

Definition eq_net (x : Z) : list (string * pyv) :=
  [("name", PStr "n"); ("srid", PInt 4326);
   ("components", PDict [("buses", PDict [("static", PFrame ["a"; "b"] [("v_nom", [VNum x; VNaN])]);
                                          ("dynamic", PDict [("p", PFrame ["t"] [("a", [VNum 3])])])])]);
   ("meta", PDict [("tags", PList [PInt 1; PTuple [PNone; PNaN]])]); ("plot", PIgn "PlotAccessor")].

Example C11_example :
  net_equals (eq_net 380) (eq_net 380) = Some true /\ net_equals (eq_net 380) (eq_net 220) = Some false /\
  obs (PDict (eq_net 1)) [K "meta"; K "tags"; I 1; I 0] = Some LNone /\
  wf (PDict (eq_net 380)).
Proof.
  repeat split.
  constructor; [apply nodupb_spec; reflexivity|].
  intros k v Hin. simpl in Hin.
  repeat (destruct Hin as [Hin|Hin]; [injection Hin as <- <-|]); try (now apply wf_other); try destruct Hin.
  - constructor; [apply nodupb_spec; reflexivity|]. intros k v [Hin|[]]. injection Hin as <- <-.
    constructor; [apply nodupb_spec; reflexivity|]. intros k v [Hin|[Hin|[]]]; injection Hin as <- <-.
    + now apply wf_other.
    + constructor; [apply nodupb_spec; reflexivity|]. intros k v [Hin|[]]. injection Hin as <- <-.
      now apply wf_other.
  - constructor; [apply nodupb_spec; reflexivity|]. intros k v [Hin|[]]. injection Hin as <- <-.
    constructor. intros v [<-|[<-|[]]]; [now apply wf_other|]. constructor.
    intros v [<-|[<-|[]]]; now apply wf_other.
Qed.

(* DEFECT (networks.py:430): attributes only the other network has are ignored; the other way round the
   comparison raises KeyError instead of returning False *)
Theorem C11_symmetric_refuted :
  exists a b, net_equals a b = Some true /\ net_equals b a = None.
Proof. exists (eq_net 1), (("extra", PInt 1) :: eq_net 1). split; reflexivity. Qed.
Print Assumptions C11_symmetric_refuted.

(* DEFECT (common.py:224): True equals 1, but 1 does not equal True *)
Theorem C11_bool_int_refuted :
  exists a b, equals a b = Some true /\ equals b a = Some false.
Proof. exists (PBool true), (PInt 1). split; reflexivity. Qed.
Print Assumptions C11_bool_int_refuted.

(* DEFECT: True although the contents differ: an empty frame with names against one without, a list
   against a tuple, an empty dictionary against an empty list *)
Theorem C11_contents_refuted :
  (exists a b, wf a /\ wf b /\ equals a b = Some true /\ obs a [] = Some (LFrame ["g1"; "g2"] []) /\
     obs b [] = Some (LFrame [] [("p_nom", [])])) /\
  (exists a b, wf a /\ wf b /\ equals a b = Some true /\ obs a [] = Some LDict /\ obs b [] = Some (LList 0)).
Proof.
  split.
  - exists (PFrame ["g1"; "g2"] []), (PFrame [] [("p_nom", [])]).
    repeat split; try reflexivity; now apply wf_other.
  - exists (PDict []), (PList []). repeat split; try reflexivity.
    + constructor; [constructor|intros k v []].
    + constructor. intros v [].
Qed.
Print Assumptions C11_contents_refuted.
