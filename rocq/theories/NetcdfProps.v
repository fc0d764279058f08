(* C88: a network written to a netCDF file, and read back. *)
From Coq Require Import List String Bool ZArith Ascii Permutation Lia.
From Verif Require Import Assoc TablesModel TablesSpec TablesProofs TransferModel TransferProofs
  FileModel FileSpec FileProofs FileRead FileRound TransferProps FileProps
  NetcdfModel NetcdfSpec NetcdfProofs.
Import ListNotations.
Open Scope string_scope.
Open Scope list_scope.

(* a netCDF file is read like a folder of CSV files written by the same network, whatever the orders in
   which the classes were visited *)
Theorem C88_as_csv :
  forall (reg : dict class), registry reg -> prefix_free reg ->
  forall (d : doc) (order order' : list string),
    any_order reg order -> any_order reg order' ->
    Inv (metas_of reg) (d_net d) -> storable (d_net d) ->
    exists st, export reg CSV d order' [] = (st, None) /\
      read_alike (nc_import reg (nc_export reg d order)) (import reg CSV st).
Proof. exact as_csv. Qed.
Print Assumptions C88_as_csv.

(* and what is read is the network that was written (with the two exceptions of C13) *)
Theorem C88_round_trip :
  forall (reg : dict class), registry reg -> prefix_free reg ->
  forall (d : doc) (order : list string),
    any_order reg order -> Inv (metas_of reg) (d_net d) -> storable (d_net d) ->
    (exists c, dget (comps (d_net d)) "Bus" = Some c /\ static c <> []) ->
    exists d', nc_import reg (nc_export reg d order) = inl d' /\
      d_network d' = d_network d /\ d_crs d' = d_crs d /\ d_meta d' = d_meta d /\
      d_periods d' = d_periods d /\
      snaps (d_net d') = snaps (d_net d) /\
      (forall col s, In col ["objective"; "generators"; "stores"] ->
         In col (dkeys (tcols (weights (d_net d)))) ->
         tget (weights (d_net d')) col s = tget (weights (d_net d)) col s) /\
      (forall cls k c, In (cls, k) reg -> dget (comps (d_net d)) cls = Some c -> filled (k_meta k) c ->
         exists c', dget (comps (d_net d')) cls = Some c' /\ names_of c' = names_of c /\
           forall name attr s, In name (names_of c) -> In s (snaps (d_net d)) -> ~ In attr derived ->
             ~ hidden_default (k_meta k) c name attr ->
             eff (k_meta k) c' name attr s = eff (k_meta k) c name attr s).
Proof. exact nc_round_trip. Qed.
Print Assumptions C88_round_trip.

(* ---- the hypotheses hold of a concrete network ---- *)
Lemma f_reg_prefix_free : prefix_free f_reg.
Proof.
  intros cls k cls' k' r I1 I2 N E.
  destruct I1 as [I1|[I1|[I1|[]]]], I2 as [I2|[I2|[I2|[]]]];
    injection I1 as <- <-; injection I2 as <- <-; try congruence; cbn in E; discriminate.
Qed.

Definition storableb (n : net) : bool :=
  forallb (fun e => forallb (fun g => forallb (fun a =>
    negb (String.eqb a "i") && match drop_prefix "t_" a with Some _ => false | None => true end)
    (dkeys (snd g))) (static (snd e))) (comps n).

Lemma storableb_spec n : storableb n = true -> storable n.
Proof.
  intros H cls c name row a D Ir Ia. unfold storableb in H. rewrite forallb_forall in H.
  apply dget_In in D. specialize (H _ D). cbn [snd] in H. rewrite forallb_forall in H.
  specialize (H _ Ir). cbn [snd] in H. rewrite forallb_forall in H. specialize (H _ Ia).
  apply andb_true_iff in H. destruct H as [H1 H2]. split.
  - intros ->. discriminate.
  - intros r E. assert (X : drop_prefix "t_" a = Some r) by now apply drop_prefix_spec.
    now rewrite X in H2.
Qed.

Definition nc_names (s : nc) (cls : string) : list string :=
  match nc_import f_reg s with
  | inl d => names_of (comp_or_empty (d_net d) cls)
  | inr _ => ["error"]
  end.
Definition nc_eff (s : nc) (name attr t : string) : option val :=
  match nc_import f_reg s with
  | inl d => eff tr_gen (comp_or_empty (d_net d) "Generator") name attr t
  | inr _ => None
  end.

(* the variables of the dataset and values read back from it *)
Example C88_ex :
  let s := nc_export f_reg f_before f_order in
  storable (d_net f_before) /\
  dkeys (n_coords s) = ["links_i"; "buses_i"; "generators_i"] /\
  In "generators_t_p_max_pu" (dkeys (n_vars s)) /\ In "generators_bus" (dkeys (n_vars s)) /\
  nc_names s "Generator" = ["g"; "h"] /\ nc_names s "Link" = names_of (comp_or_empty (d_net f_before) "Link") /\
  nc_eff s "h" "p_max_pu" "t1" = Some (VNum 8) /\
  (* the generators that were removed are not in the file *)
  nc_names (nc_export f_reg f_less f_order) "Generator" = [].
Proof.
  split; [apply storableb_spec; vm_compute; reflexivity|].
  split; [vm_compute; reflexivity|]. split; [vm_compute; tauto|]. split; [vm_compute; tauto|].
  repeat split; vm_compute; reflexivity.
Qed.

(* DEFECT (io.py:644-651): a column of the user's own whose name starts with "t_" is taken for a time
   series; the export succeeds and the file cannot be read, while a folder of CSV files can *)
Definition f_tcol : doc := in_doc (f_run
  [Add "Generator" true ["i"] "" false [("bus", Scalar (VStr "b")); ("t_amb", Scalar (VNum 5))]]).
Lemma f_tcol_ok : Inv (metas_of f_reg) (d_net f_tcol).
Proof.
  apply f_run_ok. repeat constructor; simpl; auto; [intuition discriminate|].
  intros k v [H|[H|[]]]; injection H as <- <-; exact I.
Qed.

Theorem C88_t_column_refuted :
  exists (d : doc) (st : store) (d' : doc),
    Inv (metas_of f_reg) (d_net d) /\
    export f_reg CSV d f_order [] = (st, None) /\ import f_reg CSV st = inl d' /\
    eff tr_gen (comp_or_empty (d_net d') "Generator") "i" "t_amb" "t0" = Some (VNum 5) /\
    nc_import f_reg (nc_export f_reg d f_order) = inr FRead.
Proof.
  exists f_tcol, (exported CSV f_tcol []). eexists. split; [exact f_tcol_ok|].
  split; [vm_compute; reflexivity|]. split; [vm_compute; reflexivity|].
  split; [vm_compute; reflexivity|]. vm_compute. reflexivity.
Qed.
Print Assumptions C88_t_column_refuted.

(* two list names one of which starts the other would be mixed up: the hypothesis on the names matters *)
Definition g_reg : dict class :=
  [("Bus", {| k_list := "buses"; k_meta := tr_bus |});
   ("Generator", {| k_list := "generators"; k_meta := tr_gen |});
   ("Link", {| k_list := "generators_of"; k_meta := tr_link |})].

Theorem C88_prefix_refuted :
  registry g_reg /\
  exists (d : doc) (st : store),
    Inv (metas_of g_reg) (d_net d) /\ storable (d_net d) /\
    export g_reg CSV d f_order [] = (st, None) /\
    ~ read_alike (nc_import g_reg (nc_export g_reg d f_order)) (import g_reg CSV st).
Proof.
  split.
  - split; [apply nodupb_spec; reflexivity|]. split; [apply nodupb_spec; reflexivity|].
    split; [now left|].
    intros cls k [H|[H|[H|[]]]]; injection H as <- <-; (split; [|apply nodupb_spec; reflexivity]);
      (split; [reflexivity|]; split; [reflexivity|]; cbn; intuition discriminate).
  - exists f_before, (fst (export g_reg CSV f_before f_order [])).
    split; [exact f_before_ok|]. split; [apply storableb_spec; vm_compute; reflexivity|].
    split; [vm_compute; reflexivity|].
    intros A. vm_compute in A. destruct A as ((_ & _ & _ & A) & _).
    specialize (A "Generator" _ _ eq_refl eq_refl). destruct A as [A _]. discriminate.
Qed.
Print Assumptions C88_prefix_refuted.

(* the list names of the package are prefix free (pypsa/data/components.csv) *)
Definition list_names : list string :=
  ["sub_networks"; "buses"; "carriers"; "global_constraints"; "lines"; "line_types"; "transformers";
   "transformer_types"; "links"; "loads"; "generators"; "storage_units"; "stores"; "shunt_impedances";
   "shapes"].
Definition starts (l l' : string) : bool :=
  match drop_prefix (String.append l "_") (String.append l' "_") with Some _ => true | None => false end.

Lemma prefix_free_names (reg : dict class) :
  NoDup (dkeys reg) -> NoDup (map (fun e => k_list (snd e)) reg) ->
  incl (map (fun e => k_list (snd e)) reg) list_names -> prefix_free reg.
Proof.
  intros ND NL I cls k cls' k' r I1 I2 N E.
  assert (L1 := in_map (fun e => k_list (snd e)) _ _ I1).
  assert (L2 := in_map (fun e => k_list (snd e)) _ _ I2). cbn [snd] in L1, L2.
  assert (Ne : k_list k <> k_list k').
  { intros X. apply N. clear -NL I1 I2 X. induction reg as [|[c q] l IH]; [destruct I1|].
    cbn [map snd] in NL. inversion NL as [|? ? NI NL']; subst.
    destruct I1 as [I1|I1], I2 as [I2|I2].
    - congruence.
    - injection I1 as -> ->. exfalso. apply NI. rewrite X.
      exact (in_map (fun e => k_list (snd e)) _ _ I2).
    - injection I2 as -> ->. exfalso. apply NI. rewrite <- X.
      exact (in_map (fun e => k_list (snd e)) _ _ I1).
    - auto. }
  apply I in L1. apply I in L2.
  assert (C : forallb (fun l => forallb (fun l' => String.eqb l l' || negb (starts l l')) list_names)
                list_names = true) by (vm_compute; reflexivity).
  rewrite forallb_forall in C. specialize (C _ L1). rewrite forallb_forall in C. specialize (C _ L2).
  apply orb_true_iff in C. destruct C as [C|C].
  - apply String.eqb_eq in C. contradiction.
  - unfold starts in C.
    assert (X : drop_prefix (String.append (k_list k) "_") (String.append (k_list k') "_") = Some r).
    { apply drop_prefix_spec. rewrite <- append_assoc. exact E. }
    now rewrite X in C.
Qed.
