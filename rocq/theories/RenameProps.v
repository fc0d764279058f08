From Coq Require Import List String Bool ZArith.
From Verif Require Import Assoc TablesModel TablesSpec TablesProofs TransferModel TransferProofs TransferProps
  RenameModel RenameProofs.
Import ListNotations.
Open Scope string_scope.
Open Scope list_scope.

(* C10: renaming buses by a mapping that keeps the bus names distinct succeeds; names of the bus table
   are mapped, those of other tables are kept; every value read under the new name is the old one,
   except that bus references (columns starting with "bus") are mapped as well. *)
Theorem C10_rename_buses :
  forall (kw : dict string) (metas : dict meta) (n : net) (cb : comp),
    Inv metas n -> dget (comps n) "Bus" = Some cb -> inj_on kw (names_of cb) ->
    exists n', rename_components n "Bus" "bus" kw = (n', None) /\
      snaps n' = snaps n /\ weights n' = weights n /\ Inv metas n' /\
      dkeys (comps n') = dkeys (comps n) /\
      forall cls m c c', dget metas cls = Some m -> dget (comps n) cls = Some c ->
        dget (comps n') cls = Some c' ->
        names_of c' = map (new_name kw cls) (names_of c) /\
        forall name attr s row, dget (static c) name = Some row ->
          eff m c' (new_name kw cls name) attr s =
          Some (match (match dget (dyn c) attr with Some t => tget t name s | None => None end) with
                | Some v => v
                | None => if is_series m attr then default_of m attr
                          else if is_port attr then ren_val kw (cell row attr) else cell row attr
                end).
Proof. exact rename_spec. Qed.
Print Assumptions C10_rename_buses.

Definition rn_net : net := tr_net "".
Definition rn_swap : dict string := [("a", "b"); ("b", "a"); ("zzz", "q")].
Definition rn_out : net := fst (rename_components rn_net "Bus" "bus" rn_swap).

(* swapping two names: static data, time series and all ports follow *)
Example C10_example :
  names_of (comp_of rn_out "Bus") = ["b"; "a"; "c"] /\
  eff_of rn_net "Bus" "a" "v_nom" "t0" = Some (VNum 110) /\
  eff_of rn_out "Bus" "b" "v_nom" "t0" = Some (VNum 110) /\
  eff_of rn_out "Generator" "g" "bus" "t0" = Some (VStr "b") /\
  eff_of rn_out "Link" "k" "bus2" "t0" = Some (VStr "a") /\
  snd (rename_components rn_net "Bus" "bus" rn_swap) = None.
Proof. repeat split; vm_compute; reflexivity. Qed.

Example C10_hypotheses : Inv tr_metas rn_net /\ inj_on rn_swap (names_of (comp_of rn_net "Bus")).
Proof.
  split.
  - apply run_Inv.
    + exact tr_metas_ok.
    + apply nodupb_spec. reflexivity.
    + repeat constructor; simpl; try discriminate; intuition (try congruence).
      all: try (repeat match goal with H : _ \/ _ |- _ => destruct H end;
                match goal with
                | H : (_, _) = (_, _) |- _ => injection H as <- <-; simpl; auto
                | H : False |- _ => destruct H
                | _ => idtac end).
      all: try (intros e [<-|[<-|[]]]; reflexivity).
  - intros x y Hx Hy. vm_compute in Hx, Hy.
    destruct Hx as [<-|[<-|[<-|[]]]]; destruct Hy as [<-|[<-|[<-|[]]]];
      vm_compute; intros E; (reflexivity || discriminate E).
Qed.

(* DEFECT: a mapping onto a name that exists is accepted and leaves two buses of one name *)
Theorem C10_not_injective_refuted :
  exists n kw n', rename_components n "Bus" "bus" kw = (n', None) /\
    NoDup (names_of (comp_of n "Bus")) /\ ~ NoDup (names_of (comp_of n' "Bus")).
Proof.
  exists rn_net, [("a", "b")]. eexists. split; [vm_compute; reflexivity|]. split.
  - apply nodupb_spec. reflexivity.
  - intros H. apply nodupb_spec in H. vm_compute in H. discriminate.
Qed.
Print Assumptions C10_not_injective_refuted.

(* DEFECT (abstract.py:722-726): for any other class the columns looked for do not exist; the call
   raises KeyError after the table has already been renamed *)
Theorem C10_other_classes_refuted :
  exists n kw n', rename_components n "Generator" "generator" kw = (n', Some KeyErr) /\
    names_of (comp_of n' "Generator") <> names_of (comp_of n "Generator").
Proof.
  exists rn_net, [("g", "g2")]. eexists. split; [vm_compute; reflexivity|]. vm_compute. discriminate.
Qed.
Print Assumptions C10_other_classes_refuted.
