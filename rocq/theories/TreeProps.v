From Coq Require Import List Bool ZArith QArith Arith Lia.
From Verif Require Import CyclesModel CyclesSpec TreeModel TreeSpec TreeProofs.
Import ListNotations.
Open Scope list_scope.
Open Scope nat_scope.

(* C93: find_tree finds its branches *)
Theorem C93_total : forall brs tree nb s path, (forall b, In b tree -> In b brs) -> tree_slack tree nb = Some s -> (forall j, j < nb -> simple_path tree j s (path j s)) ->
  exists cols, find_tree brs tree nb path = Some cols.
Proof. exact tree_found. Qed.
Print Assumptions C93_total.

(* C93: the slack of the tree is a bus of the highest degree *)
Theorem C93_slack : forall tree nb, (0 < nb -> exists s, tree_slack tree nb = Some s) /\ (forall s, tree_slack tree nb = Some s -> s < nb /\ forall v, v < nb -> degree tree v <= degree tree s).
Proof. exact (fun tree nb => conj (slack_exists tree nb) (slack_spec tree nb)). Qed.
Print Assumptions C93_slack.

(* C93: the column of a bus carries one unit from this bus to the slack *)
Theorem C93_column : forall brs tree nb s path cols j x, tree_slack tree nb = Some s -> (forall j, j < nb -> simple_path tree j s (path j s)) -> find_tree brs tree nb path = Some cols -> j < nb ->
  zsum (fun l => (inc brs l x * T_entry cols l j)%Z) (List.length brs) = (delta (Nat.eqb j x) - delta (Nat.eqb s x))%Z.
Proof. exact (fun brs tree nb s path cols j x B C F J => tree_column brs tree nb s path B C cols F j x J). Qed.
Print Assumptions C93_column.

Theorem C93_entries : forall brs tree nb s path cols j l, tree_slack tree nb = Some s -> (forall j, j < nb -> simple_path tree j s (path j s)) -> find_tree brs tree nb path = Some cols -> j < nb ->
  T_entry cols l j = 0%Z \/ T_entry cols l j = 1%Z \/ T_entry cols l j = (-1)%Z.
Proof. exact (fun brs tree nb s path cols j l B C F J => tree_entry brs tree nb s path B C cols F j l J). Qed.
Print Assumptions C93_entries.

(* C93: the flows T p serve all injections p; what is left over ends at the slack *)
Theorem C93_serves : forall brs tree nb s path cols (p : nat -> Q) x, tree_slack tree nb = Some s -> (forall j, j < nb -> simple_path tree j s (path j s)) -> find_tree brs tree nb path = Some cols -> x < nb ->
  (leaving brs (along (T_entry cols) nb p) x == p x - (if Nat.eqb s x then qsum p nb else 0))%Q.
Proof. exact (fun brs tree nb s path cols p x B C F X => tree_serves brs tree nb s path B C cols F p x X). Qed.
Print Assumptions C93_serves.

(* C93: with any flows along the cycles of find_cycles on top, balanced injections are still served *)
Theorem C93_with_cycles : forall brs tree nb s path cols cycles ccols (k p : nat -> Q) x, tree_slack tree nb = Some s -> (forall j, j < nb -> simple_path tree j s (path j s)) ->
  find_tree brs tree nb path = Some cols -> find_cycles brs cycles = Some ccols -> (qsum p nb == 0)%Q -> x < nb ->
  (leaving brs (fun l => along (T_entry cols) nb p l + qsum (fun c => k c * inject_Z (col_entry (nth c ccols []) l)) (List.length ccols)) x == p x)%Q.
Proof. exact tree_and_cycles. Qed.
Print Assumptions C93_with_cycles.

(* C93: without cycles T p are the only flows that serve p *)
Theorem C93_radial : forall brs tree nb s path cols (f p : nat -> Q), (forall b, In b tree -> In b brs) -> tree_slack tree nb = Some s -> (forall j, j < nb -> simple_path tree j s (path j s)) ->
  find_tree brs tree nb path = Some cols -> radial brs -> (forall b, In b brs -> g0 b < nb /\ g1 b < nb) ->
  (forall x, x < nb -> (leaving brs f x == p x)%Q) -> forall l, l < List.length brs -> (f l == along (T_entry cols) nb p l)%Q.
Proof. exact (fun brs tree nb s path cols f p A B C F R E => tree_unique brs tree nb s path A B C cols F R E f p). Qed.
Print Assumptions C93_radial.

Definition br (u v : nat) : gbranch := {| g0 := u; g1 := v; gfin := true |}.
(* a triangle with a stub; the tree leaves out the branch from 0 to 2 *)
Definition ex_brs : list gbranch := [br 0 1; br 2 1; br 0 2; br 3 1].
Definition ex_tree : list gbranch := [br 0 1; br 2 1; br 3 1].
Definition ex_path (j s : nat) : list nat := if Nat.eqb j s then [s] else [j; s].
Lemma to_one es j : j <> 1 -> linked es j 1 -> simple_path es j 1 [j; 1].
Proof. intros N L. split; [econstructor; [exact L|constructor]|]. constructor; [intros [H|[]]; congruence|]. constructor; [intros []|constructor]. Qed.
Example C93_ex : (forall b, In b ex_tree -> In b ex_brs) /\ tree_slack ex_tree 4 = Some 1 /\ (forall j, j < 4 -> simple_path ex_tree j 1 (ex_path j 1)) /\
  exists cols, find_tree ex_brs ex_tree 4 ex_path = Some cols /\ map (fun l => map (T_entry cols l) [0; 1; 2; 3]) [0; 1; 2; 3] = [[1; 0; 0; 0]; [0; 0; 1; 0]; [0; 0; 0; 0]; [0; 0; 0; 1]]%Z /\
  map (along (T_entry cols) 4 (fun j => nth j [2; 1; -(4); 1]%Q 0%Q)) [0; 1; 2; 3] = [2; -(4); 0; 1]%Q.
Proof.
  split; [|split; [reflexivity|split]].
  - intros b H. cbn in *. tauto.
  - intros j J. destruct (Nat.eq_dec j 1) as [->|N]; [split; [constructor|]; constructor; [intros []|constructor]|].
    unfold ex_path. replace (Nat.eqb j 1) with false by (symmetry; now apply Nat.eqb_neq). apply to_one; [exact N|]. destruct j as [|[|[|[|j]]]]; [exists (br 0 1)|lia|exists (br 2 1)|exists (br 3 1)|lia]; cbn; auto 8.
  - eexists. split; [reflexivity|]. split; vm_compute; reflexivity.
Qed.
(* a line of three buses has no cycles, and its flows are those of T *)
Definition lin_brs : list gbranch := [br 0 1; br 2 1].
Lemma lin_linked u v : linked lin_brs u v -> (u = 1 /\ (v = 0 \/ v = 2)) \/ (v = 1 /\ (u = 0 \/ u = 2)).
Proof. intros (b & [<-|[<-|[]]] & H); cbn in H; lia. Qed.
Example C93_ex_radial : radial lin_brs /\ (forall b, In b lin_brs -> g0 b < 3 /\ g1 b < 3) /\ tree_slack lin_brs 3 = Some 1 /\ (forall j, j < 3 -> simple_path lin_brs j 1 (ex_path j 1)).
Proof.
  split; [|split; [|split; [reflexivity|]]].
  - split; [|split].
    + intros b [<-|[<-|[]]]; discriminate.
    + intros k l b c K L H. destruct k as [|[|k]], l as [|[|l]]; cbn in K, L; try (destruct k; discriminate); try (destruct l; discriminate); injection K as <-; injection L as <-; cbn in H; lia.
    + intros a s p q [Wp Np] [Wq Nq]. revert q Wq Nq. induction Wp as [a|a b s p L W IH]; intros q Wq Nq.
      * inversion Wq as [|? ? ? q' L' W']; subst; [reflexivity|]. exfalso. inversion Nq as [|? ? NI _]; subst. apply NI. clear - W'. induction W'; [now left|right; assumption].
      * inversion Wq as [|? b' ? q' L' W']; subst.
        -- exfalso. inversion Np as [|? ? NI _]; subst. apply NI. clear - W. induction W; [now left|right; assumption].
        -- inversion Np as [|? ? NI ND]; subst. inversion Nq as [|? ? NI' ND']; subst. destruct (Nat.eq_dec b b') as [<-|D]; [f_equal; now apply IH|]. exfalso.
           apply lin_linked in L, L'. assert (a = 1) by lia. subst a.
           assert (End : forall c r, walks lin_brs c s r -> NoDup r -> ~ In 1 r -> c <> 1 -> s = c).
           { intros c r Wc _ NI1 Nc. inversion Wc as [|? d ? r' Lc Wd]; subst; [reflexivity|]. exfalso. apply lin_linked in Lc. assert (d = 1) by lia. subst d. destruct (walks_head _ _ _ _ Wd) as [r'' ->]. apply NI1. right. now left. }
           pose proof (End b p W ND NI ltac:(lia)). pose proof (End b' q' W' ND' NI' ltac:(lia)). lia.
  - intros b [<-|[<-|[]]]; cbn; lia.
  - intros j J. destruct (Nat.eq_dec j 1) as [->|N]; [split; [constructor|]; constructor; [intros []|constructor]|].
    unfold ex_path. replace (Nat.eqb j 1) with false by (symmetry; now apply Nat.eqb_neq). apply to_one; [exact N|]. destruct j as [|[|[|j]]]; [exists (br 0 1)|lia|exists (br 2 1)|lia]; cbn; auto 8.
Qed.

(* C93: of parallel branches T takes the first, even where sub_network.tree has another one *)
Theorem C93_parallel_refuted : ~ (forall brs tree nb s path cols l j b, (forall b, In b tree -> In b brs) -> tree_slack tree nb = Some s -> (forall j, j < nb -> simple_path tree j s (path j s)) ->
  find_tree brs tree nb path = Some cols -> j < nb -> nth_error brs l = Some b -> T_entry cols l j <> 0%Z -> In b tree).
Proof.
  intros H. assert (G := H [br 0 1; br 1 0] [br 1 0] 2 0 ex_path [[]; [(0, (-1)%Z)]] 0 1 (br 0 1)).
  assert (I : In (br 0 1) [br 1 0]); [|destruct I as [I|[]]; discriminate].
  apply G; try reflexivity; try lia; [intros b [<-|[]]; cbn; auto| |discriminate].
  intros j J. destruct j as [|[|j]]; [split; [constructor|]; constructor; [intros []|constructor]| |lia]. unfold ex_path. cbn. split; [apply (go _ 1 0 0 [0]); [exists (br 1 0); split; [now left|now left]|constructor]|].
  constructor; [intros [E|[]]; discriminate|]. constructor; [intros []|constructor].
Qed.
Print Assumptions C93_parallel_refuted.
