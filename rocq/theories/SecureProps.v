From Coq Require Import String ZArith List.
From Verif Require Import CyclesModel KvlModel KvlSpec KvlProofs.
From mathcomp Require Import all_ssreflect all_algebra.
From Verif Require Import LinflowModel LinflowSpec LinflowProofs SecureModel SecureSpec SecureProofs.
Set Implicit Arguments. Unset Strict Implicit. Unset Printing Implicit Defensive.
Import Order.TTheory GRing.Theory Num.Theory.
Local Open Scope nat_scope.
Local Open Scope ring_scope.

(* C62: a security-constrained dispatch survives every selected outage that leaves the sub-network connected: the flows
   that Kirchhoff's and Ohm's laws prescribe without the branch, for the same injections, overload no remaining branch *)
Theorem C62_secure :
  forall (F : realFieldType) (n m : nat) (b0 b1 : 'I_m.+1 -> 'I_(1 + n)) (z : 'I_m.+1 -> F) (key : 'I_m.+1 -> bkey)
         (ext : 'I_m.+1 -> bool) (pu nom f cap loss : 'I_m.+1 -> F) (s : F) (cycles : list (list nat))
         (cols : list (list (nat * Z))) (p : 'cV[F]_(1 + n)),
    (forall l, b0 l != b1 l) -> s != 0 -> (forall l, 0 < z l) -> connected b0 b1 ->
    find_cycles (branch_list b0 b1) cycles = Some cols -> cycle_basis F b0 b1 cycles ->
    kvl_constraints z xpredT s cols f -> balanced_at b0 b1 (fun i => p i ord0) f ->
    forall (sel : seq bkey) (cs : seq (con F)) (off : seq bkey) (k : 'I_m.+1),
    security b0 b1 z key off ext pu nom f cap loss sel = Some cs -> all (@holds F) cs ->
    List.In (key k) sel -> still_connected b0 b1 k ->
    survives b0 b1 z pu (rated ext nom cap) loss (fun i => p i ord0) k.
Proof. exact: secure. Qed.
Print Assumptions C62_secure.

(* and they demand nothing else: a dispatch within its limits meets them if and only if it survives the outages *)
Theorem C62_exact :
  forall (F : realFieldType) (n m : nat) (b0 b1 : 'I_m.+1 -> 'I_(1 + n)) (z : 'I_m.+1 -> F) (key : 'I_m.+1 -> bkey)
         (ext : 'I_m.+1 -> bool) (pu nom f cap loss : 'I_m.+1 -> F) (s : F) (cycles : list (list nat))
         (cols : list (list (nat * Z))) (p : 'cV[F]_(1 + n)),
    (forall l, b0 l != b1 l) -> s != 0 -> (forall l, 0 < z l) -> connected b0 b1 ->
    find_cycles (branch_list b0 b1) cycles = Some cols -> cycle_basis F b0 b1 cycles ->
    kvl_constraints z xpredT s cols f -> balanced_at b0 b1 (fun i => p i ord0) f ->
    forall (sel : seq bkey) (cs : seq (con F)) (off : seq bkey),
    security b0 b1 z key off ext pu nom f cap loss sel = Some cs ->
    (forall k, List.In (key k) sel -> still_connected b0 b1 k) ->
    (forall l, within pu (rated ext nom cap) loss l (f l)) ->
    (all (@holds F) cs <->
     forall k, List.In (key k) sel -> survives b0 b1 z pu (rated ext nom cap) loss (fun i => p i ord0) k).
Proof. exact: exact_security. Qed.
Print Assumptions C62_exact.

(* the flows after an outage exist, so surviving is not an empty promise *)
Theorem C62_flows_exist :
  forall (F : realFieldType) (n m : nat) (b0 b1 : 'I_m.+1 -> 'I_(1 + n)) (z f : 'I_m.+1 -> F) (s : F)
         (cycles : list (list nat)) (cols : list (list (nat * Z))) (p : 'cV[F]_(1 + n)),
    (forall l, b0 l != b1 l) -> s != 0 -> (forall l, 0 < z l) -> connected b0 b1 ->
    find_cycles (branch_list b0 b1) cycles = Some cols -> cycle_basis F b0 b1 cycles ->
    kvl_constraints z xpredT s cols f -> balanced_at b0 b1 (fun i => p i ord0) f ->
    forall k, still_connected b0 b1 k ->
    after_outage b0 b1 z k (fun i => p i ord0) (fun j => f (lift k j) + BODF b0 b1 z (lift k j) k * f k).
Proof. exact: after_exists. Qed.
Print Assumptions C62_flows_exist.

(* it fails exactly when an outage is selected in a sub-network that has a switched-off branch *)
Theorem C62_raises :
  forall (F : realFieldType) (n m : nat) (b0 b1 : 'I_m -> 'I_(1 + n)) (z : 'I_m -> F) (key : 'I_m -> bkey) (off : seq bkey)
         (ext : 'I_m -> bool) (pu nom f cap loss : 'I_m -> F) (sel : seq bkey),
    security b0 b1 z key off ext pu nom f cap loss sel = None <->
    off <> [::] /\ ((exists k, List.In (key k) sel) \/ exists2 k, List.In k off & List.In k sel).
Proof. exact: security_raises. Qed.
Print Assumptions C62_raises.

(* which outages are taken: all passive branches by default; a list or Index names lines, all of which must exist *)
Theorem C62_selection :
  forall al : seq bkey,
    select al NoOutages = Some al /\
    forall xs ks, select al (Listed [seq Name x | x <- xs]) = Some ks <->
      (forall x, List.In x xs -> List.In ("Line"%string, Name x) al) /\ ks = [seq ("Line"%string, Name x) | x <- xs].
Proof. by move=> al; split; [exact: select_none|exact: select_names]. Qed.
Print Assumptions C62_selection.

(* the documented MultiIndex of (component, name) pairs is always rejected, also when all its branches exist *)
Theorem C62_multiindex_refuted :
  forall (al : seq bkey) (xs : seq (string * string)),
    (forall k, List.In k al -> exists c x, k = (c, Name x)) -> xs <> [::] ->
    select al (Listed [seq Tuple x.1 x.2 | x <- xs]) = None.
Proof. exact: select_multi. Qed.
Print Assumptions C62_multiindex_refuted.

(* the triangle of C18 and C22 with the outage of its third line: secure if each line carries 1, not secure if each carries
   3/4, although the dispatch itself then overloads nothing *)
Example C62_example :
  (exists cs, security tri0 tri1 triz tkey [::] xpred0 (fun=> 1) (fun=> 1) (branch_p0 tri0 tri1 triz (fun=> 0) trip)
                (fun=> 0) (fun=> 0) [:: ("Line"%string, Name "z"%string)] = Some cs /\ all (@holds _) cs) /\
  (exists cs, security tri0 tri1 triz tkey [::] xpred0 (fun=> 1) (fun=> 3%:R / 4%:R) (branch_p0 tri0 tri1 triz (fun=> 0) trip)
                (fun=> 0) (fun=> 0) [:: ("Line"%string, Name "z"%string)] = Some cs /\ ~~ all (@holds _) cs) /\
  (forall l, within (fun=> 1) (fun=> 3%:R / 4%:R) (fun=> 0) l (branch_p0 tri0 tri1 triz (fun=> 0) trip l)).
Proof. exact: secure_case. Qed.

Example C62_selection_example :
  let al := [:: ("Line"%string, Name "a"%string); ("Transformer"%string, Name "t"%string)] in
  select al (Listed [:: Name "a"%string]) = Some [:: ("Line"%string, Name "a"%string)] /\
  select al (Listed [:: Name "t"%string]) = None /\
  select al (Listed [:: Tuple "Transformer" "t"]) = None /\
  select al (Pairs [:: ("Transformer"%string, Name "t"%string)]) = Some [:: ("Transformer"%string, Name "t"%string)].
Proof. by []. Qed.

(* C63: lpf_contingency gives, for every outage that leaves the sub-network connected, the flows of the linear power flow
   without that branch (phase shifts included) in the sub-network, and zero on the branch itself *)
Theorem C63_flows :
  forall (F : realFieldType) (nets : seq (subnet F)) (n m : nat) (b0 b1 : 'I_m.+1 -> 'I_(1 + n)) (z : 'I_m.+1 -> F)
         (key : 'I_m.+1 -> bkey),
    List.In (Subnet b0 b1 z key) nets ->
    (forall x : {s : subnet F & 'I_(sm s)}, List.In (projT1 x) nets ->
       forall k : 'I_m.+1, skey (projT2 x) = key k -> x = existT _ (Subnet b0 b1 z key) k) ->
    forall (base : bkey -> F) (xs : seq label) (cs : seq (bkey * (bkey -> option F))),
    contingency nets base xs = Some cs ->
    forall (k : 'I_m.+1) (col : bkey -> option F) (shift : 'I_m.+1 -> F) (p : 'cV[F]_(1 + n)),
    (forall l, 0 < z l) -> still_connected b0 b1 k ->
    (forall j, base (key j) = branch_p0 b0 b1 z shift p j) -> List.In (key k, col) cs ->
    (forall g, dc_flow (fun j => b0 (lift k j)) (fun j => b1 (lift k j)) (fun j => z (lift k j)) (fun j => shift (lift k j))
                (fun i => bus_p p i ord0) g -> forall j, col (key (lift k j)) = Some (g j)) /\
    col (key k) = Some 0.
Proof. exact: cont_same. Qed.
Print Assumptions C63_flows.

(* what a label in the argument stands for: a name is a line, a tuple gives class and name *)
Definition meant (x : label) : bkey := match x with Name y => ("Line"%string, Name y) | Tuple c y => (c, Name y) end.

(* it gives one column per outage in the order asked for, and fails exactly when a sub-network has no branch or an outage
   is no passive branch *)
Theorem C63_defined :
  forall (F : realFieldType) (nets : seq (subnet F)) (base : bkey -> F) (xs : seq label),
    (contingency nets base xs = None <->
     (exists2 s, List.In s nets & sm s = 0%N) \/
     (exists2 x, List.In x xs & forall s, List.In s nets -> forall i, @skey F s i <> meant x)) /\
    forall cs, contingency nets base xs = Some cs -> [seq c.1 | c <- cs] = [seq meant x | x <- xs].
Proof. by move=> F nets base xs; split; [exact: contingency_none|exact: contingency_keys]. Qed.
Print Assumptions C63_defined.

(* an outage in one sub-network turns the flows of all others into NaN, instead of leaving them as they are *)
Theorem C63_other_areas_refuted :
  exists (nets : seq (subnet [realFieldType of rat])) (base : bkey -> rat) (x : label) (s : subnet [realFieldType of rat]) cs col,
    List.In s nets /\ contingency nets base [:: x] = Some cs /\ List.In (meant x, col) cs /\
    (forall l, base (@skey _ s l) = 2%:R) /\ (forall l, col (@skey _ s l) = None).
Proof. exact: other_areas. Qed.
Print Assumptions C63_other_areas_refuted.

(* called without snapshots, or with a pandas Index of them, it fails *)
Theorem C63_default_refuted :
  snapshot_of NoSnaps = None /\ (forall ts, snapshot_of (IndexSnaps ts) = None) /\
  (forall t ts, snapshot_of (SeqSnaps (t :: ts)) = Some t) /\ (forall t, snapshot_of (OneSnap t) = Some t).
Proof. by []. Qed.
Print Assumptions C63_default_refuted.

(* two areas of two parallel lines; 2 units flow through the first, 1 over each of its lines: without the first line the
   second carries both *)
Example C63_example :
  List.In areaA [:: areaA; areaB] /\ still_connected par0 par1 ord0 /\
  (forall j, two_bases (skey (s := areaA) j) = branch_p0 par0 par1 (fun=> 1) (fun=> 0) area_p j) /\
  exists cs col, contingency [:: areaA; areaB] two_bases [:: Name "a0"%string] = Some cs /\
    List.In (("Line"%string, Name "a0"%string), col) cs /\
    col ("Line"%string, Name "a0"%string) = Some 0 /\ col ("Line"%string, Name "a1"%string) = Some 2%:R.
Proof. exact: contingency_case. Qed.
