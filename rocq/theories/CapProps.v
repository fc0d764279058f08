From Coq Require Import List String Ascii Bool QArith ZArith Arith Lia.
From Verif Require Import LinModel LinProofs CapModel CapSpec CapProofs.
Import ListNotations.
Open Scope string_scope.
Open Scope list_scope.
Open Scope Q_scope.

(* a technology limit says exactly that the capacities of the extendable assets of the carrier that are active in the period stand in the relation to the constant *)
Theorem C51_total : forall o n l c x, tech_limit o n l = Written c -> l_bus l = None ->
  (holds x c <-> sense_holds (l_sense l) (sum_where (of_tech n (l_carrier l) (l_period l)) (capacity x) n) (l_const l)).
Proof. exact tech_total. Qed.
Print Assumptions C51_total.
(* with a bus, those connected to it *)
Theorem C51_at_bus : forall o n l c x b, tech_limit o n l = Written c -> l_bus l = Some b -> by_label o (of_tech n (l_carrier l) (l_period l)) n ->
  (holds x c <-> sense_holds (l_sense l) (sum_where (fun a => of_tech n (l_carrier l) (l_period l) a && at_bus b a) (capacity x) n) (l_const l)).
Proof. exact tech_at_bus. Qed.
Print Assumptions C51_at_bus.
(* which limits are enforced *)
Theorem C51_enforced : forall o n l, by_label o (of_tech n (l_carrier l) (l_period l)) n ->
  ((exists c, tech_limit o n l = Written c) <->
   exists p a, l_period l = Some p /\ In p (inv_periods n) /\ In a (assets n) /\ has_capacity a /\ of_tech n (l_carrier l) (Some p) a = true /\ (forall b, l_bus l = Some b -> k_bus a = b)).
Proof. exact tech_written. Qed.
Print Assumptions C51_enforced.
(* which ones stop the optimisation *)
Theorem C51_raises : forall o n l, by_label o (of_tech n (l_carrier l) (l_period l)) n ->
  (tech_limit o n l = Raised <-> exists p, l_period l = Some p /\
    (~ In p (inv_periods n) \/ exists b, l_bus l = Some b /\ (exists a, In a (assets n) /\ has_capacity a /\ of_tech n (l_carrier l) (Some p) a = true) /\
       forall a, In a (assets n) -> has_capacity a -> of_tech n (l_carrier l) (Some p) a = true -> k_bus a <> b)).
Proof. exact tech_raised. Qed.
Print Assumptions C51_raises.
(* columns nom_min_... and nom_max_... of the buses *)
Theorem C51_bus_column : forall n carriers ms int_of buses col cs s k p x, bus_column n carriers ms int_of buses col = Some cs -> denotes carriers (sns_periods n) ms int_of (col_name col) s k p ->
  (sat x (problem cs) <-> forall b q a, In b buses -> col_val col b = Some q -> In a (assets n) -> of_tech n k p a = true -> on_bus a = true -> k_bus a = b ->
    sense_holds s (sum_where (fun a => of_tech n k p a && on_bus a && at_bus b a) (capacity x) n) q).
Proof. exact column_denotes. Qed.
Print Assumptions C51_bus_column.
Theorem C51_column_other : forall n carriers ms int_of buses col cs, bus_column n carriers ms int_of buses col = Some cs -> cs <> [] ->
  exists s k p, denotes carriers (sns_periods n) ms int_of (col_name col) s k p.
Proof. exact column_other. Qed.
Print Assumptions C51_column_other.
Theorem C51_column_defined : forall n carriers ms int_of buses col, (exists s k p, denotes carriers (sns_periods n) ms int_of (col_name col) s k p) \/ ms = false ->
  exists cs, bus_column n carriers ms int_of buses col = Some cs.
Proof. exact column_defined. Qed.
Print Assumptions C51_column_defined.
(* a limit without period is dropped *)
Theorem C51_default_period_refuted : exists n l x, l_period l = None /\ In 2020%Z (sns_periods n) /\ (forall o, tech_limit o n l = Skipped) /\ l_sense l = Le /\
  l_const l < sum_where (of_tech n (l_carrier l) None) (capacity x) n.
Proof. exact default_period. Qed.
Print Assumptions C51_default_period_refuted.
(* a limit that holds anyhow stops the optimisation when the bus has no such asset *)
Theorem C51_absent_bus_refuted : exists n l, l_bus l = Some "B" /\ l_sense l = Le /\ l_const l = 5 /\ (forall o, tech_limit o n l = Raised) /\
  forall x, sum_where (fun a => of_tech n (l_carrier l) (l_period l) a && at_bus "B" a) (capacity x) n == 0.
Proof. exact absent_bus. Qed.
Print Assumptions C51_absent_bus_refuted.
(* where linopy merges by position, a limit for one bus counts assets of another *)
Theorem C51_positional_refuted : exists n l c x, l_bus l = Some "A" /\ tech_limit true n l = Written c /\ l_sense l = Le /\
  sum_where (fun a => of_tech n (l_carrier l) (l_period l) a && at_bus "A" a) (capacity x) n <= l_const l /\ ~ holds x c.
Proof. exact positional. Qed.
Print Assumptions C51_positional_refuted.
(* a misspelt column raises when there are investment periods *)
Theorem C51_bad_column_refuted : exists n carriers int_of buses col, In "wind" carriers /\ col_name col = "nom_max_wnd" /\ bus_column n carriers true int_of buses col = None /\
  bus_column n carriers false int_of buses col = Some [].
Proof. exact bad_column. Qed.
Print Assumptions C51_bad_column_refuted.
(* a minimum for a bus without such assets is dropped instead of making the problem infeasible *)
Theorem C51_min_unmet_refuted : exists n carriers int_of buses col cs, bus_column n carriers true int_of buses col = Some cs /\ denotes carriers (sns_periods n) true int_of (col_name col) Ge "wind" None /\ In "B" buses /\ col_val col "B" = Some 5 /\
  exists x, sat x (problem cs) /\ sum_where (fun a => of_tech n "wind" None a && on_bus a && at_bus "B" a) (capacity x) n == 0.
Proof. exact min_unmet. Qed.
Print Assumptions C51_min_unmet_refuted.

(* new capacity per carrier and period is at most max_growth plus max_relative_growth times that of the period before *)
Theorem C52_growth : forall n cs x, NoDup (map c_name cs) -> forall o, invest n = true -> by_label o (restricted n cs) n -> (forall c q, In c cs -> c_growth c = Some q -> 0 <= q) ->
  (forall a, In a (assets n) -> restricted n cs a = true -> outlasts n a) ->
  (sat x (problem (growth_cons o n cs)) <-> grows_within n cs x).
Proof. exact growth_iff. Qed.
Print Assumptions C52_growth.
(* an asset that is active in one period only counts as new in all later ones *)
Theorem C52_retired_refuted : exists n cs x, NoDup (map c_name cs) /\ invest n = true /\ by_label false (restricted n cs) n /\ (forall c q, In c cs -> c_growth c = Some q -> 0 <= q) /\
  grows_within n cs x /\ ~ sat x (problem (growth_cons false n cs)).
Proof. exact retired. Qed.
Print Assumptions C52_retired_refuted.
(* where linopy merges by position, carriers of different classes are taken for each other *)
Theorem C52_positional_refuted : exists n cs x, NoDup (map c_name cs) /\ invest n = true /\ (forall c q, In c cs -> c_growth c = Some q -> 0 <= q) /\
  (forall a, In a (assets n) -> restricted n cs a = true -> outlasts n a) /\ sat x (problem (growth_cons true n cs)) /\ ~ grows_within n cs x.
Proof. exact growth_positional. Qed.
Print Assumptions C52_positional_refuted.

(* carriers of a transmission limit: comma separated, spaces and brackets around them do not matter *)
Theorem C53_carriers : forall ws s, writes ws s -> carrier_list s = ws.
Proof. exact list_read. Qed.
Print Assumptions C53_carriers.
Theorem C53_volume : forall n g names c x, writes names (t_carriers g) -> volume_limit n g = Written c ->
  (holds x c <-> sense_holds (t_sense g) (sum_where (listed names n (t_period g)) (fun a => k_length a * capacity x a) n) (t_const g)).
Proof. exact volume_iff. Qed.
Print Assumptions C53_volume.
Theorem C53_cost : forall n g names c x, writes names (t_carriers g) -> cost_limit n g = Written c ->
  (holds x c <-> sense_holds (t_sense g) (sum_where (listed names n (t_period g)) (fun a => cost_of n (t_period g) a * capacity x a) n) (t_const g)).
Proof. exact cost_iff. Qed.
Print Assumptions C53_cost.
Theorem C53_volume_enforced : forall n g names, writes names (t_carriers g) ->
  ((exists c, volume_limit n g = Written c) <-> good_period n (t_period g) /\ exists a, In a (assets n) /\ In (k_class a) ["Line"; "Link"] /\ k_ext a = true /\ In (k_carrier a) names) /\
  (volume_limit n g = Raised <-> ~ good_period n (t_period g) /\ exists a, In a (assets n) /\ In (k_class a) ["Line"; "Link"] /\ k_ext a = true /\ In (k_carrier a) names).
Proof. exact volume_written. Qed.
Print Assumptions C53_volume_enforced.
Theorem C53_cost_enforced : forall n g,
  ((exists c, cost_limit n g = Written c) <-> good_period n (t_period g) /\ (t_period g = None -> multi n = true -> invest n = true) /\ exists a, In a (assets n) /\ In (k_class a) ["Line"; "Link"] /\ k_ext a = true) /\
  (cost_limit n g = Skipped <-> forall a, In a (assets n) -> In (k_class a) ["Line"; "Link"] -> k_ext a = false).
Proof. exact cost_written. Qed.
Print Assumptions C53_cost_enforced.
(* nothing is limited by a limit that is skipped *)
Theorem C53_volume_skipped : forall n g names x, writes names (t_carriers g) -> volume_limit n g = Skipped -> sum_where (listed names n (t_period g)) (fun a => k_length a * capacity x a) n == 0.
Proof. exact volume_skipped. Qed.
Print Assumptions C53_volume_skipped.
(* investment periods, but optimised without multi_investment_periods: the volume limit works, the cost limit raises *)
Theorem C53_unweighted_refuted : exists n g, t_period g = None /\ (exists a, In a (assets n) /\ listed ["AC"] n None a = true) /\ t_carriers g = "AC" /\ cost_limit n g = Raised /\ exists c, volume_limit n g = Written c.
Proof. exact unweighted. Qed.
Print Assumptions C53_unweighted_refuted.

(* total energy of every generator that is active at all *)
Theorem C54_supply : forall w x ts us, sat x (problem (total_supply w ts us)) <-> forall u, In u us -> (exists t, In t ts /\ u_active u t = true) -> within_sums w x ts u.
Proof. exact supply_iff. Qed.
Print Assumptions C54_supply.
(* window by window: as often the limit as there are windows *)
Theorem C54_windows : forall w x u q wins us, In u us -> u_max u = Some q -> (forall ts, In ts wins -> (exists t, In t ts /\ u_active u t = true) /\ sat x (problem (total_supply w ts us))) ->
  energy w x (List.concat wins) u <= inject_Z (Z.of_nat (List.length wins)) * q.
Proof. exact windows. Qed.
Print Assumptions C54_windows.

(* two generators and a store of carrier hydro at two buses, one of them retired in 2040 *)
Definition ex_n : net := mk_net [mk "Generator" "g1" "A" "hydro" decades; mk "Generator" "g2" "B" "hydro" [2020; 2030]%Z; mk "Store" "s" "A" "hydro" decades; mk "Generator" "w" "A" "wind" decades].
Definition ex_l (p : Z) (b : option string) : limit := {| l_carrier := "hydro"; l_sense := Le; l_period := Some p; l_bus := b; l_const := 10 |}.
Example C51_ex : exists c d, tech_limit false ex_n (ex_l 2040 None) = Written c /\ tech_limit false ex_n (ex_l 2020 (Some "A")) = Written d /\
  by_label false (of_tech ex_n "hydro" (Some 2020%Z)) ex_n /\
  holds (caps [("g1", 4); ("g2", 9); ("s", 5); ("w", 70)]) c /\ ~ holds (caps [("g1", 4); ("g2", 1); ("s", 7)]) c /\
  holds (caps [("g1", 4); ("g2", 9); ("s", 5); ("w", 70)]) d /\ ~ holds (caps [("g1", 4); ("g2", 1); ("s", 7)]) d.
Proof.
  eexists. eexists. split; [reflexivity|]. split; [reflexivity|]. split; [left; reflexivity|]. split; [apply holdsb_iff; reflexivity|]. split; [rewrite <- holdsb_iff; discriminate|].
  split; [apply holdsb_iff; reflexivity|rewrite <- holdsb_iff; discriminate].
Qed.
Definition year (s : string) : option Z := if String.eqb s "2040" then Some 2040%Z else None.
Definition ex_col : column := {| col_name := "nom_max_hydro_2040"; col_val := fun b => if String.eqb b "A" then Some 10 else None |}.
Example C51_ex_column : exists cs, bus_column ex_n ["hydro"; "wind"] true year ["A"; "B"] ex_col = Some cs /\ denotes ["hydro"; "wind"] decades true year (col_name ex_col) Le "hydro" (Some 2040%Z) /\
  List.length (problem cs) = 1%nat /\ sat (caps [("g1", 4); ("g2", 90); ("s", 5); ("w", 70)]) (problem cs) /\ ~ sat (caps [("g1", 4); ("s", 7)]) (problem cs).
Proof.
  eexists. split; [reflexivity|]. split.
  - exists "nom_max_", "hydro_2040". split; [reflexivity|]. split; [reflexivity|]. split; [simpl; auto|]. right. exists "2040", 2040%Z.
    split; [reflexivity|]. split; [simpl; repeat split; discriminate|]. split; [reflexivity|]. split; [reflexivity|]. split; [simpl; auto|]. split; [reflexivity|]. simpl. intuition discriminate.
  - split; [reflexivity|]. split; [apply satb_iff; reflexivity|rewrite <- satb_iff; discriminate].
Qed.
(* growth of wind: at most 10 per period plus half of what was built before *)
Definition ex_w : net := mk_net [mk "Generator" "w20" "A" "wind" decades; mk "Generator" "w30" "A" "wind" [2030; 2040]%Z; mk "Link" "w40" "A" "wind" [2040%Z]; mk "Generator" "c" "A" "coal" decades].
Definition ex_cs : list carrier := [{| c_name := "wind"; c_growth := Some 10; c_relative := 1 # 2 |}; {| c_name := "coal"; c_growth := None; c_relative := 0 |}].
Example C52_ex : NoDup (map c_name ex_cs) /\ invest ex_w = true /\ by_label false (restricted ex_w ex_cs) ex_w /\ (forall c q, In c ex_cs -> c_growth c = Some q -> 0 <= q) /\
  (forall a, In a (assets ex_w) -> restricted ex_w ex_cs a = true -> outlasts ex_w a) /\
  sat (caps [("w20", 10); ("w30", 15); ("w40", 35 # 2); ("c", 80)]) (problem (growth_cons false ex_w ex_cs)) /\ ~ sat (caps [("w20", 8); ("w30", 15)]) (problem (growth_cons false ex_w ex_cs)).
Proof.
  split; [repeat constructor; simpl; intuition discriminate|]. split; [reflexivity|]. split; [left; reflexivity|]. split; [intros c q [<-|[<-|[]]] Q; [injection Q as <-; discriminate|discriminate]|]. split.
  - intros a I _ i p B E. assert (L : (S i < 3)%nat) by (change 3%nat with (List.length (sns_periods ex_w)); apply nth_error_Some; rewrite E; discriminate).
    destruct I as [<-|[<-|[<-|[<-|[]]]]]; destruct i as [|[|i]]; try lia; try discriminate B; cbn in E; injection E as <-; reflexivity.
  - split; [apply satb_iff; reflexivity|rewrite <- satb_iff; discriminate].
Qed.
Definition tr (c nm k : string) (yrs : list Z) (len cost : Q) (e : bool) : asset :=
  {| k_class := c; k_name := nm; k_bus := "A"; k_carrier := k; k_in := fun p => memz p yrs; k_ext := e; k_length := len; k_capital := cost |}.
Definition ex_t : net := mk_net [tr "Line" "l" "AC" decades 100 2 true; tr "Line" "f" "AC" decades 100 2 false; tr "Link" "k" "DC" [2030; 2040]%Z 200 3 true; tr "Link" "h" "H2" decades 50 1 true].
Definition ex_g (q : Q) : tlimit := {| t_carriers := "[AC, DC]"; t_sense := Le; t_period := None; t_const := q |}.
Example C53_ex : writes ["AC"; "DC"] "[AC, DC]" /\ exists c d, volume_limit ex_t (ex_g 5000) = Written c /\ cost_limit ex_t (ex_g 180) = Written d /\
  holds (caps [("l", 10); ("k", 20); ("h", 1000)]) c /\ ~ holds (caps [("l", 11); ("k", 20)]) c /\
  holds (caps [("l", 10); ("k", 20); ("h", 1000)]) d /\ ~ holds (caps [("l", 11); ("k", 20)]) d.
Proof.
  assert (PL : forall a b, (nat_of_ascii a = 65 \/ nat_of_ascii a = 68)%nat -> (nat_of_ascii b = 67)%nat -> plain (String a (String b ""))).
  { intros a b A B. split; [|split].
    - cbn [all_of]. unfold bracket. cbn [In]. repeat split; intros H; intuition (subst; cbn in *; discriminate).
    - intros c r Q. injection Q as <- _. unfold space. cbn [In]. intuition congruence.
    - intros c r Q. destruct r as [|r0 [|r1 [|r2 r]]]; cbn [append] in Q; try discriminate. injection Q as _ <-. unfold space. cbn [In]. intuition congruence. }
  split.
  - apply (writes_more "AC" "[AC" ["DC"] " DC]"); [exists "", "[", "", ""|apply writes_one; exists " ", "", "]", ""]; (split; [reflexivity|]; split; [apply PL; cbn; auto|]; cbn [all_of]; unfold bracket, space; cbn; tauto).
  - eexists. eexists. split; [reflexivity|]. split; [reflexivity|]. split; [apply holdsb_iff; reflexivity|]. split; [rewrite <- holdsb_iff; discriminate|]. split; [apply holdsb_iff; reflexivity|rewrite <- holdsb_iff; discriminate].
Qed.
Definition ex_u : supplier := {| u_name := "g"; u_active := fun t => Nat.leb t 1; u_min := Some 4; u_max := Some 10 |}.
Example C54_ex : sat (fun _ => 2) (problem (total_supply (fun _ => 2) [0; 1; 2]%nat [ex_u])) /\ energy (fun _ => 2) (fun _ => 2) [0; 1; 2]%nat ex_u == 8 /\
  ~ sat (fun _ => 3) (problem (total_supply (fun _ => 2) [0; 1; 2]%nat [ex_u])) /\ ~ sat (fun _ => 1 # 2) (problem (total_supply (fun _ => 2) [0; 1; 2]%nat [ex_u])).
Proof. split; [apply satb_iff; reflexivity|]. split; [reflexivity|]. split; rewrite <- satb_iff; discriminate. Qed.
