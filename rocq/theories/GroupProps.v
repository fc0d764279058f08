From Coq Require Import List String Bool QArith Arith.
From Verif Require Import StatsModel GroupModel GroupSpec GroupProofs.
Import ListNotations.
Open Scope string_scope.
Open Scope list_scope.
Open Scope Q_scope.

(* C78: grouping and filtering in statistics *)

(* which assets are counted at a port *)
Theorem C78_selection n search r c port row : In row (selection n search r c port) <-> selected n search r c port row.
Proof. exact (selection_iff n search r c port row). Qed.
Print Assumptions C78_selection.

(* the statistic is defined unless a requested key does not exist for a class with counted assets *)
Theorem C78_defined n search quantity r :
  (exists l, aggregate n search quantity r = Done l) <->
  (forall c ks key port, In c (n_classes n) -> g_groupby r = Some ks -> In key ks -> In ("bus" ++ port)%string (bus_columns r c) ->
     (exists row, selected n search r c port row) -> known_key n c key).
Proof. exact (defined n search quantity r). Qed.
Print Assumptions C78_defined.

(* every key appears once, with the sum over the assets counted and so grouped at the ports asked for *)
Theorem C78_value n search quantity r l : NoDup (map fst (n_nice n)) -> NoDup (map k_name (n_classes n)) ->
  aggregate n search quantity r = Done l -> g_across r = false ->
  NoDup (map fst l) /\
  forall c k sel ps, In c (n_classes n) -> map (append "bus") ps = bus_columns r c ->
    (forall port row, sel port row = true <-> selected n search r c port row /\ grouped_as n r c port row k) ->
    reported (k_name c) k l == total (fun port => total (fun row => if sel port row then quantity (k_name c) port row else 0) (k_rows c)) ps.
Proof.
  exact (fun ND NC E A => conj (aggregate_nodup n search quantity r l NC E)
    (fun c k sel ps I B H => value n search ND quantity r l c k sel ps NC E A I B H)).
Qed.
Print Assumptions C78_value.

Theorem C78_across n search quantity r l : NoDup (map fst (n_nice n)) -> NoDup (map k_name (n_classes n)) ->
  aggregate n search quantity r = Done l -> g_across r = true ->
  NoDup (map fst l) /\
  forall k sel ps, (forall c, In c (n_classes n) -> map (append "bus") (ps (k_name c)) = bus_columns r c) ->
    (forall c port row, In c (n_classes n) -> sel (k_name c) port row = true <-> selected n search r c port row /\ grouped_as n r c port row k) ->
    reported "" k l ==
    total (fun c => total (fun port => total (fun row => if sel (k_name c) port row then quantity (k_name c) port row else 0) (k_rows c)) (ps (k_name c))) (n_classes n).
Proof.
  exact (fun ND NC E A => conj (aggregate_nodup n search quantity r l NC E)
    (fun k sel ps B H => value_across n search ND quantity r l k sel ps E A B H)).
Qed.
Print Assumptions C78_across.

(* the entries sum to the assets counted with a complete key *)
Theorem C78_total n search quantity r l sel ps : NoDup (map fst (n_nice n)) -> aggregate n search quantity r = Done l ->
  (forall c, In c (n_classes n) -> map (append "bus") (ps (k_name c)) = bus_columns r c) ->
  (forall c port row, In c (n_classes n) -> sel (k_name c) port row = true <-> selected n search r c port row /\ exists k, grouped_as n r c port row k) ->
  total snd l ==
  total (fun c => total (fun port => total (fun row => if sel (k_name c) port row then quantity (k_name c) port row else 0) (k_rows c)) (ps (k_name c))) (n_classes n).
Proof. exact (fun ND => sum_all n search ND quantity r l sel ps). Qed.
Print Assumptions C78_total.

(* a further key splits the values if no asset lacks it *)
Theorem C78_refines n search quantity r ks key l l' c k : NoDup (map fst (n_nice n)) ->
  aggregate n search quantity (with_groupby ks r) = Done l -> aggregate n search quantity (with_groupby (ks ++ [key]) r) = Done l' ->
  (forall cl port row, In cl (n_classes n) -> selected n search r cl port row -> exists s, entry_of n cl port row (g_nice r) key s) ->
  reported c k l ==
  total (fun e => if string_dec c (fst (fst e)) then if list_eq_dec string_dec k (removelast (snd (fst e))) then snd e else 0 else 0) l'.
Proof. exact (fun ND => refines n search ND quantity r ks key l l' c k). Qed.
Print Assumptions C78_refines.

(* filtering by carriers of buses is grouping by them and picking *)
Theorem C78_bus_carrier n search quantity r ks p ss l l' c k : NoDup (map fst (n_nice n)) ->
  names (fun s => exists b, In b (t_rows (n_buses n)) /\ t_cell (n_buses n) "carrier" b = Some s) p ss ->
  g_nice r = false -> (forall s, g_carrier r <> One s) ->
  aggregate n search quantity (with_groupby ks (with_bus_carrier p r)) = Done l ->
  aggregate n search quantity (with_groupby (ks ++ ["bus_carrier"]) (with_bus_carrier All r)) = Done l' ->
  reported c k l == total (fun s => reported c (k ++ [s]) l') ss.
Proof. exact (fun ND => by_bus_carrier n search ND quantity r ks p ss l l' c k). Qed.
Print Assumptions C78_bus_carrier.

(* likewise by carriers, for a list or a text that is a carrier at every port counted *)
Theorem C78_carrier n search quantity r ks p ss l l' c k : NoDup (map fst (n_nice n)) -> NoDup (map k_name (n_classes n)) ->
  In c (n_classes n) -> In "carrier" (k_cols c) ->
  (forall port, In ("bus" ++ port)%string (bus_columns r c) -> names (fun s => exists row, candidate n search r c port row /\ k_cell c "carrier" row = Some s) p ss) ->
  g_nice r = false -> g_across r = false ->
  aggregate n search quantity (with_groupby ks (with_carrier p r)) = Done l ->
  aggregate n search quantity (with_groupby (ks ++ ["carrier"]) (with_carrier All r)) = Done l' ->
  reported (k_name c) k l == total (fun s => reported (k_name c) (k ++ [s]) l') ss.
Proof. exact (fun ND => by_carrier n search ND quantity r ks p ss l l' c k). Qed.
Print Assumptions C78_carrier.

(* nice names merge the values of the carriers shown alike *)
Theorem C78_nice n search quantity r ks l l' c k (sh : list string -> bool) : NoDup (map fst (n_nice n)) ->
  aggregate n search quantity (with_groupby ks (with_nice true r)) = Done l -> aggregate n search quantity (with_groupby ks (with_nice false r)) = Done l' ->
  (forall k0, sh k0 = true <-> renamed n ks k0 k) ->
  reported c k l == total (fun e => if string_dec c (fst (fst e)) then if sh (snd (fst e)) then snd e else 0 else 0) l'.
Proof. exact (fun ND => nicely n search ND quantity r ks l l' c k sh). Qed.
Print Assumptions C78_nice.

Module Example_grid.
(* patterns of plain letters *)
Definition contains (p s : string) : bool := match index 0 p s with Some _ => true | None => false end.
Definition lookup (l : list ((string * string) * string)) (col row : string) : option string :=
  option_map snd (find (fun e => String.eqb (fst (fst e)) col && String.eqb (snd (fst e)) row) l).
Definition buses : table := {|
  t_rows := ["DE"; "FR"; "DE gas"; "sea"];
  t_has := fun col => existsb (String.eqb col) ["carrier"; "unit"; "location"; "country"];
  t_cell := lookup [(("carrier", "DE"), "AC"); (("carrier", "FR"), "AC"); (("carrier", "DE gas"), "gas"); (("carrier", "sea"), "DC");
                    (("country", "DE"), "DE"); (("country", "FR"), "FR"); (("country", "DE gas"), "DE")] |}.
Definition generators : class := {|
  k_name := "Generator"; k_cols := ["bus"; "carrier"]; k_rows := ["wind"; "park"; "farm"; "well"]; k_active := fun _ => true;
  k_cell := lookup [(("bus", "wind"), "DE"); (("bus", "park"), "FR"); (("bus", "farm"), "sea"); (("bus", "well"), "DE gas");
                    (("carrier", "wind"), "onwind"); (("carrier", "park"), "onwind"); (("carrier", "farm"), "offwind"); (("carrier", "well"), "gas")] |}.
Definition links (more : list string) : class := {|
  k_name := "Link"; k_cols := ["bus0"; "bus1"; "carrier"]; k_rows := ["boiler"] ++ more; k_active := fun _ => true;
  k_cell := lookup [(("bus0", "boiler"), "DE gas"); (("bus1", "boiler"), "DE"); (("carrier", "boiler"), "gas boiler");
                    (("bus0", "pipe"), "DE gas"); (("bus1", "pipe"), "DE gas"); (("carrier", "pipe"), "gas")] |}.
Definition transformers : class := {|
  k_name := "Transformer"; k_cols := ["bus0"; "bus1"; "type"]; k_rows := ["trafo"]; k_active := fun _ => true;
  k_cell := lookup [(("bus0", "trafo"), "DE"); (("bus1", "trafo"), "FR"); (("type", "trafo"), "")] |}.
Definition grid (more : list string) : net :=
  {| n_buses := buses; n_nice := [("onwind", "Wind"); ("offwind", "Wind"); ("gas", "")]; n_classes := [generators; links more; transformers] |}.
Definition quantity (c port row : string) : Q :=
  if String.eqb row "wind" then 1 else if String.eqb row "park" then 2 else if String.eqb row "farm" then 3 else if String.eqb row "well" then 4
  else if String.eqb row "boiler" then if String.eqb port "0" then -5 else 6 else if String.eqb row "trafo" then if String.eqb port "0" then 7 else -7 else 0.
Definition ask (ks : list string) : args :=
  {| g_groupby := Some ks; g_at_port := false; g_bus_carrier := All; g_carrier := All; g_nice := false; g_across := false |}.
Definition anywhere (r : args) : args :=
  {| g_groupby := g_groupby r; g_at_port := true; g_bus_carrier := g_bus_carrier r; g_carrier := g_carrier r; g_nice := g_nice r; g_across := g_across r |}.

Example by_carrier : aggregate (grid []) contains quantity (ask ["carrier"]) =
  Done [(("Generator", ["onwind"]), 3); (("Generator", ["offwind"]), 3); (("Generator", ["gas"]), 4); (("Link", ["gas boiler"]), -5); (("Transformer", [""]), 7)].
Proof. vm_compute. reflexivity. Qed.
Example nicely : aggregate (grid []) contains quantity (with_nice true (ask ["carrier"])) =
  Done [(("Generator", ["Wind"]), 6); (("Generator", ["gas"]), 4); (("Link", ["gas boiler"]), -5); (("Transformer", ["-"]), 7)].
Proof. vm_compute. reflexivity. Qed.
Example by_two : aggregate (grid []) contains quantity (ask ["carrier"; "bus_carrier"]) =
  Done [(("Generator", ["onwind"; "AC"]), 3); (("Generator", ["offwind"; "DC"]), 3); (("Generator", ["gas"; "gas"]), 4);
        (("Link", ["gas boiler"; "gas"]), -5); (("Transformer", [""; "AC"]), 7)].
Proof. vm_compute. reflexivity. Qed.
Example on_AC : aggregate (grid []) contains quantity (with_bus_carrier (One "AC") (anywhere (ask ["carrier"]))) =
  Done [(("Generator", ["onwind"]), 3); (("Link", ["gas boiler"]), 6); (("Transformer", [""]), 0)].
Proof. vm_compute. reflexivity. Qed.
Example on_AC_split : aggregate (grid []) contains quantity (anywhere (ask ["carrier"; "bus_carrier"])) =
  Done [(("Generator", ["onwind"; "AC"]), 3); (("Generator", ["offwind"; "DC"]), 3); (("Generator", ["gas"; "gas"]), 4);
        (("Link", ["gas boiler"; "gas"]), -5); (("Link", ["gas boiler"; "AC"]), 6); (("Transformer", [""; "AC"]), 0)].
Proof. vm_compute. reflexivity. Qed.
Example AC_known : names (fun s => exists b, In b (t_rows (n_buses (grid []))) /\ t_cell (n_buses (grid [])) "carrier" b = Some s) (One "AC") ["AC"].
Proof. right. exists "AC". repeat split. exists "DE". split; [cbn; auto|reflexivity]. Qed.
Example of_onwind : aggregate (grid []) contains quantity (with_carrier (One "onwind") (ask ["bus"])) =
  Done [(("Generator", ["DE"]), 1); (("Generator", ["FR"]), 2); (("Transformer", ["DE"]), 7)].
Proof. vm_compute. reflexivity. Qed.
Example of_onwind_split : aggregate (grid []) contains quantity (ask ["bus"; "carrier"]) =
  Done [(("Generator", ["DE"; "onwind"]), 1); (("Generator", ["FR"; "onwind"]), 2); (("Generator", ["sea"; "offwind"]), 3); (("Generator", ["DE gas"; "gas"]), 4);
        (("Link", ["DE gas"; "gas boiler"]), -5); (("Transformer", ["DE"; ""]), 7)].
Proof. vm_compute. reflexivity. Qed.
Example onwind_known : forall port, In ("bus" ++ port)%string (bus_columns (ask []) generators) ->
  names (fun s => exists row, candidate (grid []) contains (ask []) generators port row /\ k_cell generators "carrier" row = Some s) (One "onwind") ["onwind"].
Proof. intros port _. right. exists "onwind". repeat split. exists "wind". repeat split; [cbn; auto|left; reflexivity]. Qed.
Definition nowhere : net :=
  {| n_buses := {| t_rows := t_rows buses; t_has := fun col => existsb (String.eqb col) ["carrier"; "unit"; "location"]; t_cell := t_cell buses |};
     n_nice := []; n_classes := [generators] |}.
Example no_country : aggregate nowhere contains quantity (ask ["country"]) = AttributeError.
Proof. vm_compute. reflexivity. Qed.
Example no_column : aggregate (grid []) contains quantity (ask ["type"]) = ValueError.
Proof. vm_compute. reflexivity. Qed.
Example everything : aggregate (grid []) contains quantity
  {| g_groupby := Some ["country"]; g_at_port := false; g_bus_carrier := All; g_carrier := All; g_nice := false; g_across := true |} =
  Done [(("", ["DE"]), 7); (("", ["FR"]), 2)].
Proof. vm_compute. reflexivity. Qed.
Example unique_names : NoDup (map fst (n_nice (grid []))) /\ NoDup (map k_name (n_classes (grid []))).
Proof. split; repeat constructor; cbn; intuition discriminate. Qed.
Example bus_of_each : forall cl port row, In cl (n_classes (grid [])) -> selected (grid []) contains (with_bus_carrier (Many ["AC"; "DC"; "gas"]) (ask ["carrier"])) cl port row ->
  exists s, entry_of (grid []) cl port row false "bus_carrier" s.
Proof. intros cl port row _ [[_ [_ [X|[k [B _]]]]] _]; [discriminate|]. exists k. eapply Of_bus_carrier; [exact B|reflexivity]. Qed.
End Example_grid.
Import Example_grid.

(* "only considers assets with given carrier(s)": a class without an asset of the carrier is searched for the text instead; one more
   pipe of this carrier, which adds nothing itself, takes the boiler away *)
Theorem C78_pattern_refuted :
  exists l l', aggregate (grid []) contains quantity (with_carrier (One "gas") (ask ["carrier"])) = Done l /\
    aggregate (grid ["pipe"]) contains quantity (with_carrier (One "gas") (ask ["carrier"])) = Done l' /\
    quantity "Link" "0" "pipe" == 0 /\
    reported "Generator" ["gas"] l == 4 /\ reported "Link" ["gas boiler"] l == -5 /\ reported "Link" ["gas boiler"] l' == 0.
Proof. eexists. eexists. split; [vm_compute; reflexivity|]. split; [vm_compute; reflexivity|]. vm_compute. repeat split. Qed.
Print Assumptions C78_pattern_refuted.

(* transformers have no carrier and pass every filter *)
Theorem C78_no_carrier_refuted :
  exists l, aggregate (grid []) contains quantity (with_carrier (Many ["gas"]) (ask ["name"])) = Done l /\ reported "Transformer" ["trafo"] l == 7.
Proof. eexists. split; vm_compute; reflexivity. Qed.
Print Assumptions C78_no_carrier_refuted.

(* the total depends on the grouping: assets at buses without a country are left out *)
Theorem C78_missing_refuted :
  exists l l', aggregate (grid []) contains quantity (ask ["carrier"]) = Done l /\ aggregate (grid []) contains quantity (ask ["country"]) = Done l' /\
    total snd l == 12 /\ total snd l' == 9.
Proof. eexists. eexists. split; [vm_compute; reflexivity|]. split; vm_compute; [reflexivity|split; reflexivity]. Qed.
Print Assumptions C78_missing_refuted.
