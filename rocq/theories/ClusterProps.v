From Coq Require Import List String Bool QArith Arith Lqa.
From Verif Require Import ClusterModel ClusterSpec ClusterProofs.
Import ListNotations.
Open Scope string_scope.
Open Scope list_scope.
Open Scope Q_scope.

(* C40: the weights sum to one, whatever the (possibly missing, possibly all zero) values *)
Theorem C40_sum_to_one : forall l, l <> [] -> total (fun q => q) (normed_or_uniform l) == 1.
Proof. exact weights_sum. Qed.
Print Assumptions C40_sum_to_one.
Example C40_sum_ex : normed_or_uniform [Some 1; Some 3] = [1 / (1 + (3 + 0)); 3 / (1 + (3 + 0))] /\ normed_or_uniform [Some 0; Some 0] = [1 / 2; 1 / 2] /\ normed_or_uniform [Some 5; None] = [1 / 2; 1 / 2].
Proof. repeat split; reflexivity. Qed.

(* C40: they are not negative if no value is, one for each value *)
Theorem C40_nonnegative : forall l, (forall q, In (Some q) l -> 0 <= q) -> forall w, In w (normed_or_uniform l) -> 0 <= w.
Proof. exact weights_nonneg. Qed.
Print Assumptions C40_nonnegative.
Theorem C40_length : forall l, List.length (normed_or_uniform l) = List.length l.
Proof. exact weights_length. Qed.
Print Assumptions C40_length.

(* C40: and proportional to the values if these have a positive sum *)
Theorem C40_proportional : forall l s, sum_nan l = Some s -> 0 < s ->
  forall i q, nth_error l i = Some (Some q) -> exists w, nth_error (normed_or_uniform l) i = Some w /\ w * s == q.
Proof. exact weights_proportional. Qed.
Print Assumptions C40_proportional.
Example C40_proportional_ex : exists s, sum_nan [Some 2; Some 6] = Some s /\ 0 < s /\ nth_error [Some 2; Some 6] 1 = Some (Some 6) /\ exists w, nth_error (normed_or_uniform [Some 2; Some 6]) 1 = Some w /\ w == 3 # 4.
Proof. eexists. split; [reflexivity|]. split; [reflexivity|]. split; [reflexivity|]. eexists. split; reflexivity. Qed.

(* C41: summed columns keep their total per cluster and carrier, whichever components are selected for aggregation *)
Theorem C41_totals : forall busmap attr cap strat cols sel l us c k, aggregateoneport busmap cap strat cols sel l = Some us -> strat attr = Sum ->
  total_out (fun u => cell u attr) c k us == total_in busmap (fun r => o_num r attr) c k l.
Proof. exact totals. Qed.
Print Assumptions C41_totals.
Definition gen (nm b k : string) (p pu : Q) : oneport := {| o_name := nm; o_bus := b; o_carrier := k; o_num := fun a => if String.eqb a "p_nom" then p else if String.eqb a "p_max_pu" then pu else 0 |}.
Definition ex_busmap (b : string) : option string := if existsb (String.eqb b) ["1"; "2"] then Some "A" else if String.eqb b "3" then Some "B" else None.
Definition ex_gens : list oneport := [gen "g1" "1" "wind" 10 (1 # 2); gen "g2" "2" "wind" 30 1; gen "g3" "2" "gas" 7 1; gen "g4" "3" "wind" 4 0].
Example C41_totals_ex : exists us, aggregateoneport ex_busmap "p_nom" default_strategy ["p_nom"; "p_max_pu"; "build_year"; "lifetime"] (fun _ => true) ex_gens = Some us /\
  map u_name us = ["A wind"; "A gas"; "B wind"] /\ default_strategy "p_nom" = Sum /\ total_in ex_busmap (fun r => o_num r "p_nom") "A" "wind" ex_gens == 40.
Proof. eexists. split; [reflexivity|]. split; [reflexivity|]. split; reflexivity. Qed.

(* C41: if everything is aggregated there is exactly one component for each cluster and carrier that has any *)
Theorem C41_one_each : forall busmap cap strat cols l us, aggregateoneport busmap cap strat cols (fun _ => true) l = Some us ->
  NoDup (map (fun u => (u_bus u, u_carrier u)) us) /\
  forall c k, In (Some c, k) (map (fun u => (u_bus u, u_carrier u)) us) <-> exists r, In r l /\ busmap (o_bus r) = Some c /\ o_carrier r = k.
Proof. exact one_each. Qed.
Print Assumptions C41_one_each.

(* C41: capacity-weighted averages lie within the range of the values aggregated *)
Theorem C41_averages : forall busmap attr cap strat cols l us lo hi, aggregateoneport busmap cap strat cols (fun _ => true) l = Some us -> strat attr = CapacityAverage ->
  (forall r, In r l -> 0 <= o_num r cap) ->
  forall u c, In u us -> u_bus u = Some c -> (forall r, In r l -> busmap (o_bus r) = Some c -> o_carrier r = u_carrier u -> lo <= o_num r attr <= hi) ->
  exists v, u_num u attr = Some v /\ lo <= v <= hi.
Proof. exact averages. Qed.
Print Assumptions C41_averages.
(* and the available power (capacity times availability) per cluster and carrier is preserved *)
Theorem C41_available : forall busmap attr cap strat cols sel l us c k, aggregateoneport busmap cap strat cols sel l = Some us -> strat cap = Sum -> strat attr = CapacityAverage ->
  (forall r, In r l -> 0 <= o_num r cap) ->
  total_out (fun u => cell u cap * cell u attr) c k us == total_in busmap (fun r => o_num r cap * o_num r attr) c k l.
Proof. exact available. Qed.
Print Assumptions C41_available.
Example C41_available_ex : default_strategy "p_max_pu" = CapacityAverage /\ (forall r, In r ex_gens -> 0 <= o_num r "p_nom") /\
  total_in ex_busmap (fun r => o_num r "p_nom" * o_num r "p_max_pu") "A" "wind" ex_gens == 35.
Proof. split; [reflexivity|]. split; [|reflexivity]. intros r I. simpl in I. intuition (subst; discriminate). Qed.

(* C41: with the default strategies these columns are added up per cluster and carrier *)
Theorem C41_default_totals : forall busmap attr cap cols sel l us c k, aggregateoneport busmap cap default_strategy cols sel l = Some us ->
  In attr ["p"; "q"; "p_set"; "q_set"; "p_nom"; "p_nom_min"; "p_nom_max"; "e_nom"; "e_nom_min"; "e_nom_max"; "inflow"; "weight"] ->
  total_out (fun u => cell u attr) c k us == total_in busmap (fun r => o_num r attr) c k l.
Proof. exact default_totals. Qed.
Print Assumptions C41_default_totals.
(* C41: and these are averaged such that their products with the capacity add up *)
Theorem C41_default_available : forall busmap attr cap cols sel l us c k, aggregateoneport busmap cap default_strategy cols sel l = Some us -> In cap ["p_nom"; "e_nom"] ->
  In attr ["p_min_pu"; "p_max_pu"; "capital_cost"; "marginal_cost"; "efficiency"; "max_hours"] -> (forall r, In r l -> 0 <= o_num r cap) ->
  total_out (fun u => cell u cap * cell u attr) c k us == total_in busmap (fun r => o_num r cap * o_num r attr) c k l.
Proof. exact default_available. Qed.
Print Assumptions C41_default_available.
(* C41: minima and maxima are attained *)
Theorem C41_extremes : forall busmap attr cap strat cols l us u, aggregateoneport busmap cap strat cols (fun _ => true) l = Some us -> In u us ->
  (strat attr = Min -> exists r, belongs busmap l u r /\ u_num u attr = Some (o_num r attr) /\ forall r', belongs busmap l u r' -> o_num r attr <= o_num r' attr) /\
  (strat attr = Max -> exists r, belongs busmap l u r /\ u_num u attr = Some (o_num r attr) /\ forall r', belongs busmap l u r' -> o_num r' attr <= o_num r attr).
Proof. exact extremes. Qed.
Print Assumptions C41_extremes.
Example C41_extremes_ex : exists us u, aggregateoneport ex_busmap "p_nom" (fun _ => Min) ["p_nom"; "p_max_pu"] (fun _ => true) ex_gens = Some us /\ In u us /\ u_bus u = Some "A" /\ u_carrier u = "wind" /\
  u_num u "p_nom" = Some 10 /\ u_num u "p_max_pu" = Some (1 # 2).
Proof. do 2 eexists. split; [reflexivity|]. split; [left; reflexivity|]. repeat split; reflexivity. Qed.
(* C41: plain means *)
Theorem C41_mean : forall busmap attr cap strat cols l us u c, aggregateoneport busmap cap strat cols (fun _ => true) l = Some us -> In u us -> u_bus u = Some c -> strat attr = Mean ->
  exists v, u_num u attr = Some v /\ v * total_in busmap (fun _ => 1) c (u_carrier u) l == total_in busmap (fun r => o_num r attr) c (u_carrier u) l.
Proof. exact plain_mean. Qed.
Print Assumptions C41_mean.
(* C41: a column without a strategy keeps the value all members agree on; if two aggregated members of a group differ in it the call raises *)
Theorem C41_agreed : forall busmap attr cap strat cols l us u, aggregateoneport busmap cap strat cols (fun _ => true) l = Some us -> In attr cols -> In u us -> strat attr = Consense ->
  exists v, u_num u attr = Some v /\ forall r, belongs busmap l u r -> o_num r attr == v.
Proof. exact agreed. Qed.
Print Assumptions C41_agreed.
Theorem C41_conflict : forall busmap attr cap strat cols sel l r r' c, In attr cols -> strat attr = Consense -> In r l -> In r' l -> sel r = true -> sel r' = true ->
  busmap (o_bus r) = Some c -> busmap (o_bus r') = Some c -> o_carrier r = o_carrier r' -> ~ o_num r attr == o_num r' attr -> aggregateoneport busmap cap strat cols sel l = None.
Proof. exact conflict. Qed.
Print Assumptions C41_conflict.
Theorem C41_defined : forall busmap cap strat cols sel l,
  (forall attr r r' c, In attr cols -> strat attr = Consense -> In r l -> In r' l -> sel r = true -> sel r' = true ->
     busmap (o_bus r) = Some c -> busmap (o_bus r') = Some c -> o_carrier r = o_carrier r' -> o_num r attr == o_num r' attr) ->
  exists us, aggregateoneport busmap cap strat cols sel l = Some us.
Proof. exact no_conflict. Qed.
Print Assumptions C41_defined.
Example C41_conflict_ex : aggregateoneport ex_busmap "p_nom" (fun _ => Consense) ["p_max_pu"] (fun _ => true) ex_gens = None /\
  exists us, aggregateoneport ex_busmap "p_nom" (fun _ => Consense) ["p_max_pu"] (fun r => negb (String.eqb (o_name r) "g1")) ex_gens = Some us.
Proof. split; [reflexivity|]. eexists. reflexivity. Qed.

(* C41: exactly the pairs of different clusters joined by some line are joined by one line, with the total rating of all
   lines between them, whatever their direction *)
Theorem C41_lines : forall busmap ls x y, x <> y ->
  lines_out (fun _ => 1) x y (aggregatelines busmap ls) == (if existsb (fun l => joins_in busmap l x y) ls then 1 else 0) /\
  (forall l, In l (aggregatelines busmap ls) -> v_bus0 l <> v_bus1 l).
Proof. exact line_count. Qed.
Print Assumptions C41_lines.
Theorem C41_ratings : forall busmap attr ls x y, In attr ["s_nom"; "s_nom_min"; "s_nom_max"; "num_parallel"] -> x <> y ->
  lines_out (fun l => v_num l attr) x y (aggregatelines busmap ls) == lines_in busmap (fun l => l_num l attr) x y ls.
Proof. exact s_nom_total. Qed.
Print Assumptions C41_ratings.
Definition ex_line (nm a b : string) (s x : Q) : line := {| l_name := nm; l_bus0 := a; l_bus1 := b; l_num := fun c => if String.eqb c "s_nom" then s else x; l_length_factor := 1; l_voltage_factor := 1 |}.
Definition ex_lines : list line := [ex_line "a" "1" "3" 5 2; ex_line "b" "3" "2" 6 2; ex_line "c" "1" "2" 9 1].
Example C41_lines_ex : map (fun l => (v_bus0 l, v_bus1 l)) (aggregatelines ex_busmap ex_lines) = [("A", "B")] /\
  lines_out (fun l => v_num l "s_nom") "B" "A" (aggregatelines ex_busmap ex_lines) == 11 /\ lines_out (fun l => v_num l "x") "A" "B" (aggregatelines ex_busmap ex_lines) == 1.
Proof. split; [reflexivity|]. split; reflexivity. Qed.

(* C41: impedances are combined by the law of parallel lines, after scaling to the new length and voltage *)
Theorem C41_impedance : forall busmap attr ls l, In attr ["x"; "r"] -> In l (aggregatelines busmap ls) ->
  (forall m, In m ls -> 0 < l_num m attr /\ 0 < l_length_factor m /\ 0 < l_voltage_factor m) ->
  v_num l attr * lines_in busmap (fun m => l_voltage_factor m / (l_length_factor m * l_num m attr)) (v_bus0 l) (v_bus1 l) ls == 1.
Proof. exact parallel_law. Qed.
Print Assumptions C41_impedance.
Example C41_impedance_ex : forall m, In m ex_lines -> 0 < l_num m "x" /\ 0 < l_length_factor m /\ 0 < l_voltage_factor m.
Proof. intros m I. simpl in I. intuition (subst; reflexivity). Qed.

(* C41: links are kept exactly if their first two buses lie in different clusters *)
Theorem C41_links : forall busmap ls l, In l (clustered_links busmap ls) <-> exists m a b, In m ls /\ busmap (k_bus0 m) = Some a /\ busmap (k_bus1 m) = Some b /\ a <> b /\
  l = {| k_name := k_name m; k_bus0 := a; k_bus1 := b; k_more := k_more m |}.
Proof. exact links_kept. Qed.
Print Assumptions C41_links.
Example C41_links_ex : clustered_links ex_busmap [{| k_name := "k"; k_bus0 := "3"; k_bus1 := "1"; k_more := [] |}; {| k_name := "j"; k_bus0 := "2"; k_bus1 := "1"; k_more := [] |}] = [{| k_name := "k"; k_bus0 := "B"; k_bus1 := "A"; k_more := [] |}].
Proof. reflexivity. Qed.

(* C41: further ports of links are not mapped: in a consistent network, with every bus mapped, a link of the clustered
   network can refer to a bus that no longer exists *)
Theorem C41_third_port_refuted : exists busmap bs ls l b, (forall c, In c bs -> busmap c <> None) /\ (forall m, In m ls -> In (k_bus0 m) bs /\ In (k_bus1 m) bs /\ forall c, In c (k_more m) -> In c bs) /\
  In l (clustered_links busmap ls) /\ In b (k_more l) /\ ~ In b (clustered_buses busmap bs).
Proof. exact third_port. Qed.
Print Assumptions C41_third_port_refuted.
(* C41: a transformer between two clusters vanishes without replacement *)
Theorem C41_transformer_refuted : exists busmap n l, In l (trafos n) /\ between busmap l = true /\ clustered busmap n = ([], [], []).
Proof. exact trafo_dropped. Qed.
Print Assumptions C41_transformer_refuted.
(* C41: two aggregated components can get the same name *)
Theorem C41_names_refuted : exists l us, aggregateoneport Some "p_nom" default_strategy ["p_nom"; "p_max_pu"] (fun _ => true) l = Some us /\ ~ NoDup (map u_name us).
Proof. exact name_clash. Qed.
Print Assumptions C41_names_refuted.
(* C41: components at buses missing from the busmap are lost silently *)
Theorem C41_unmapped_refuted : exists busmap l us, aggregateoneport busmap "p_nom" default_strategy ["p_nom"] (fun _ => true) l = Some us /\ total (fun r => o_num r "p_nom") l == 5 /\ us = [].
Proof. exact unmapped_lost. Qed.
Print Assumptions C41_unmapped_refuted.
