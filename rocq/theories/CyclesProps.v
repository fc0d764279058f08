From Coq Require Import List String Bool ZArith QArith.
From Verif Require Import Assoc TablesModel TablesSpec TablesProofs PeriodsModel TopologyModel CyclesModel CyclesSpec CyclesProofs.
Import ListNotations.
Open Scope string_scope.
Open Scope nat_scope.
Open Scope list_scope.

(* C16: +1 at bus0, -1 at bus1 (0 if they coincide), 0 elsewhere, for every switched-on branch *)
Theorem C16_entries :
  forall (busorder : list string) (tabs : list (list branch)),
    NoDup busorder -> tabs <> [] ->
    (forall b, In b (active_branches tabs) -> In (bus0 b) busorder /\ In (bus1 b) busorder) ->
    exists m, incidence_matrix busorder tabs
                = inl (List.length busorder, List.length (active_branches tabs), m) /\
      forall i x l b, nth_error busorder i = Some x -> nth_error (active_branches tabs) l = Some b ->
        entry m i l = (delta (String.eqb (bus0 b) x) - delta (String.eqb (bus1 b) x))%Z.
Proof. exact incidence_spec. Qed.
Print Assumptions C16_entries.

Theorem C16_column_sums :
  forall (busorder : list string) (tabs : list (list branch)) (m : coo) (l : nat),
    NoDup busorder -> tabs <> [] ->
    (forall b, In b (active_branches tabs) -> In (bus0 b) busorder /\ In (bus1 b) busorder) ->
    incidence_matrix busorder tabs = inl (List.length busorder, List.length (active_branches tabs), m) ->
    l < List.length (active_branches tabs) ->
    zsum (fun i => entry m i l) (List.length busorder) = 0%Z.
Proof. exact incidence_column_sum. Qed.
Print Assumptions C16_column_sums.

(* times a vector of branch flows: what leaves each bus minus what arrives *)
Theorem C16_net_outflow :
  forall (busorder : list string) (tabs : list (list branch)) (m : coo) (i : nat) (x : string) (f : nat -> Q),
    NoDup busorder -> tabs <> [] ->
    (forall b, In b (active_branches tabs) -> In (bus0 b) busorder /\ In (bus1 b) busorder) ->
    incidence_matrix busorder tabs = inl (List.length busorder, List.length (active_branches tabs), m) ->
    nth_error busorder i = Some x ->
    (qsum (fun l => inject_Z (entry m i l) * f l) (List.length (active_branches tabs))
       == outflow (active_branches tabs) f x)%Q.
Proof. exact incidence_outflow. Qed.
Print Assumptions C16_net_outflow.

(* a branch with an end outside the bus order is refused *)
Theorem C16_unknown_bus :
  forall (busorder : list string) (tabs : list (list branch)) (b : branch),
    In b (active_branches tabs) -> ~ (In (bus0 b) busorder /\ In (bus1 b) busorder) ->
    incidence_matrix busorder tabs = inr ValueErr.
Proof. exact incidence_unknown. Qed.
Print Assumptions C16_unknown_bus.

Definition im_br (nm : string) (on : bool) (a b : string) : branch :=
  {| basset := {| aname := nm; aactive := on; build_year := 0; lifetime := None |}; bus0 := a; bus1 := b |}.
Definition im_tabs : list (list branch) :=
  [[im_br "l0" true "a" "b"; im_br "l1" false "b" "c"; im_br "l2" true "c" "a"]; [im_br "t" true "b" "b"]].
Example C16_example :
  match incidence_matrix ["c"; "a"; "b"] im_tabs with
  | inl (3, 3, m) => map (fun i => map (entry m i) [0; 1; 2]) [0; 1; 2]
                       = [[0; 1; 0]; [1; -1; 0]; [-1; 0; 0]]%Z
  | _ => False
  end /\
  (forall b, In b (active_branches im_tabs) -> In (bus0 b) ["c"; "a"; "b"] /\ In (bus1 b) ["c"; "a"; "b"]) /\
  NoDup ["c"; "a"; "b"].
Proof.
  split; [reflexivity|]. split; [|apply nodupb_spec; reflexivity].
  intros b Hb. vm_compute in Hb. destruct Hb as [<-|[<-|[<-|[]]]]; vm_compute; intuition.
Qed.

(* C17: every column of the cycle matrix is a circulation: nothing is left over at any bus *)
Theorem C17_circulation :
  forall (brs : list gbranch) (cycles : list (list nat)) (cols : list (list (nat * Z)))
         (col : list (nat * Z)) (x : nat),
    find_cycles brs cycles = Some cols -> In col cols ->
    zsum (fun l => (inc brs l x * col_entry col l)%Z) (List.length brs) = 0%Z.
Proof. exact find_cycles_dense. Qed.
Print Assumptions C17_circulation.

(* its entries are -1, 0 and 1 when the cycles visit no bus twice *)
Theorem C17_entries :
  forall (brs : list gbranch) (cycles : list (list nat)) (cols : list (list (nat * Z)))
         (col : list (nat * Z)) (l : nat),
    (forall c, In c cycles -> NoDup c) -> find_cycles brs cycles = Some cols -> In col cols ->
    (-1 <= col_entry col l <= 1)%Z.
Proof. exact find_cycles_entries. Qed.
Print Assumptions C17_entries.

(* the matrix allocated beforehand has as many columns as are filled *)
Theorem C17_column_count :
  forall (brs : list gbranch) (cycles : list (list nat)) (cols : list (list (nat * Z))),
    find_cycles brs cycles = Some cols -> List.length cols = List.length cycles + num_multi brs.
Proof. exact find_cycles_count. Qed.
Print Assumptions C17_column_count.

(* closed walks over existing branches of finite impedance never fail *)
Theorem C17_no_key_error :
  forall (brs : list gbranch) (cycles : list (list nat)),
    (forall c u v, In c cycles -> In (u, v) (cyclic_pairs c) ->
       exists b, In b brs /\ gfin b = true /\ ((g0 b = u /\ g1 b = v) \/ (g0 b = v /\ g1 b = u))) ->
    exists cols, find_cycles brs cycles = Some cols.
Proof. exact find_cycles_total. Qed.
Print Assumptions C17_no_key_error.

Definition cy_brs : list gbranch :=
  map (fun e => {| g0 := fst e; g1 := snd e; gfin := true |}) [(0, 1); (2, 1); (2, 0); (1, 0); (0, 1)]
    ++ [{| g0 := 0; g1 := 2; gfin := false |}].
Example C17_example :
  match find_cycles cy_brs [[0; 1; 2]] with
  | Some cols => map (fun c => map (col_entry c) [0; 1; 2; 3; 4; 5]) cols
                   = [[1; -1; 1; 0; 0; 0]; [1; 0; 0; 1; 0; 0]; [1; 0; 0; 0; -1; 0]]%Z
  | None => False
  end /\ find_cycles cy_brs [[0; 5]] = None.
Proof. split; reflexivity. Qed.
