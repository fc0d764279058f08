From Coq Require Import List String Bool QArith ZArith Arith.
From Verif Require Import LinModel BalanceModel BalanceSpec PriceSpec.
From Verif Require DispatchModel ObjectiveModel ObjectiveSpec StorageModel StorageSpec.
Import ListNotations.
Open Scope string_scope.
Open Scope list_scope.
Open Scope Q_scope.

(* Prices and storage: multipliers (PriceSpec) of the constraints of one storage unit or store *)
Inductive device := Unit (c : comp) (d : StorageModel.unit_data) | Sto (c : comp) (hours : nat -> Q).
Definition base (k : device) : comp := match k with Unit c _ => c | Sto c _ => c end.
Definition dname (k : device) : string := c_name (base k).
Definition dactive (k : device) : nat -> bool := c_active (base k).
Definition dclass (k : device) : string := match k with Unit _ _ => "StorageUnit" | Sto _ _ => "Store" end.
Definition out_name (k : device) : string := match k with Unit _ _ => "StorageUnit-p_dispatch" | Sto _ _ => "Store-p" end.
Definition level_name (k : device) : string := match k with Unit _ _ => "StorageUnit-state_of_charge" | Sto _ _ => "Store-e" end.
Definition nom_name (k : device) : string := match k with Unit _ _ => "StorageUnit-p_nom" | Sto _ _ => "Store-e_nom" end.
Definition names (k : device) : list string :=
  match k with
  | Unit _ _ => ["StorageUnit-p_dispatch"; "StorageUnit-p_store"; "StorageUnit-state_of_charge"; "StorageUnit-spill"; "StorageUnit-p_nom"]
  | Sto _ _ => ["Store-p"; "Store-e"; "Store-e_nom"]
  end.

(* operation of the device in a solution: power sent out, power taken in, level, spilled inflow, size *)
Definition discharge (x : sol) (k : device) (t : nat) : Q := value x (dactive k) (out_name k) (dname k) t.
Definition charge (x : sol) (k : device) (t : nat) : Q := match k with Unit _ _ => value x (dactive k) "StorageUnit-p_store" (dname k) t | Sto _ _ => 0 end.
Definition energy (x : sol) (k : device) (t : nat) : Q := value x (dactive k) (level_name k) (dname k) t.
Definition spilled (x : sol) (k : device) (t : nat) : Q :=
  match k with Unit _ d => if Qle_bool (StorageModel.inflow d t) 0 then 0 else value x (dactive k) "StorageUnit-spill" (dname k) t | Sto _ _ => 0 end.
Definition size (x : sol) (k : device) (a : DispatchModel.asset) : Q := if DispatchModel.ext a then x (nom_name k, O, dname k) else DispatchModel.nom a.
(* energy drawn per unit sent out, gained per unit taken in, lost per unit spilled; received from outside *)
Definition drawn (k : device) (t : nat) : Q := match k with Unit _ d => StorageModel.eh d t / StorageModel.eff_dispatch d t | Sto _ h => h t end.
Definition gained (k : device) (t : nat) : Q := match k with Unit _ d => StorageModel.eff_store d t * StorageModel.eh d t | Sto _ _ => 0 end.
Definition hours_of (k : device) (t : nat) : Q := match k with Unit _ d => StorageModel.eh d t | Sto _ h => h t end.
Definition received (k : device) (t : nat) : Q := match k with Unit _ d => StorageModel.inflow d t * StorageModel.eh d t | Sto _ _ => 0 end.
(* limits of the level per unit of size *)
Definition low_level (k : device) (a : DispatchModel.asset) (t : nat) : Q := match k with Unit _ _ => 0 | Sto _ _ => DispatchModel.min_pu a t end.
Definition high_level (k : device) (a : DispatchModel.asset) (t : nat) : Q := match k with Unit _ _ => DispatchModel.max_hours a | Sto _ _ => DispatchModel.max_pu a t end.

(* multipliers *)
Record limit := { l_low : nat -> Q; l_high : nat -> Q; l_set : nat -> Q }.
Record sduals := { of_energy : nat -> Q; of_out : limit; of_in : limit; of_level : limit; of_spill_low : nat -> Q; of_spill_high : nat -> Q;
  of_nom_low : Q; of_nom_high : Q; of_nom_set : Q }.
(* given series: p_dispatch_set, p_store_set, state_of_charge_set or e_set *)
Record series := { set_out : nat -> option Q; set_in : nat -> option Q; set_level : nat -> option Q }.
Definition with_set (a : DispatchModel.asset) (f : nat -> option Q) : DispatchModel.asset :=
  {| DispatchModel.name := DispatchModel.name a; DispatchModel.nom := DispatchModel.nom a; DispatchModel.nom_min := DispatchModel.nom_min a; DispatchModel.nom_max := DispatchModel.nom_max a;
     DispatchModel.nom_set := DispatchModel.nom_set a; DispatchModel.nom_mod := DispatchModel.nom_mod a; DispatchModel.ext := DispatchModel.ext a; DispatchModel.com := DispatchModel.com a;
     DispatchModel.active := DispatchModel.active a; DispatchModel.min_pu := DispatchModel.min_pu a; DispatchModel.max_pu := DispatchModel.max_pu a;
     DispatchModel.max_hours := DispatchModel.max_hours a; DispatchModel.fix_set := f |}.

Section Own.
Import DispatchModel.
Variable T : nat.
(* limits of one variable array of one asset: DispatchModel non_extendables, extendables, fixed_operation *)
Section Limit.
Variables (cls attr nattr : string) (kd : kind) (a : asset) (l : limit).
Let y (f : nat -> Q) : nat -> asset -> Q := fun t _ => f t.
Definition limit_y : duals :=
  (add_duals (snaps T) (fixed_assets [a]) (fun t a => active a t) (fun t a => mk [(1, op cls attr a t)] Ge (fst (bounds_pu kd a t) * nom a)) (y (l_low l)) ++
   add_duals (snaps T) (fixed_assets [a]) (fun t a => active a t) (fun t a => mk [(1, op cls attr a t)] Le (snd (bounds_pu kd a t) * nom a)) (y (l_high l))) ++
  (add_duals (snaps T) (ext_assets [a]) (fun t a => active a t) (fun t a => mk [(1, op cls attr a t); (- fst (bounds_pu kd a t), cap cls nattr a)] Ge 0) (y (l_low l)) ++
   add_duals (snaps T) (ext_assets [a]) (fun t a => active a t) (fun t a => mk [(1, op cls attr a t); (- snd (bounds_pu kd a t), cap cls nattr a)] Le 0) (y (l_high l))) ++
  add_duals (snaps T) [a] (fun t a => match fix_set a t with None => false | _ => active a t end)
    (fun t a => mk [(1, op cls attr a t)] Eq (match fix_set a t with Some u => u | None => 0 end)) (y (l_set l)).
End Limit.
(* limits of the size: DispatchModel nominal, fixed_nominal *)
Definition size_y (cls nattr : string) (a : asset) (mu : sduals) : duals :=
  (add_duals [O] (ext_assets [a]) (fun _ _ => true) (fun _ a => mk [(1, cap cls nattr a)] Ge (nom_min a)) (fun _ _ => of_nom_low mu) ++
   add_duals [O] (ext_assets [a]) (fun _ a => match nom_max a with None => false | _ => true end)
     (fun _ a => mk [(1, cap cls nattr a)] Le (match nom_max a with Some u => u | None => 0 end)) (fun _ _ => of_nom_high mu)) ++
  add_duals [O] (ext_assets [a]) (fun _ a => match nom_set a with None => false | _ => true end)
    (fun _ a => mk [(1, cap cls nattr a)] Eq (match nom_set a with Some u => u | None => 0 end)) (fun _ _ => of_nom_set mu).
(* energy balances: StorageModel energy_balance *)
Definition energy_y (periods : option (nat -> Z)) (lev : string) (s : StorageModel.storage) (flows : nat -> lin) (infl : nat -> Q) (y : nat -> Q) : duals :=
  add_duals (seq 0 T) [s] (fun t s => StorageModel.s_active s t)
    (fun t _ => {| lhs := (-(1), StorageModel.level lev s t) :: flows t ++ [(StorageModel.s_stand s t, StorageModel.prev_label T periods lev s t)]; sns := Eq;
                   rhs := - infl t - (if StorageModel.included periods s t then 0 else StorageModel.s_init s) |}) (fun t _ => y t).
(* bounds of the variable for spilling *)
Definition spill_y (s : StorageModel.storage) (d : StorageModel.unit_data) (mu : sduals) : duals :=
  add_duals (seq 0 T) [s] (fun t s => match StorageModel.spill_label s d t with None => false | _ => true end)
    (fun t s => {| lhs := [(1, StorageModel.spill_label s d t)]; sns := Ge; rhs := 0 |}) (fun t _ => of_spill_low mu t) ++
  add_duals (seq 0 T) [s] (fun t s => match StorageModel.spill_label s d t with None => false | _ => true end)
    (fun t s => {| lhs := [(1, StorageModel.spill_label s d t)]; sns := Le; rhs := StorageModel.inflow d t |}) (fun t _ => of_spill_high mu t).
Definition device_y (periods : option (nat -> Z)) (k : device) (s : StorageModel.storage) (a : asset) (ser : series) (mu : sduals) : duals :=
  match k with
  | Unit _ d =>
      size_y "StorageUnit" "p_nom" a mu ++
      limit_y "StorageUnit" "p_dispatch" "p_nom" Storage_dispatch (with_set a (set_out ser)) (of_out mu) ++
      limit_y "StorageUnit" "p_store" "p_nom" Storage_store (with_set a (set_in ser)) (of_in mu) ++
      limit_y "StorageUnit" "state_of_charge" "p_nom" Storage_soc (with_set a (set_level ser)) (of_level mu) ++
      energy_y periods "StorageUnit-state_of_charge" s (StorageModel.unit_flows s d) (fun t => StorageModel.inflow d t * StorageModel.eh d t) (of_energy mu) ++
      spill_y s d mu
  | Sto _ h =>
      size_y "Store" "e_nom" a mu ++
      limit_y "Store" "e" "e_nom" Other (with_set a (set_level ser)) (of_level mu) ++
      energy_y periods "Store-e" s (fun t => [(- h t, StorageModel.var_of s "Store-p" t)]) (fun _ => 0) (of_energy mu)
  end.
End Own.

(* the same device in the views of nodal balance, limits, energy balance and objective; no other of its class has its name *)
Definition placed (n : net) (k : device) : Prop :=
  In (c_bus (base k)) (buses n) /\ split_at (match k with Unit _ _ => units n | Sto _ _ => stores n end) (base k) (fun c => c_name c <> dname k).
Definition same_device (k : device) (s : StorageModel.storage) (a : DispatchModel.asset) (o : ObjectiveModel.asset) : Prop :=
  DispatchModel.name a = dname k /\ ObjectiveModel.a_name o = dname k /\ StorageModel.s_name s = dname k /\ ObjectiveModel.a_class o = dclass k /\
  (forall t, DispatchModel.active a t = dactive k t) /\ (forall t, ObjectiveModel.a_on o t = dactive k t) /\ (forall t, StorageModel.s_active s t = dactive k t) /\
  ObjectiveModel.a_ext o = DispatchModel.ext a /\ ObjectiveModel.a_com o = false /\ DispatchModel.com a = false /\
  match k with Unit _ d => forall t, ObjectiveModel.a_inflow o t = StorageModel.inflow d t | Sto _ _ => True end.

(* a solved model *)
Record storage_market (n : net) (losses : bool) (T : nat) (cols : list string) (thr : nat) (on : ObjectiveModel.net) (o : ObjectiveModel.asset) (ps : list ObjectiveModel.piece)
  (periods : option (nat -> Z)) (k : device) (s : StorageModel.storage) (a : DispatchModel.asset) (ser : series) (x : sol) (price : string -> nat -> Q) (mu : sduals) (rest : duals) : Prop := {
  sm_known : ObjectiveSpec.known on; sm_const : ObjectiveModel.const_fixed on x;
  sm_start : ObjectiveSpec.proper on ObjectiveModel.a_start; sm_shut : ObjectiveSpec.proper on ObjectiveModel.a_shut;
  sm_obj : ObjectiveModel.objective on = Some ps; sm_snaps : ObjectiveModel.nsnaps on = T;
  sm_buses : NoDup (buses n); sm_mesh : forall b, In b cols -> b = "" \/ In b (buses n);
  sm_placed : placed n k; sm_same : same_device k s a o; sm_valued : valued on o;
  sm_kkt : kkt x ps (nodal_y n losses T cols thr (fun t b => weight on t * price b t) ++ device_y T periods k s a ser mu ++ rest) }.

(* a constraint without the device's variables *)
Definition unrelated (k : device) (c : con) : Prop := forall q v, In (q, Some v) (lhs c) -> snd v <> dname k \/ ~ In (fst (fst v)) (names k).

Section Money.
Variables (on : ObjectiveModel.net) (o : ObjectiveModel.asset) (k : device) (x : sol) (price : string -> nat -> Q) (rest : duals).
(* price at its bus; what a unit sent out earns and a unit taken in costs, with what further constraints add *)
Definition local (t : nat) : Q := c_sign (base k) * price (c_bus (base k)) t.
Definition sale (t : nat) : Q := weight on t * local t + toll rest (out_name k, t, dname k).
Definition purchase (t : nat) : Q := weight on t * local t - toll rest ("StorageUnit-p_store", t, dname k).
(* cost of a further unit sent out; costs of operation, quadratic ones at their margin *)
Definition cost_out (t : nat) : Q := ObjectiveModel.a_marginal o t + 2 * ObjectiveModel.a_quadratic o t * discharge x k t.
Definition holding (t : nat) : Q := weight on t * ObjectiveModel.a_storage o t - toll rest (level_name k, t, dname k).
Definition spilling (t : nat) : Q := weight on t * ObjectiveModel.a_spill o t - toll rest ("StorageUnit-spill", t, dname k).
(* what the device earns at the prices less what its operation costs *)
Definition surplus (T : nat) : Q :=
  total (fun t => sale t * discharge x k t - purchase t * charge x k t - weight on t * cost_out t * discharge x k t - holding t * energy x k t - spilling t * spilled x k t) (seq 0 T).
End Money.

(* value of energy received, from inflow and as initial level *)
Definition is_start (T : nat) (periods : option (nat -> Z)) (s : StorageModel.storage) (t : nat) : Prop := StorageSpec.comes_from T periods s t StorageSpec.Initial.

(* energy kept from r to t along active snapshots that satisfy ok; f is the part that remains, h what holding it costs per unit put in *)
Inductive path (T : nat) (periods : option (nat -> Z)) (k : device) (s : StorageModel.storage) (ok : nat -> Prop) (hold : nat -> Q) : nat -> nat -> Q -> Q -> Prop :=
| path_here t : path T periods k s ok hold t t 1 0
| path_next r u t f h : (r < T)%nat -> dactive k r = true -> (u < T)%nat -> dactive k u = true -> StorageSpec.comes_from T periods s u (StorageSpec.From r) ->
    ok r -> path T periods k s ok hold u t f h -> path T periods k s ok hold r t (StorageModel.s_stand s u * f) (hold r + StorageModel.s_stand s u * h).
(* the level is above its lower limit, below its upper limit, and not given *)
Definition filled (k : device) (a : DispatchModel.asset) (ser : series) (x : sol) (t : nat) : Prop := low_level k a t * size x k a < energy x k t /\ set_level ser t = None.
Definition roomy (k : device) (a : DispatchModel.asset) (ser : series) (x : sol) (t : nat) : Prop := energy x k t < high_level k a t * size x k a /\ set_level ser t = None.

Definition unset (T : nat) (ser : series) : Prop := forall t, (t < T)%nat -> set_out ser t = None /\ set_in ser t = None /\ set_level ser t = None.
(* what the limits on the size are worth *)
Definition size_rent (a : DispatchModel.asset) (mu : sduals) : Q :=
  of_nom_low mu * DispatchModel.nom_min a + match DispatchModel.nom_max a with Some u => of_nom_high mu * u | None => 0 end +
  match DispatchModel.nom_set a with Some u => of_nom_set mu * u | None => 0 end.
(* value of what the device receives: inflow, less what the limit of spilling is worth, and the initial level *)
Definition inflow_value (k : device) (mu : sduals) (t : nat) : Q :=
  of_energy mu t * received k t - match k with Unit _ d => if Qle_bool (StorageModel.inflow d t) 0 then 0 else of_spill_high mu t * StorageModel.inflow d t | Sto _ _ => 0 end.
Definition endowment (T : nat) (start : nat -> bool) (k : device) (s : StorageModel.storage) (mu : sduals) : Q :=
  total (fun t => if dactive k t then inflow_value k mu t + (if start t then of_energy mu t * StorageModel.s_init s else 0) else 0) (seq 0 T).
Definition starts (T : nat) (periods : option (nat -> Z)) (k : device) (s : StorageModel.storage) (start : nat -> bool) : Prop :=
  forall t, (t < T)%nat -> dactive k t = true -> (start t = true <-> is_start T periods s t).
Definition with_init (s : StorageModel.storage) (q : Q) : StorageModel.storage :=
  {| StorageModel.s_name := StorageModel.s_name s; StorageModel.s_active := StorageModel.s_active s; StorageModel.s_stand := StorageModel.s_stand s; StorageModel.s_init := q;
     StorageModel.s_cyclic := StorageModel.s_cyclic s; StorageModel.s_cyclic_pp := StorageModel.s_cyclic_pp s; StorageModel.s_init_pp := StorageModel.s_init_pp s |}.
(* limits that allow the device to stand idle and empty *)
Definition may_idle (T : nat) (k : device) (a : DispatchModel.asset) : Prop :=
  0 <= DispatchModel.nom a /\ forall t, (t < T)%nat -> 0 <= DispatchModel.max_pu a t /\ DispatchModel.min_pu a t <= 0 /\ 0 <= DispatchModel.max_hours a.
