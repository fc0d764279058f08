From Coq Require Import List String Bool QArith Arith.
From Verif Require Import LinModel BalanceModel BalanceSpec.
From Verif Require DispatchModel ObjectiveModel ObjectiveSpec.
Import ListNotations.
Open Scope string_scope.
Open Scope list_scope.
Open Scope Q_scope.

(* What a solver returns besides the solution: a multiplier for every constraint, in linopy's sign (change of the
   minimal cost per unit of the right-hand side). For linear and convex quadratic problems these conditions
   characterise optimal solutions and multipliers. Bounds of variables count as constraints. *)
Definition duals : Type := list (con * Q).

(* change of the objective at x in direction d *)
Fixpoint square_slope (x d : sol) (l : lin) : Q :=
  match l with [] => 0 | (c, v) :: r => 2 * c * (val x v * val d v) + square_slope x d r end.
Definition piece_slope (x d : sol) (p : ObjectiveModel.piece) : Q :=
  match p with ObjectiveModel.Linear l => eval d l | ObjectiveModel.Square l => square_slope x d l | ObjectiveModel.Missing => 0 end.
Definition slope (x d : sol) (ps : list ObjectiveModel.piece) : Q := total (piece_slope x d) ps.

Definition signed (c : con) (y : Q) : Prop := match sns c with Le => y <= 0 | Ge => 0 <= y | Eq => True end.
Definition kkt (x : sol) (ps : list ObjectiveModel.piece) (cy : duals) : Prop :=
  sat x (map fst cy) /\
  (forall c y, In (c, y) cy -> signed c y) /\
  (forall c y, In (c, y) cy -> y * (eval x (lhs c) - rhs c) == 0) /\
  (forall d, slope x d ps == total (fun cy => snd cy * eval d (lhs (fst cy))) cy).

(* a constraint array with its multipliers *)
Definition add_duals {A} (ts : list nat) (comps : list A) (mask : nat -> A -> bool) (f : nat -> A -> con) (y : nat -> A -> Q) : duals :=
  flat_map (fun t => flat_map (fun a => if mask t a then [(f t a, y t a)] else []) comps) ts.

(* nodal balances, multipliers by snapshot and bus *)
Definition balance_y (n : net) (losses : bool) (bs : list string) (T : nat) (lam : nat -> string -> Q) : duals :=
  add_duals (seq 0 T) bs (fun t b => negb (is_empty (balance_lhs n losses b t)))
    (fun t b => {| lhs := balance_lhs n losses b t; sns := Eq; rhs := balance_rhs n b t |}) lam.
Definition nodal_y (n : net) (losses : bool) (T : nat) (cols : list string) (thr : nat) (lam : nat -> string -> Q) : duals :=
  let ms := meshed cols thr in
  let ws := difference (buses n) ms in
  if negb (emptyb ms) && negb (emptyb ws) then balance_y n losses ws T lam ++ balance_y n losses ms T lam
  else balance_y n losses (buses n) T lam.

(* the constraints of one generator or link, DispatchModel.all_constraints for [a] *)
Record multipliers := { m_lower : nat -> Q; m_upper : nat -> Q; m_set : nat -> Q; m_nom_lower : Q; m_nom_upper : Q; m_nom_set : Q; m_mod : Q }.
Section Own.
Import DispatchModel.
Variables (cls : string) (T : nat) (a : asset) (mu : multipliers).
Let y (f : nat -> Q) : nat -> asset -> Q := fun t _ => f t.
Let yc (q : Q) : nat -> asset -> Q := fun _ _ => q.
Definition own_y : duals :=
  (add_duals [O] (ext_assets [a]) (fun _ _ => true) (fun _ a => mk [(1, cap cls "p_nom" a)] Ge (nom_min a)) (yc (m_nom_lower mu)) ++
   add_duals [O] (ext_assets [a]) (fun _ a => match nom_max a with None => false | _ => true end)
     (fun _ a => mk [(1, cap cls "p_nom" a)] Le (match nom_max a with Some u => u | None => 0 end)) (yc (m_nom_upper mu))) ++
  add_duals [O] (ext_assets [a]) (fun _ a => match nom_set a with None => false | _ => true end)
    (fun _ a => mk [(1, cap cls "p_nom" a)] Eq (match nom_set a with Some u => u | None => 0 end)) (yc (m_nom_set mu)) ++
  add_duals [O] (mod_assets [a]) (fun _ _ => true) (fun _ a => mk [(1, cap cls "p_nom" a); (- nom_mod a, n_mod cls a)] Eq 0) (yc (m_mod mu)) ++
  (add_duals (snaps T) (fixed_assets [a]) (fun t a => active a t) (fun t a => mk [(1, op cls "p" a t)] Ge (min_pu a t * nom a)) (y (m_lower mu)) ++
   add_duals (snaps T) (fixed_assets [a]) (fun t a => active a t) (fun t a => mk [(1, op cls "p" a t)] Le (max_pu a t * nom a)) (y (m_upper mu))) ++
  (add_duals (snaps T) (ext_assets [a]) (fun t a => active a t) (fun t a => mk [(1, op cls "p" a t); (- min_pu a t, cap cls "p_nom" a)] Ge 0) (y (m_lower mu)) ++
   add_duals (snaps T) (ext_assets [a]) (fun t a => active a t) (fun t a => mk [(1, op cls "p" a t); (- max_pu a t, cap cls "p_nom" a)] Le 0) (y (m_upper mu))) ++
  (add_duals (snaps T) (com_assets [a]) (fun t a => active a t) (fun t a => mk [(1, op cls "p" a t); (- (min_pu a t * nom a), op cls "status" a t)] Ge 0) (y (m_lower mu)) ++
   add_duals (snaps T) (com_assets [a]) (fun t a => active a t) (fun t a => mk [(1, op cls "p" a t); (- (max_pu a t * nom a), op cls "status" a t)] Le 0) (y (m_upper mu))) ++
  add_duals (snaps T) [a] (fun t a => match fix_set a t with None => false | _ => active a t end)
    (fun t a => mk [(1, op cls "p" a t)] Eq (match fix_set a t with Some u => u | None => 0 end)) (y (m_set mu)).
End Own.

(* a generator or link *)
Inductive plant := Gen (c : comp) | Lnk (l : link).
Definition pclass (k : plant) : string := match k with Gen _ => "Generator" | Lnk _ => "Link" end.
Definition pname (k : plant) : string := match k with Gen c => c_name c | Lnk l => l_name l end.
Definition pactive (k : plant) : nat -> bool := match k with Gen c => c_active c | Lnk l => l_active l end.
Definition pbuses (k : plant) : list string :=
  match k with Gen c => [c_bus c] | Lnk l => l_bus0 l :: l_bus1 l :: filter (fun b => negb (String.eqb b "")) (map fst (l_ports l)) end.
(* what a unit of its power p earns at the prices: a link pays at bus0 and is paid at its other buses *)
Definition worth (price : string -> nat -> Q) (k : plant) (t : nat) : Q :=
  match k with
  | Gen c => c_sign c * price (c_bus c) t
  | Lnk l => total (fun pe => snd pe * price (fst pe) t) (outputs t l) - price (l_bus0 l) t
  end.

Definition split_at {A} (l : list A) (a : A) (P : A -> Prop) : Prop := exists l1 l2, l = l1 ++ a :: l2 /\ forall b, In b (l1 ++ l2) -> P b.
(* the same plant in the three views: nodal balance, dispatch bounds, objective; no other of its class has its name *)
Definition located (n : net) (k : plant) : Prop :=
  (forall b, In b (pbuses k) -> In b (buses n)) /\
  match k with Gen c => split_at (gens n) c (fun c' => c_name c' <> c_name c) | Lnk l => split_at (links n) l (fun l' => l_name l' <> l_name l) end.
Definition same_plant (k : plant) (a : DispatchModel.asset) (o : ObjectiveModel.asset) : Prop :=
  DispatchModel.name a = pname k /\ ObjectiveModel.a_name o = pname k /\ ObjectiveModel.a_class o = pclass k /\
  (forall t, DispatchModel.active a t = pactive k t) /\ (forall t, ObjectiveModel.a_on o t = pactive k t) /\
  ObjectiveModel.a_ext o = DispatchModel.ext a /\ ObjectiveModel.a_com o = false /\ DispatchModel.com a = false /\ DispatchModel.nom_mod a <= 0.
Definition valued (on : ObjectiveModel.net) (o : ObjectiveModel.asset) : Prop :=
  split_at (ObjectiveModel.assets on) o (fun o' => ObjectiveModel.a_class o' = ObjectiveModel.a_class o -> ObjectiveModel.a_name o' <> ObjectiveModel.a_name o).
(* a constraint without the plant's variables *)
Definition apart (k : plant) (c : con) : Prop :=
  forall q v, In (q, Some v) (lhs c) -> snd v <> pname k \/ (fst (fst v) <> (pclass k ++ "-p")%string /\ fst (fst v) <> (pclass k ++ "-p_nom")%string).

(* reported power, and the cost of a further unit *)
Definition power (x : sol) (k : plant) (t : nat) : Q := if pactive k t then x ((pclass k ++ "-p")%string, t, pname k) else 0.
Definition marginal (x : sol) (k : plant) (o : ObjectiveModel.asset) (t : nat) : Q :=
  ObjectiveModel.a_marginal o t + 2 * ObjectiveModel.a_quadratic o t * power x k t.
Definition capacity (x : sol) (k : plant) (a : DispatchModel.asset) : Q :=
  if DispatchModel.ext a then x ((pclass k ++ "-p_nom")%string, O, pname k) else DispatchModel.nom a.

(* weight of a snapshot in the objective; annual cost per unit of capacity *)
Definition weight (on : ObjectiveModel.net) (t : nat) : Q :=
  match ObjectiveModel.multi on with None => ObjectiveModel.w_snap on t | Some (_, years) => ObjectiveModel.w_snap on t * years (ObjectiveModel.per on t) end.
Definition yearly (on : ObjectiveModel.net) (o : ObjectiveModel.asset) : Q :=
  match ObjectiveModel.multi on with
  | None => if ObjectiveModel.a_flag o then ObjectiveModel.a_capital o else 0
  | Some (periods, years) => total (fun p => if ObjectiveModel.a_in o p then years p else 0) periods * ObjectiveModel.a_capital o
  end.

(* what further constraints (emission limits, energy sums, ...) pay per unit of a variable: multiplier times coefficient *)
Definition var_eqb (v w : var) : bool :=
  String.eqb (fst (fst v)) (fst (fst w)) && Nat.eqb (snd (fst v)) (snd (fst w)) && String.eqb (snd v) (snd w).
Definition coef (v : var) (l : lin) : Q := total (fun cl => match snd cl with Some w => if var_eqb v w then fst cl else 0 | None => 0 end) l.
Definition toll (rest : duals) (v : var) : Q := total (fun cy => snd cy * coef v (lhs (fst cy))) rest.
Definition earning (on : ObjectiveModel.net) (price : string -> nat -> Q) (rest : duals) (k : plant) (t : nat) : Q :=
  weight on t * worth price k t + toll rest ((pclass k ++ "-p")%string, t, pname k).

(* no quadratic cost is negative *)
Definition convex (on : ObjectiveModel.net) : Prop :=
  (forall t, (t < ObjectiveModel.nsnaps on)%nat -> 0 <= weight on t) /\
  (forall a t, In a (ObjectiveModel.assets on) -> (t < ObjectiveModel.nsnaps on)%nat -> 0 <= ObjectiveModel.a_quadratic a t).

(* a solved model: the prices are the multipliers of the nodal balances divided by the weightings (C60) *)
Record market (n : net) (losses : bool) (T : nat) (cols : list string) (thr : nat) (on : ObjectiveModel.net) (o : ObjectiveModel.asset)
  (ps : list ObjectiveModel.piece) (k : plant) (a : DispatchModel.asset) (x : sol) (price : string -> nat -> Q) (mu : multipliers) (rest : duals) : Prop := {
  mk_known : ObjectiveSpec.known on; mk_const : ObjectiveModel.const_fixed on x;
  mk_start : ObjectiveSpec.proper on ObjectiveModel.a_start; mk_shut : ObjectiveSpec.proper on ObjectiveModel.a_shut;
  mk_obj : ObjectiveModel.objective on = Some ps; mk_snaps : ObjectiveModel.nsnaps on = T;
  mk_buses : NoDup (buses n); mk_mesh : forall b, In b cols -> b = "" \/ In b (buses n);
  mk_located : located n k; mk_same : same_plant k a o; mk_valued : valued on o;
  mk_kkt : kkt x ps (nodal_y n losses T cols thr (fun t b => weight on t * price b t) ++ own_y (pclass k) T a mu ++ rest) }.

(* earnings beyond running costs; what the limits on the capacity are worth *)
Definition profit (T : nat) (on : ObjectiveModel.net) (o : ObjectiveModel.asset) (k : plant) (x : sol) (price : string -> nat -> Q) (rest : duals) : Q :=
  total (fun t => earning on price rest k t * power x k t) (seq 0 T) -
  total (fun t => weight on t * marginal x k o t * power x k t) (seq 0 T).
Definition rent (a : DispatchModel.asset) (mu : multipliers) : Q :=
  m_nom_lower mu * DispatchModel.nom_min a + match DispatchModel.nom_max a with Some u => m_nom_upper mu * u | None => 0 end +
  match DispatchModel.nom_set a with Some u => m_nom_set mu * u | None => 0 end.
Definition unscheduled (T : nat) (k : plant) (a : DispatchModel.asset) : Prop :=
  forall t, (t < T)%nat -> pactive k t = true -> DispatchModel.fix_set a t = None.

Definition with_loads (n : net) (ls : list load) : net :=
  {| buses := buses n; gens := gens n; stores := stores n; units := units n; lines := lines n; trafos := trafos n; links := links n; loads := ls |}.

(* payments at one snapshot *)
Section Settle.
Variables (losses : bool) (x : sol) (t : nat) (price : string -> nat -> Q).
Definition pays_load (n : net) : Q := total (fun d => price (d_bus d) t * demand_of t d) (loads n).
Definition paid_at (p : sol -> nat -> comp -> Q) (l : list comp) : Q := total (fun c => price (c_bus c) t * p x t c) l.
Definition branch_rent (v lv : string) (b : branch) : Q :=
  (price (b_bus1 b) t - price (b_bus0 b) t) * flow x t v b - (if losses then (1#2) * (price (b_bus0 b) t + price (b_bus1 b) t) * flow x t lv b else 0).
End Settle.
