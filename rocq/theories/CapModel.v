From Coq Require Import List String Ascii Bool QArith ZArith Arith.
From Verif Require Import LinModel.
Import ListNotations.
Open Scope string_scope.
Open Scope list_scope.
Open Scope Q_scope.

(* Limits on capacities and on yearly energy: pypsa/optimization/global_constraints.py 26-237, 386-521 and
   pypsa/optimization/constraints.py 1023-1094. Numbers are rationals; inf is None. *)
Record asset := {
  k_class : string; k_name : string;
  k_bus : string;                          (* bus, or bus0 of a branch *)
  k_carrier : string;
  k_in : Z -> bool;                        (* get_active_assets(c, period), components/descriptors.py 22-61 *)
  k_ext : bool;                            (* ..._nom_extendable, descriptors.py 233-240 *)
  k_length : Q; k_capital : Q              (* length, capital_cost *)
}.
Record net := {
  assets : list asset;
  has_carrier : string -> bool;            (* "carrier" in n.static(c) *)
  inv_periods : list Z;                    (* n.investment_periods; empty unless snapshots are a MultiIndex *)
  sns_periods : list Z;                    (* sns.unique("period") *)
  weight_of : Z -> Q;                      (* investment_period_weightings.objective *)
  multi : bool;                            (* isinstance(sns, pd.MultiIndex) *)
  invest : bool                            (* n._multi_invest *)
}.
(* descriptors.py 215-222 *)
Definition nominal : list (string * string) :=
  [("Generator", "p_nom"); ("Line", "s_nom"); ("Transformer", "s_nom"); ("Link", "p_nom"); ("Store", "e_nom"); ("StorageUnit", "p_nom")].
Definition vname (c attr : string) : string := (c ++ "-" ++ attr)%string.
Definition nom_label (c attr : string) (a : asset) : label := Some (vname c attr, O, k_name a).
Definition mem (s : string) (l : list string) : bool := existsb (String.eqb s) l.
Definition memz (p : Z) (l : list Z) : bool := existsb (Z.eqb p) l.
Definition nonempty {A} (l : list A) : bool := match l with [] => false | _ => true end.
Definition cls (n : net) (c : string) : list asset := filter (fun a => String.eqb (k_class a) c) (assets n).
Definition ext_i (n : net) (c : string) : list asset := filter k_ext (cls n c).

(* Expressions with one labelled dimension, and linopy.expressions.merge of several of them: alignment is by label
   (outer join); some versions of linopy replace labels by those of the first expression when all sizes agree. *)
Definition grouped : Type := list (string * lin).
Definition keys (g : grouped) : list string := map fst g.
Definition at_key (g : grouped) (k : string) : lin := match find (fun e => String.eqb (fst e) k) g with Some e => snd e | None => [] end.
(* expr.groupby(f).sum() *)
Definition groupby {A} (f : A -> string) (term : A -> Q * label) (l : list A) : grouped :=
  map (fun k => (k, map term (filter (fun a => String.eqb (f a) k) l))) (nodup string_dec (map f l)).
Definition merge_outer (l : list grouped) : grouped :=
  map (fun k => (k, flat_map (fun g => at_key g k) l)) (nodup string_dec (flat_map keys l)).
Definition merge_override (l : list grouped) : grouped :=
  match l with
  | [] => []
  | g :: _ => map (fun i => (nth i (keys g) "", flat_map (fun g' => snd (nth i g' ("", []))) l)) (seq 0 (List.length g))
  end.
Definition same_size (l : list grouped) : bool := match l with [] => true | g :: r => forallb (fun g' => Nat.eqb (List.length g') (List.length g)) r end.
Definition merge (override : bool) (l : list grouped) : grouped :=
  if override && same_size l then merge_override l else merge_outer l.

(* what a loop over the limits does with one of them *)
Inductive outcome := Written (c : con) | Skipped | Raised.

Record limit := { l_carrier : string; l_sense : sense; l_period : option Z; l_bus : option string; l_const : Q }.

Section Tech.
Variable override : bool.
Variable n : net.
(* 51-77, one class *)
Definition tech_assets (carrier : string) (p : option Z) (c : string) : list asset :=
  filter (fun a => match p with Some p => k_in a p | None => true end) (filter (fun a => String.eqb (k_carrier a) carrier) (ext_i n c)).
Definition tech_exprs (carrier : string) (p : option Z) : list grouped :=
  flat_map (fun ca => if has_carrier n (fst ca) && nonempty (tech_assets carrier p (fst ca))
    then [groupby k_bus (fun a => (1, nom_label (fst ca) (snd ca) a)) (tech_assets carrier p (fst ca))] else []) nominal.
(* 26-92 define_tech_capacity_expansion_limit, for one row of n.global_constraints. The groupby of lines 46-48 drops rows whose
   investment_period is NaN. A period outside n.investment_periods raises in get_active_assets. *)
Definition tech_limit (l : limit) : outcome :=
  match l_period l with
  | None => Skipped
  | Some p =>
      if negb (memz p (inv_periods n)) then Raised
      else if nonempty (tech_exprs (l_carrier l) (Some p)) then
        let per_bus := merge override (tech_exprs (l_carrier l) (Some p)) in
        match l_bus l with
        | None => Written {| lhs := flat_map snd per_bus; sns := l_sense l; rhs := l_const l |}
        | Some b => if mem b (keys per_bus) then Written {| lhs := at_key per_bus b; sns := l_sense l; rhs := l_const l |} else Raised
        end
      else Skipped
  end.
End Tech.

(* 95-175 define_nominal_constraints_per_bus_carrier *)
Record column := { col_name : string; col_val : string -> option Q }.    (* a column of n.buses; None is NaN *)
Inductive spec := Spec (s : sense) (carrier : string) (p : option Z) | Ignored | Invalid.
Definition starts (p s : string) : bool := String.prefix p s.
Definition drop8 (s : string) : string := String.substring 8 (String.length s - 8) s.
(* str.rsplit("_", 1) *)
Fixpoint rsplit (s : string) : option (string * string) :=
  match s with
  | EmptyString => None
  | String c r => match rsplit r with Some (a, b) => Some (String c a, b) | None => if Ascii.eqb c "_" then Some (EmptyString, r) else None end
  end.
Section Bus.
Variable n : net.
Variable carriers : list string.                  (* n.carriers.index *)
Variable multi_snapshots : bool.                  (* isinstance(n.snapshots, pd.MultiIndex) *)
Variable int_of : string -> option Z.             (* int(...), None is ValueError *)
(* 119-146 *)
Definition parse_rest (s : sense) (rest : string) : spec :=
  if mem rest carriers then Spec s rest None
  else if multi_snapshots then
    match rsplit rest with
    | None => Invalid
    | Some (c, p) =>
        match int_of p with
        | None => Invalid
        | Some p => if mem c carriers && memz p (sns_periods n) then Spec s c (Some p) else Ignored
        end
    end
  else Ignored.
Definition parse (col : string) : spec :=
  if starts "nom_min_" col then parse_rest Ge (drop8 col)
  else if starts "nom_max_" col then parse_rest Le (drop8 col)
  else Ignored.
Definition one_port (c : string) : bool := mem c ["Generator"; "Store"; "StorageUnit"].
(* 148-169, the terms of one bus *)
Definition bus_terms (carrier : string) (p : option Z) (b : string) : lin :=
  flat_map (fun ca => if one_port (fst ca) && has_carrier n (fst ca)
    then map (fun a => (1, nom_label (fst ca) (snd ca) a)) (filter (fun a => String.eqb (k_bus a) b) (tech_assets n carrier p (fst ca))) else []) nominal.
Definition bus_any (carrier : string) (p : option Z) : bool :=
  existsb (fun ca => one_port (fst ca) && has_carrier n (fst ca) && nonempty (tech_assets n carrier p (fst ca))) nominal.
(* None: an exception. A period of the column is one of sns, hence one of n.investment_periods. *)
Definition bus_column (buses : list string) (col : column) : option (list con) :=
  match parse (col_name col) with
  | Invalid => None
  | Ignored => Some []
  | Spec s carrier p =>
      Some (if bus_any carrier p then
        flat_map (fun b => match col_val col b with Some q => [{| lhs := bus_terms carrier p b; sns := s; rhs := q |}] | None => [] end) buses
      else [])
  end.
End Bus.

(* 178-237 define_growth_limit *)
Record carrier := { c_name : string; c_growth : option Q; c_relative : Q }.    (* max_growth (None: inf), max_relative_growth *)
Definition qmax0 (q : Q) : Q := if Qle_bool q 0 then 0 else q.
Section Growth.
Variable override : bool.
Variable n : net.
Variable cs : list carrier.
Definition limited_carriers : list carrier := filter (fun c => match c_growth c with Some _ => true | None => false end) cs.
Definition carrier_i : list string := map c_name limited_carriers.
Definition relative (k : string) : Q := match find (fun c => String.eqb (c_name c) k) limited_carriers with Some c => qmax0 (c_relative c) | None => 0 end.
Definition growth_of (k : string) : Q :=
  match find (fun c => String.eqb (c_name c) k) limited_carriers with Some c => match c_growth c with Some q => q | None => 0 end | None => 0 end.
Definition limited_i (c : string) : list asset := filter (fun a => mem (k_carrier a) carrier_i) (ext_i n c).
(* active.cumsum() == 1 at the period of position i *)
Definition cumsum (a : asset) (i : nat) : nat := List.length (filter (fun p => k_in a p) (firstn (S i) (sns_periods n))).
Definition first_active (i : nat) (a : asset) : bool := Nat.eqb (cumsum a i) 1.
(* vars.where(first_active) *)
Definition new_label (ca : string * string) (i : nat) (a : asset) : label :=
  if first_active i a then nom_label (fst ca) (snd ca) a else None.
Definition new_expr (ca : string * string) (i : nat) : grouped := groupby k_carrier (fun a => (1, new_label ca i a)) (limited_i (fst ca)).
Definition scaled (q : Q) (l : lin) : lin := map (fun cv => (q * fst cv, snd cv)) l.
Definition any_relative (c : string) : bool := existsb (fun a => negb (Qle_bool (relative (k_carrier a)) 0)) (limited_i c).
(* expr - expr.shift(periods=1) * max_relative_growth *)
Definition class_expr (ca : string * string) (i : nat) : grouped :=
  if any_relative (fst ca) then
    map (fun e => (fst e, snd e ++ match i with O => [] | S j => scaled (- relative (fst e)) (at_key (new_expr ca j) (fst e)) end)) (new_expr ca i)
  else new_expr ca i.
Definition growth_exprs (i : nat) : list grouped :=
  flat_map (fun ca => if has_carrier n (fst ca) && nonempty (limited_i (fst ca)) then [class_expr ca i] else []) nominal.
Definition growth_cons : list con :=
  if invest n then
    flat_map (fun i => map (fun e => {| lhs := snd e; sns := Le; rhs := growth_of (fst e) |}) (merge override (growth_exprs i)))
      (seq 0 (List.length (sns_periods n)))
  else [].
End Growth.

(* 386-521: limits on transmission *)
Definition is_space (c : ascii) : bool := let k := nat_of_ascii c in Nat.eqb k 32 || (Nat.leb 9 k && Nat.leb k 13) || (Nat.leb 28 k && Nat.leb k 31).
Definition is_bracket (c : ascii) : bool := Ascii.eqb c "[" || Ascii.eqb c "]" || Ascii.eqb c "(" || Ascii.eqb c ")".
Fixpoint lstrip (s : string) : string := match s with String c r => if is_space c then lstrip r else s | EmptyString => s end.
Fixpoint all_space (s : string) : bool := match s with String c r => is_space c && all_space r | EmptyString => true end.
Fixpoint rstrip (s : string) : string :=
  match s with String c r => if all_space s then EmptyString else String c (rstrip r) | EmptyString => s end.
Definition strip (s : string) : string := rstrip (lstrip s).
(* re.sub("[\\[\\]\\(\\)]", "", s) *)
Fixpoint substr (s : string) : string := match s with String c r => if is_bracket c then substr r else String c (substr r) | EmptyString => s end.
(* str.split(",") *)
Fixpoint split_at (s cur : string) : list string :=
  match s with
  | EmptyString => [cur]
  | String c r => if Ascii.eqb c "," then cur :: split_at r EmptyString else split_at r (cur ++ String c EmptyString)%string
  end.
Definition carrier_list (s : string) : list string := map (fun w => substr (strip w)) (split_at s EmptyString).

Record tlimit := { t_carriers : string; t_sense : sense; t_period : option Z; t_const : Q }.
Definition branches : list (string * string) := [("Line", "s_nom"); ("Link", "p_nom")].
Definition in_some (n : net) (a : asset) : bool := existsb (fun p => k_in a p) (sns_periods n).
(* get_active_assets(c, period) or get_active_assets(c, sns.unique("period")) *)
Definition t_active (n : net) (p : option Z) (a : asset) : bool :=
  match p with Some p => k_in a p | None => if multi n then in_some n a else true end.
Definition t_named (n : net) (g : tlimit) (c : string) : list asset := filter (fun a => mem (k_carrier a) (carrier_list (t_carriers g))) (ext_i n c).
Definition t_terms (n : net) (g : tlimit) (coef : asset -> Q) (ca : string * string) : lin :=
  map (fun a => (coef a, nom_label (fst ca) (snd ca) a)) (filter (t_active n (t_period g)) (t_named n g (fst ca))).
(* the period is not one of n.investment_periods: ValueError *)
Definition bad_period (n : net) (p : option Z) : bool := match p with Some p => negb (memz p (inv_periods n)) | None => false end.
Definition transmission (n : net) (g : tlimit) (present : string -> bool) (coef : asset -> Q) : outcome :=
  if existsb (fun ca => present (fst ca)) branches then
    if bad_period n (t_period g) then Raised
    else Written {| lhs := flat_map (fun ca => if present (fst ca) then t_terms n g coef ca else []) branches; sns := t_sense g; rhs := t_const g |}
  else Skipped.
(* 386-447 *)
Definition volume_limit (n : net) (g : tlimit) : outcome := transmission n g (fun c => nonempty (t_named n g c)) k_length.
(* 450-521: 492-511 the weights *)
Definition cost_weight (n : net) (p : option Z) (a : asset) : Q :=
  match p with
  | Some _ => 1
  | None => if multi n then fold_right (fun p q => (if k_in a p then weight_of n p else 0) + q) 0 (sns_periods n) else 1
  end.
(* period_weighting is assigned only under n._multi_invest (472-474): UnboundLocalError otherwise *)
Definition cost_limit (n : net) (g : tlimit) : outcome :=
  if existsb (fun ca => nonempty (ext_i n (fst ca))) branches && negb (invest n) && multi n && match t_period g with None => true | Some _ => false end then Raised
  else transmission n g (fun c => nonempty (ext_i n c)) (fun a => k_capital a * cost_weight n (t_period g) a).

(* constraints.py 1023-1094 define_total_supply_constraints *)
Record supplier := { u_name : string; u_active : nat -> bool; u_min : option Q; u_max : option Q }.   (* e_sum_min (None: -inf), e_sum_max (None: inf) *)
Definition supply_terms (w : nat -> Q) (ts : list nat) (u : supplier) : lin :=
  map (fun t => (w t, if u_active u t then Some ("Generator-p", t, u_name u) else None)) ts.
Definition total_supply (w : nat -> Q) (ts : list nat) (us : list supplier) : list con :=
  flat_map (fun u => match u_min u with Some q => [{| lhs := supply_terms w ts u; sns := Ge; rhs := q |}] | None => [] end) us ++
  flat_map (fun u => match u_max u with Some q => [{| lhs := supply_terms w ts u; sns := Le; rhs := q |}] | None => [] end) us.

(* linopy: a constraint row without any term is not part of the problem *)
Definition has_term (c : con) : bool := existsb (fun cv => match snd cv with Some _ => true | None => false end) (lhs c).
Definition problem (cs : list con) : list con := filter has_term cs.
