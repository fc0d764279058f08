From Coq Require Import List String Bool QArith Arith.
From Verif Require Import ControlModel.
Import ListNotations.
Open Scope string_scope.
Open Scope list_scope.
Open Scope Q_scope.

(* What lpf and pf read from and write to the tables for one sub-network and one snapshot: set points to
   nodal injections, and the results of the solver back to buses and generators.
   pypsa/pf.py 75-125, 150-165, 320-420, 604-657, 740-820, 1464-1535. The solution of the power equations
   itself (s_calc) is a parameter here (C24, C26, C55). Values are finite. *)

(* a row of a one-port table restricted to the sub-network, with its entries of the tables p and q *)
Record one := { o_name : string; o_bus : string; o_sign : Q; o_active : bool; o_pset : Q; o_qset : Q;
                o_pnom : Q; o_popt : Q; o_p : Q; o_q : Q }.
(* link: bus and efficiency of port i (l_bus l 0 is bus0; efficiency of port 0 unused), stale table entries *)
Record lnk := { l_bus : nat -> string; l_eff : nat -> Q; l_active : bool; l_pset : Q; l_old : nat -> Q }.

Record tabs := { t_gens : list one;            (* Generator *)
                 t_rest : list (list one);     (* Load, StorageUnit, Store *)
                 t_shunts : list one;          (* ShuntImpedance, o_pset holds g_pu *)
                 t_links : list lnk; t_ports : nat }.   (* ports 0 .. t_ports *)

Definition sumq (l : list Q) : Q := fold_right Qplus 0 l.

(* pf.py 84-97, 1470-1474: active one-ports dispatch as set; the entries of inactive ones stay *)
Definition dispatch (o : one) : one :=
  if o_active o then {| o_name := o_name o; o_bus := o_bus o; o_sign := o_sign o; o_active := o_active o;
                        o_pset := o_pset o; o_qset := o_qset o; o_pnom := o_pnom o; o_popt := o_popt o;
                        o_p := o_pset o; o_q := o_qset o |}
  else o.
(* pf.py 1466-1468: shunts, active or not *)
Definition dispatch_shunt (o : one) : one :=
  {| o_name := o_name o; o_bus := o_bus o; o_sign := o_sign o; o_active := o_active o;
     o_pset := o_pset o; o_qset := o_qset o; o_pnom := o_pnom o; o_popt := o_popt o;
     o_p := o_pset o; o_q := o_q o |}.

(* groupby(bus).sum() of one class at bus b *)
Definition class_at (f : one -> Q) (b : string) (l : list one) : Q :=
  sumq (map (fun o => f o * o_sign o) (filter (fun o => String.eqb (o_bus o) b) (filter o_active l))).

(* pf.py 152-165: p0 = p_set, p_i = - p0 * efficiency_i where a bus is given; every link *)
Definition link_p (l : lnk) (i : nat) : Q :=
  match i with
  | O => l_pset l
  | S _ => if String.eqb (l_bus l i) "" then l_old l i else - l_pset l * l_eff l i
  end.
(* pf.py 113-122, 1490-1498 *)
Definition port_at (b : string) (ls : list lnk) (i : nat) : Q :=
  - sumq (map (fun l => link_p l i) (filter (fun l => String.eqb (l_bus l i) b) ls)).
Definition links_at (b : string) (t : tabs) : Q :=
  sumq (map (port_at b (t_links t)) (seq 0 (S (t_ports t)))).

(* pf.py 75-125 *)
Definition set_points (t : tabs) : tabs :=
  {| t_gens := map dispatch (t_gens t); t_rest := map (map dispatch) (t_rest t); t_shunts := t_shunts t;
     t_links := t_links t; t_ports := t_ports t |}.
Definition nodal_p (t : tabs) (b : string) : Q :=
  sumq (map (class_at o_p b) (t_gens t :: t_rest t)) + links_at b t.
Definition nodal_q (t : tabs) (b : string) : Q := sumq (map (class_at o_q b) (t_gens t :: t_rest t)).

Inductive err := KeyError | ValueError | TypeError | AttributeError | NotFinite.

Record out := { r_tabs : tabs; r_p : string -> Q; r_q : string -> Q }.

Definition add_pq (dp dq : one -> Q) (o : one) : one :=
  {| o_name := o_name o; o_bus := o_bus o; o_sign := o_sign o; o_active := o_active o;
     o_pset := o_pset o; o_qset := o_qset o; o_pnom := o_pnom o; o_popt := o_popt o;
     o_p := o_p o + dp o; o_q := o_q o + dq o |}.
Definition upd_gens (dp dq : one -> Q) (t : tabs) : tabs :=
  {| t_gens := map (add_pq dp dq) (t_gens t); t_rest := t_rest t; t_shunts := t_shunts t;
     t_links := t_links t; t_ports := t_ports t |}.

(* ---------- linear power flow, pf.py 1464-1535 ---------- *)
Definition lpf_points (t : tabs) : tabs :=
  {| t_gens := map dispatch (t_gens t); t_rest := map (map dispatch) (t_rest t);
     t_shunts := map dispatch_shunt (t_shunts t); t_links := t_links t; t_ports := t_ports t |}.
Definition lpf_nodal (t : tabs) (b : string) : Q :=
  sumq (map (class_at o_p b) (t_gens t :: t_rest t ++ [t_shunts t])) + links_at b t.

Definition lpf_out (c : controls) (t0 : tabs) : out :=
  let t := lpf_points t0 in
  let p := lpf_nodal t in
  let adj := - sumq (map p (tl (buses_o c))) - p (hd "" (buses_o c)) in
  let p' b := if String.eqb b (hd "" (buses_o c)) then p b + adj else p b in
  {| r_tabs := match slack_generator (ctl_slack c) with
               | None => t
               | Some g => upd_gens (fun o => if String.eqb (o_name o) g then adj else 0) (fun _ => 0) t
               end;
     r_p := p'; r_q := fun _ => 0 |}.

(* ---------- non-linear power flow ---------- *)
(* the column "generator" of the buses after find_bus_controls *)
Definition gen_of (n : cnet) (b : string) : option string :=
  match find (fun x => String.eqb (bname x) b) (buses n) with Some x => bgen x | None => None end.

Definition is_gen (g : option string) (o : one) : bool :=
  match g with Some g => String.eqb (o_name o) g | None => false end.

(* pf.py 813-820: Q of the slack generator and of the generators of the PV buses *)
Definition dq (c : controls) (n : cnet) (q q' : string -> Q) (o : one) : Q :=
  (if is_gen (slack_generator (ctl_slack c)) o then q' (slack_bus (ctl_slack c)) - q (slack_bus (ctl_slack c)) else 0)
  + sumq (map (fun b => if is_gen (gen_of n b) o then q' b - q b else 0) (pvs c)).

(* pf.py 745-757 *)
Definition new_q (c : controls) (sq q : string -> Q) (b : string) : Q :=
  if String.eqb b (slack_bus (ctl_slack c)) || isin b (pvs c) then sq b else q b.

(* pf.py 604-820 with distribute_slack=False; sp, sq: real and imaginary part of s_calc *)
Definition pf_out (c : controls) (n : cnet) (sp sq : string -> Q) (t0 : tabs) : out + err :=
  let t := set_points t0 in
  let p := nodal_p t in
  let q := nodal_q t in
  let sb := slack_bus (ctl_slack c) in
  let p' b := if String.eqb b sb then sp b else p b in
  let q' := new_q c sq q in
  match slack_generator (ctl_slack c) with
  | None => inr KeyError
  | Some g =>
      inl {| r_tabs := upd_gens (fun o => if String.eqb (o_name o) g then p' sb - p sb else 0) (dq c n q q') t;
             r_p := p'; r_q := q' |}
  end.

(* ---------- distributed slack ---------- *)
(* slack_weights: "p_set", "p_nom", "p_nom_opt", or a Series/dict with the name of its index *)
Inductive weighting := PSet | PNom | PNomOpt | Custom (index_name : option string) (w : list (string * Q)).

(* normed(s).fillna(0) for an entry x of a series with total s (pf.py 39-40); None is an infinity *)
Definition normed (s x : Q) : option Q :=
  if Qeq_bool s 0 then (if Qeq_bool x 0 then Some 0 else None) else Some (x / s).

Definition all_opt {A} (l : list (option A)) : option (list A) :=
  fold_right (fun o r => match o, r with Some a, Some l => Some (a :: l) | _, _ => None end) (Some []) l.

Definition bus_of (gs : list one) (g : string) : option string :=
  option_map o_bus (find (fun o => String.eqb (o_name o) g) gs).
Definition lookup (w : list (string * Q)) (x : string) : option Q :=
  option_map snd (find (fun e => String.eqb (fst e) x) w).

(* pf.py 505-517: are custom weights given for generators or for buses; all_gens are those of the network *)
Definition custom_kind (c : controls) (gs : list one) (w : list (string * Q)) : bool + err :=
  if forallb (fun e => isin (fst e) (map o_name gs)) w then inl true
  else if forallb (fun e => isin (fst e) (buses_o c)) w then inl false
  else inr ValueError.

(* pf.py 616-657: weight of bus b before normalisation; all: the generators of the whole network *)
Definition raw_weights (c : controls) (k : weighting) (all gs : list one) : (string -> Q) + err :=
  match k with
  | PSet => inl (fun b => sumq (map o_pset (filter (fun o => String.eqb (o_bus o) b) all)))
  | PNom => if forallb (fun o => Qeq_bool (o_pnom o) 0) all then inr ValueError
            else inl (fun b => sumq (map o_pnom (filter (fun o => String.eqb (o_bus o) b) all)))
  | PNomOpt => if forallb (fun o => Qeq_bool (o_popt o) 0) all then inr ValueError
               else inl (fun b => sumq (map o_popt (filter (fun o => String.eqb (o_bus o) b) all)))
  | Custom nm w =>
      match custom_kind c gs w with
      | inr e => inr e
      | inl true => match nm with
                    | None => inr TypeError           (* groupby(None) *)
                    | Some _ => inl (fun b => sumq (map snd (filter (fun e => match bus_of all (fst e) with
                                                                              | Some x => String.eqb x b
                                                                              | None => false end) w)))
                    end
      | inl false => inl (fun b => match lookup w b with Some x => x | None => 0 end)
      end
  end.
(* the weights handed to f and dfdx; None: not finite *)
Definition bus_weight (c : controls) (raw : string -> Q) (b : string) : option Q :=
  normed (sumq (map raw (buses_o c))) (raw b).

(* pf.py 783-800: shares of the generators group of one bus *)
Definition shares (c : controls) (k : weighting) (gs group : list one) : list (option Q) + err :=
  let norm (l : list Q) := map (normed (sumq l)) l in
  match k with
  | PSet => inl (norm (map o_pset group))
  | _ =>
      let by_pnom :=
        (* all(...) == 0: some entry is zero; then (1).pipe *)
        if negb (forallb (fun o => negb (Qeq_bool (o_pnom o) 0)) group) then inr AttributeError
        else inl (norm (map o_pnom group)) in
      match k with
      | Custom nm w =>
          match custom_kind c gs w with
          | inl true => match all_opt (map (fun o => lookup w (o_name o)) group) with
                        | Some l => inl (norm l)
                        | None => inr KeyError        (* .loc with a missing label *)
                        end
          | _ => by_pnom
          end
      | _ => by_pnom
      end
  end.

Fixpoint assoc_share (group : list one) (l : list (option Q)) (o : one) : option Q :=
  match group, l with
  | g :: group, x :: l => if String.eqb (o_name g) (o_name o) then x else assoc_share group l o
  | _, _ => Some 0
  end.

(* one step of the loop over buses: delta is the slack power of the bus *)
Definition slack_step (c : controls) (k : weighting) (delta : string -> Q) (gs : list one) (b : string)
  : (one -> Q) + err :=
  let group := filter (fun o => String.eqb (o_bus o) b) gs in
  match shares c k gs group with
  | inr e => inr e
  | inl l => match all_opt l with
             | None => inr NotFinite
             | Some _ => inl (fun o => match assoc_share group l o with Some x => x * delta b | None => 0 end)
             end
  end.

(* groupby("bus"): buses that have generators, sorted; the order does not matter here *)
Fixpoint dedup (l : list string) : list string :=
  match l with [] => [] | x :: r => if isin x r then dedup r else x :: dedup r end.
Fixpoint slack_loop (c : controls) (k : weighting) (delta : string -> Q) (gs : list one) (bs : list string)
  : (one -> Q) + err :=
  match bs with
  | [] => inl (fun _ => 0)
  | b :: r => match slack_step c k delta gs b with
              | inr e => inr e
              | inl d => match slack_loop c k delta gs r with
                         | inr e => inr e
                         | inl d' => inl (fun o => d o + d' o)
                         end
              end
  end.

(* pf.py 604-820 with distribute_slack=True; the solver is given the weights and returns sp, sq *)
Definition pf_out_dist (c : controls) (n : cnet) (k : weighting) (all : list one)
           (solve : (string -> Q) -> (string -> Q) * (string -> Q)) (t0 : tabs) : out + err :=
  let t := set_points t0 in
  let p := nodal_p t in
  let q := nodal_q t in
  match raw_weights c k all (t_gens t) with
  | inr e => inr e
  | inl raw =>
      match all_opt (map (bus_weight c raw) (buses_o c)) with
      | None => inr NotFinite
      | Some _ =>
          let '(sp, sq) := solve (fun b => match bus_weight c raw b with Some x => x | None => 0 end) in
          let p' b := if isin b (buses_o c) then sp b else p b in
          let q' := new_q c sq q in
          match slack_loop c k (fun b => p' b - p b) (t_gens t) (dedup (map o_bus (t_gens t))) with
          | inr e => inr e
          | inl d =>
              match slack_generator (ctl_slack c) with
              | None => inr KeyError
              | Some _ => inl {| r_tabs := upd_gens d (dq c n q q') t; r_p := p'; r_q := q' |}
              end
          end
      end
  end.

(* ---------- a sub-network of a single bus, pf.py 320-420 ---------- *)
(* pf.py 371-399; for p_nom and p_nom_opt a Series over generators is multiplied with one over snapshots: pandas
   aligns the two indices, which have no label in common (assumed here), and every product is NaN *)
Definition single_shares (k : weighting) (all group : list one) : list (option Q) + err :=
  let norm (l : list Q) := map (normed (sumq l)) l in
  match k with
  | PNom => if forallb (fun o => Qeq_bool (o_pnom o) 0) all then inr ValueError else inr NotFinite
  | PNomOpt => if forallb (fun o => Qeq_bool (o_popt o) 0) all then inr ValueError else inr NotFinite
  | PSet => if forallb (fun o => Qeq_bool (o_pset o) 0) all then inr ValueError else inl (norm (map o_pset group))
  | Custom _ _ => inr ValueError       (* Series in [...]: truth value of a Series *)
  end.

Definition pf_single (distribute : bool) (k : weighting) (c : controls) (all : list one) (t0 : tabs) : out + err :=
  let t := set_points t0 in
  let p := nodal_p t in
  let q := nodal_q t in
  let sb := slack_bus (ctl_slack c) in
  let gs := t_gens t in
  let dp :=
    if distribute then
      match gs with
      | [] => inl (fun _ : one => 0)
      | _ => match single_shares k all gs with
             | inr e => inr e
             | inl l => match all_opt l with
                        | None => inr NotFinite
                        | Some _ => inl (fun o => match assoc_share gs l o with Some x => x * - p sb | None => 0 end)
                        end
             end
      end
    else match slack_generator (ctl_slack c) with
         | None => inr KeyError
         | Some g => inl (fun o => if String.eqb (o_name o) g then - p sb else 0)
         end in
  match dp, slack_generator (ctl_slack c) with
  | inr e, _ => inr e
  | inl _, None => inr KeyError
  | inl d, Some g =>
      inl {| r_tabs := upd_gens d (fun o => if String.eqb (o_name o) g then - q sb else 0) t;
             r_p := fun b => if String.eqb b sb then 0 else p b;
             r_q := fun b => if String.eqb b sb then 0 else q b |}
  end.
