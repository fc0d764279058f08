From Coq Require Import List String Bool QArith Arith.
From Verif Require Import ControlModel LinModel BalanceModel BalanceSpec AssignModel PfoutModel PfoutSpec.
Import ListNotations.
Open Scope string_scope.
Open Scope list_scope.
Open Scope Q_scope.

Section R.
Variable n : net.
Variable x : sol.               (* the optimum *)
Variable sns : nat -> bool.     (* the snapshots it was computed for *)
Variable t : nat.
Variable bs : list string.      (* the buses of one sub-network *)

Definition inb (b : string) : bool := if in_dec string_dec b bs then true else false.

(* row o of a table is component c and reports the series p of it; a component that is active at t is not
   switched off *)
Definition row_of (c : comp) (o : one) : Prop :=
  o_name o = c_name c /\ o_bus o = c_bus c /\ o_sign o == c_sign c /\ (c_active c t = true -> o_active o = true).
Definition gen_row (c : comp) (o : one) : Prop :=
  row_of c o /\ exists prev, o_p o == num (one_port x sns "Generator-p" c prev) t.
Definition store_row (c : comp) (o : one) : Prop :=
  row_of c o /\ exists prev, o_p o == num (one_port x sns "Store-p" c prev) t.
Definition unit_row (c : comp) (o : one) : Prop :=
  row_of c o /\ exists pd ps, o_p o == num (unit_power x sns c pd ps) t.
Definition load_row (d : load) (o : one) : Prop :=
  o_bus o = d_bus d /\ o_sign o == d_sign d /\ o_active o = d_active d /\
  exists prev, o_p o == num (load_power sns d prev) t.
Definition link_row (ports : nat) (l : link) (k : lnk) : Prop :=
  PfoutModel.l_bus k 0 = l_bus0 l /\
  Forall2 (fun i pe => PfoutModel.l_bus k i = fst pe /\ PfoutModel.l_eff k i == snd pe t)
    (seq 1 ports) ((l_bus1 l, l_eff1 l) :: l_ports l) /\
  exists prev, l_old k 0 == num (link_p0 x sns l prev) t.

(* the tables of the sub-network after n.optimize() *)
Definition reported (tb : tabs) : Prop :=
  Forall2 gen_row (filter (fun c => inb (c_bus c)) (gens n)) (t_gens tb) /\
  (exists ls us ss, t_rest tb = [ls; us; ss] /\
     Forall2 load_row (filter (fun d => inb (d_bus d)) (loads n)) ls /\
     Forall2 unit_row (filter (fun c => inb (c_bus c)) (units n)) us /\
     Forall2 store_row (filter (fun c => inb (c_bus c)) (stores n)) ss) /\
  Forall2 (link_row (t_ports tb)) (links n) (t_links tb).

(* no active branch leaves the sub-network *)
Definition closed : Prop :=
  forall br, In br (lines n ++ trafos n) -> b_active br t = true -> (In (b_bus0 br) bs <-> In (b_bus1 br) bs).

(* what the branches take away from bus b in the optimum *)
Definition leaving (v b : string) (br : branch) : Q :=
  at_bus (b_bus0 br) b (flow x t v br) - at_bus (b_bus1 br) b (flow x t v br).
Definition taken (b : string) : Q :=
  total (leaving "Line-s" b) (lines n) + total (leaving "Transformer-s" b) (trafos n).
(* half of the losses of a branch is drawn at either end *)
Definition half (lv b : string) (br : branch) : Q :=
  (1#2) * (at_bus (b_bus0 br) b (flow x t lv br) + at_bus (b_bus1 br) b (flow x t lv br)).
Definition lost_at (losses : bool) (b : string) : Q :=
  if losses then total (half "Line-loss" b) (lines n) + total (half "Transformer-loss" b) (trafos n) else 0.
(* losses of the branches of the sub-network *)
Definition loss_in (losses : bool) : Q :=
  if losses then total (flow x t "Line-loss") (filter (fun br => inb (b_bus0 br)) (lines n)) +
                 total (flow x t "Transformer-loss") (filter (fun br => inb (b_bus0 br)) (trafos n)) else 0.
End R.

(* shunts that draw no active power *)
Definition no_conductance (tb : tabs) : Prop := forall o, In o (t_shunts tb) -> o_pset o == 0.
(* active power reported for every row afterwards *)
Definition same_p (before after : list one) : Prop :=
  Forall2 (fun o o' => o_name o' = o_name o /\ o_bus o' = o_bus o /\ o_p o' == o_p o) before after.

(* the passive branches of the sub-network, with the name of their flow variable *)
Definition sub_branches (n : net) (bs : list string) : list (string * branch) :=
  filter (fun vb => inb bs (b_bus0 (snd vb))) (map (pair "Line-s") (lines n) ++ map (pair "Transformer-s") (trafos n)).

(* one sub-network s of a network n0 with generators that are switched on and count positively, whose bus
   controls c were found, with the tables tb holding the optimum x of n for snapshot t *)
Definition optimised (s : string) (n0 nc : cnet) (c : controls) (n : net) (losses : bool) (x : sol) (sns : nat -> bool)
    (t : nat) (tb : tabs) : Prop :=
  NoDup (map gname (ControlModel.gens n0)) /\ NoDup (map bname (ControlModel.buses n0)) /\
  ~ In "" (map bname (ControlModel.buses n0)) /\ find_bus_controls s n0 = inl (nc, c) /\
  t_gens tb <> [] /\ gens_of s n0 (t_gens tb) /\ (forall o, In o (t_gens tb) -> plain o) /\
  sns t = true /\ reported n x sns t (buses_o c) tb /\ closed n t (buses_o c) /\
  forall b, In b (buses_o c) -> net_power n losses x t b == demand n t b.

(* active power of every generator, lowered by q for the slack generator *)
Definition slack_lowered (c : controls) (q : Q) (before after : list one) : Prop :=
  Forall2 (fun o o' => o_name o' = o_name o /\ o_bus o' = o_bus o /\
     o_p o' == o_p o - (match slack_generator (ctl_slack c) with
                        | Some g => if String.eqb (o_name o) g then q else 0
                        | None => 0 end)) before after.

(* only the active set point changes, to the reported power *)
Definition fixed_one (o o' : one) : Prop :=
  o_pset o' = o_p o /\ o_name o' = o_name o /\ o_bus o' = o_bus o /\ o_sign o' = o_sign o /\ o_active o' = o_active o /\
  o_qset o' = o_qset o /\ o_pnom o' = o_pnom o /\ o_popt o' = o_popt o /\ o_p o' = o_p o /\ o_q o' = o_q o.
Definition fixed_link (l l' : lnk) : Prop :=
  PfoutModel.l_pset l' = l_old l 0 /\ PfoutModel.l_bus l' = PfoutModel.l_bus l /\ PfoutModel.l_eff l' = PfoutModel.l_eff l /\
  PfoutModel.l_active l' = PfoutModel.l_active l /\ l_old l' = l_old l.
