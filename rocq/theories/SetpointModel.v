From Coq Require Import List String Bool QArith Arith.
From Verif Require Import PfoutModel.
Import ListNotations.
Open Scope Q_scope.

(* optimize.py 735-747 (fix_optimal_dispatch) at one snapshot, on the tables of PfoutModel: the results of the
   optimisation become the set points of a power flow. Every one-port table gets p_set = p, the link table
   p_set = p0. p_set and p are the same DataFrame object afterwards; lpf and pf called on the network allocate
   fresh result tables first (pf.py 55-72), so the two are values here. Shunts get a p_set no one reads
   (o_pset of t_shunts is g_pu). *)
Definition fix_row (o : one) : one :=
  {| o_name := o_name o; o_bus := o_bus o; o_sign := o_sign o; o_active := o_active o;
     o_pset := o_p o; o_qset := o_qset o; o_pnom := o_pnom o; o_popt := o_popt o; o_p := o_p o; o_q := o_q o |}.
Definition fix_link (l : lnk) : lnk :=
  {| l_bus := l_bus l; l_eff := l_eff l; l_active := l_active l; l_pset := l_old l 0; l_old := l_old l |}.
Definition fix_optimal_dispatch (t : tabs) : tabs :=
  {| t_gens := map fix_row (t_gens t); t_rest := map (map fix_row) (t_rest t); t_shunts := t_shunts t;
     t_links := map fix_link (t_links t); t_ports := t_ports t |}.
