From mathcomp Require Import all_ssreflect all_algebra.
From Coq Require Import String.
From Verif Require Import AdmitModel PerunitModel.
Set Implicit Arguments. Unset Strict Implicit. Unset Printing Implicit Defensive.
Import GRing.Theory Num.Theory.
Local Open Scope ring_scope.

(* Import of PYPOWER cases: io.py 1674-1882, exact arithmetic. The integer numbers of the buses stand as their names. Columns that
   nothing in PyPSA reads (area, zone, rateB, status, ...) are left out. Dividing by a rating of 0 gives 0 here, inf or NaN there. *)
Section P.
Variable C : numClosedFieldType.

(* rows of the tables of a case, pypower/idx_bus, idx_gen, idx_brch *)
Record mbus := Mbus { mb_name : string; mb_type : nat; mb_pd : C; mb_qd : C; mb_gs : C; mb_bs : C; mb_vm : C; mb_kv : C }.
Record mgen := Mgen { mg_bus : string; mg_p : C; mg_q : C; mg_v : C; mg_pmax : C }.
Record mbranch := Mbranch { mr_from : string; mr_to : string; mr_r : C; mr_x : C; mr_b : C; mr_rate : C; mr_ratio : C; mr_angle : C }.
Record case := Case { base : C; mbuses : seq mbus; mgens : seq mgen; mbranches : seq mbranch }.

Record pbus := Pbus { pb_name : string; pb_v : C; pb_control : string; pb_vset : C }.
Record pload := Pload { pl_bus : string; pl_p : C; pl_q : C }.
Record pgen := Pgen { pg_bus : string; pg_p : C; pg_q : C; pg_nom : C; pg_control : option string }.
Record imported := Imported { p_buses : seq pbus; p_loads : seq pload; p_gens : seq pgen;
                              p_lines : seq (line C); p_rates : seq C;        (* s_nom of the lines *)
                              p_trafos : seq (transformer C); p_shunts : seq (shunt C) }.

(* 1733-1737 *)
Definition v_nom (b : mbus) : C := if mb_kv b == 0 then 1 else mb_kv b.
(* 1740-1741; None is the IndexError *)
Definition control (b : mbus) : option string := nth None [seq Some c | c <- [:: ""; "PQ"; "PV"; "Slack"]%string] (mb_type b).
Fixpoint controlled (bs : seq mbus) : option (seq pbus) :=
  match bs with
  | [::] => Some [::]
  | b :: r => match control b, controlled r with
              | Some c, Some s => Some ({| pb_name := mb_name b; pb_v := v_nom b; pb_control := c; pb_vset := mb_vm b |} :: s)
              | _, _ => None
              end
  end.
(* 1744-1749 *)
Definition load_of (b : mbus) : pload := {| pl_bus := mb_name b; pl_p := mb_pd b; pl_q := mb_qd b |}.
Definition loads_of (bs : seq mbus) : seq pload := [seq load_of b | b <- bs & (mb_pd b != 0) || (mb_qd b != 0)].
(* 1753-1764 *)
Definition shunt_of (b : mbus) : shunt C := {| sh_bus := mb_name b; sh_g := mb_gs b / v_nom b ^+ 2; sh_b := mb_bs b / v_nom b ^+ 2; sh_ypu := None |}.
Definition shunts_of (bs : seq mbus) : seq (shunt C) := [seq shunt_of b | b <- bs & (mb_gs b != 0) || (mb_bs b != 0)].
(* 1772-1784, 1879 *)
Definition gen_of (bs : seq pbus) (g : mgen) : pgen :=
  {| pg_bus := mg_bus g; pg_p := mg_p g; pg_q := mg_q g; pg_nom := mg_pmax g; pg_control := omap pb_control (named pb_name (mg_bus g) bs) |}.
(* 1882: the last generator at a bus *)
Definition voltage (gs : seq mgen) (b : pbus) : pbus :=
  {| pb_name := pb_name b; pb_v := pb_v b; pb_control := pb_control b;
     pb_vset := last (pb_vset b) [seq mg_v g | g <- gs & String.eqb (mg_bus g) (pb_name b)] |}.

Section Branches.
Variables (k : case) (overwrite : option C).
(* 1805-1812 *)
Definition rating (r : mbranch) : C := if mr_rate r == 0 then odflt (mr_rate r) overwrite else mr_rate r.
(* 1815-1816 *)
Definition level_of (x : string) : option C := omap v_nom (named mb_name x (mbuses k)).
(* 1819-1825; a comparison with NaN by != is true *)
Definition is_transformer (r : mbranch) : bool :=
  (match level_of (mr_from r), level_of (mr_to r) with Some a, Some b => a != b | _, _ => true end)
  || ((mr_ratio r != 0) && (mr_ratio r != 1)) || (mr_angle r != 0).
(* 1832-1840, 1847-1853; other columns take the defaults of transformers.csv *)
Definition trafo_of (r : mbranch) : transformer C :=
  {| tr_bus0 := mr_from r; tr_bus1 := mr_to r; tr_type := ""; tr_model := "t"; tr_par := 1; tr_pos := 0;
     tr_r := mr_r r * rating r / base k; tr_x := Some (mr_x r * rating r / base k); tr_g := 0; tr_b := mr_b r * base k / rating r; tr_s := rating r;
     tr_shift := mr_angle r; tr_side := 0; tr_tap := if mr_ratio r == 0 then 1 else mr_ratio r;
     tr_zpu := None; tr_ypu := None; tr_zeff := None |}.
(* 1843-1845 *)
Definition line_of (r : mbranch) : line C :=
  let v := odflt 0 (level_of (mr_from r)) in
  {| l_bus0 := mr_from r; l_bus1 := mr_to r; l_type := ""; l_carrier := ""; l_length := 0; l_par := 1;
     l_r := v ^+ 2 * mr_r r / base k; l_x := v ^+ 2 * mr_x r / base k; l_g := 0; l_b := mr_b r * base k / v ^+ 2;
     l_v := None; l_zpu := None; l_ypu := None; l_zeff := None |}.

(* 1674-1882 *)
Definition import_from_pypower_ppc : option imported :=
  match controlled (mbuses k) with
  | None => None
  | Some bs => Some
      {| p_buses := [seq voltage (mgens k) b | b <- bs]; p_loads := loads_of (mbuses k); p_gens := [seq gen_of bs g | g <- mgens k];
         p_lines := [seq line_of r | r <- mbranches k & ~~ is_transformer r]; p_rates := [seq rating r | r <- mbranches k & ~~ is_transformer r];
         p_trafos := [seq trafo_of r | r <- mbranches k & is_transformer r]; p_shunts := shunts_of (mbuses k) |}
  end.
End Branches.

(* what calculate_dependent_values works on; carrier of buses is AC by default *)
Definition as_network (p : imported) : network C :=
  {| buses := [seq Bus (pb_name b) (pb_v b) "AC" | b <- p_buses p]; line_types := [::]; transformer_types := [::];
     lines := p_lines p; transformers := p_trafos p; shunts := p_shunts p; links := [::]; stores := [::] |}.
End P.
