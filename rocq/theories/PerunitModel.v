From mathcomp Require Import all_ssreflect all_algebra.
From Coq Require Import String.
From Verif Require Import AdmitModel.
Set Implicit Arguments. Unset Strict Implicit. Unset Printing Implicit Defensive.
Import GRing.Theory Num.Theory.
Local Open Scope ring_scope.

(* Standard types and per-unit values: pf.py 848-937, 990-1027, exact arithmetic. Real columns are elements of C. As in
   AdmitModel the columns (r_pu, x_pu), (g_pu, b_pu) and (r_pu_eff, x_pu_eff) are kept as one complex number each.
   None stands for NaN. *)
Section P.
Variable C : numClosedFieldType.
Variable pi : C.                             (* np.pi *)

Record bus := Bus { bus_name : string; bus_v : C; bus_carrier : string }.
Record ltype := Ltype { lt_name : string; lt_f : C; lt_r : C; lt_x : C; lt_c : C }.   (* f_nom, r_per_length, ... *)
Record ttype := Ttype { tt_name : string; tt_s : C; tt_vsc : C; tt_vscr : C; tt_pfe : C; tt_i0 : C;
                        tt_shift : C; tt_side : nat; tt_neutral : C; tt_step : C }.
Record line := Line { l_bus0 : string; l_bus1 : string; l_type : string; l_carrier : string;
                      l_length : C; l_par : C; l_r : C; l_x : C; l_g : C; l_b : C;
                      l_v : option C; l_zpu : option C; l_ypu : option C; l_zeff : option C }.
Record transformer := Transformer { tr_bus0 : string; tr_bus1 : string; tr_type : string; tr_model : string;
                      tr_par : C; tr_pos : C; tr_r : C; tr_x : option C; tr_g : C; tr_b : C; tr_s : C;
                      tr_shift : C; tr_side : nat; tr_tap : C;
                      tr_zpu : option C; tr_ypu : option C; tr_zeff : option C }.
Record shunt := Shunt { sh_bus : string; sh_g : C; sh_b : C; sh_ypu : option C }.
(* a link or a store: its bus0 or bus, and its carrier *)
Record other := Other { o_bus : string; o_carrier : string }.
Record network := Network { buses : seq bus; line_types : seq ltype; transformer_types : seq ttype;
                            lines : seq line; transformers : seq transformer; shunts : seq shunt;
                            links : seq other; stores : seq other }.

(* Series.map, DataFrame.join(on=...): the row of that name *)
Definition named {A : Type} (name : A -> string) (x : string) (s : seq A) : option A := ohead [seq a <- s | String.eqb (name a) x].
(* np.sqrt *)
Definition sqrt (x : C) : option C := if 0 <= x then Some (sqrtC x) else None.

(* 869-890 *)
Definition typed_line (t : ltype) (l : line) : line :=
  {| l_bus0 := l_bus0 l; l_bus1 := l_bus1 l; l_type := l_type l; l_carrier := l_carrier l; l_length := l_length l; l_par := l_par l;
     l_r := lt_r t * l_length l / l_par l; l_x := lt_x t * l_length l / l_par l; l_g := l_g l;
     l_b := 2%:R * pi * 10%:R ^- 9 * lt_f t * lt_c t * l_length l * l_par l;
     l_v := l_v l; l_zpu := l_zpu l; l_ypu := l_ypu l; l_zeff := l_zeff l |}.
(* 849-890; None is the ValueError *)
Fixpoint apply_line_types (ts : seq ltype) (ls : seq line) : option (seq line) :=
  match ls with
  | [::] => Some [::]
  | l :: r =>
      match (if String.eqb (l_type l) "" then Some l else omap (typed_line^~ l) (named lt_name (l_type l) ts)), apply_line_types ts r with
      | Some a, Some b => Some (a :: b)
      | _, _ => None
      end
  end.

(* 912-937 *)
Definition typed_transformer (t : ttype) (a : transformer) : transformer :=
  let r := tt_vscr t / 100%:R in
  let x := sqrt ((tt_vsc t / 100%:R) ^+ 2 - r ^+ 2) in
  let g := tt_pfe t / (1000%:R * tt_s t) in
  let d := (tt_i0 t / 100%:R) ^+ 2 - g ^+ 2 in
  let b := - sqrtC (if 0 <= d then d else 0) in                          (* clip(lower=0) *)
  {| tr_bus0 := tr_bus0 a; tr_bus1 := tr_bus1 a; tr_type := tr_type a; tr_model := tr_model a; tr_par := tr_par a; tr_pos := tr_pos a;
     tr_r := r / tr_par a; tr_x := omap (fun x => x / tr_par a) x; tr_g := g * tr_par a; tr_b := b * tr_par a; tr_s := tt_s t;
     tr_shift := tt_shift t; tr_side := tt_side t; tr_tap := 1 + (tr_pos a - tt_neutral t) * (tt_step t / 100%:R);
     tr_zpu := tr_zpu a; tr_ypu := tr_ypu a; tr_zeff := tr_zeff a |}.
(* 894-937 *)
Fixpoint apply_transformer_types (ts : seq ttype) (s : seq transformer) : option (seq transformer) :=
  match s with
  | [::] => Some [::]
  | a :: r =>
      match (if String.eqb (tr_type a) "" then Some a else omap (typed_transformer^~ a) (named tt_name (tr_type a) ts)), apply_transformer_types ts r with
      | Some a, Some b => Some (a :: b)
      | _, _ => None
      end
  end.

(* 999, 1022, 1024 *)
Definition filled (bs : seq bus) (b carrier : string) : option string :=
  if String.eqb carrier "" then omap bus_carrier (named bus_name b bs) else Some carrier.

(* 998-1006 *)
Definition line_values (bs : seq bus) (l : line) : line :=
  let v := omap bus_v (named bus_name (l_bus0 l) bs) in
  {| l_bus0 := l_bus0 l; l_bus1 := l_bus1 l; l_type := l_type l;
     l_carrier := odflt ""%string (filled bs (l_bus0 l) (l_carrier l));     (* NaN, if the bus is unknown, is not modelled *)
     l_length := l_length l; l_par := l_par l; l_r := l_r l; l_x := l_x l; l_g := l_g l; l_b := l_b l;
     l_v := v; l_zpu := omap (fun v => l_r l / v ^+ 2 + 'i * (l_x l / v ^+ 2)) v;
     l_ypu := omap (fun v => l_g l * v ^+ 2 + 'i * (l_b l * v ^+ 2)) v;
     l_zeff := omap (fun v => l_r l / v ^+ 2 + 'i * (l_x l / v ^+ 2)) v |}.
(* 1009-1016 *)
Definition transformer_values (a : transformer) : transformer :=
  let z := omap (fun x => tr_r a / tr_s a + 'i * (x / tr_s a)) (tr_x a) in
  let y := tr_g a * tr_s a + 'i * (tr_b a * tr_s a) in
  let pi_ := omap (fun z => t_to_pi {| t_model := tr_model a; t_z := z; t_y := y |}) z in
  {| tr_bus0 := tr_bus0 a; tr_bus1 := tr_bus1 a; tr_type := tr_type a; tr_model := tr_model a; tr_par := tr_par a; tr_pos := tr_pos a;
     tr_r := tr_r a; tr_x := tr_x a; tr_g := tr_g a; tr_b := tr_b a; tr_s := tr_s a; tr_shift := tr_shift a; tr_side := tr_side a; tr_tap := tr_tap a;
     tr_zpu := omap (@t_z C) pi_; tr_ypu := omap (@t_y C) pi_;
     tr_zeff := omap (fun x => tr_r a / tr_s a * tr_tap a + 'i * (x / tr_s a * tr_tap a)) (tr_x a) |}.
(* 1018-1020 *)
Definition shunt_values (bs : seq bus) (s : shunt) : shunt :=
  {| sh_bus := sh_bus s; sh_g := sh_g s; sh_b := sh_b s;
     sh_ypu := omap (fun v => sh_g s * v ^+ 2 + 'i * (sh_b s * v ^+ 2)) (omap bus_v (named bus_name (sh_bus s) bs)) |}.
(* 1022, 1024 *)
Definition other_values (bs : seq bus) (o : other) : other :=
  {| o_bus := o_bus o; o_carrier := odflt ""%string (filled bs (o_bus o) (o_carrier o)) |}.

(* 990-1024 *)
Definition calculate_dependent_values (n : network) : option network :=
  match apply_line_types (line_types n) (lines n), apply_transformer_types (transformer_types n) (transformers n) with
  | Some ls, Some ts => Some
      {| buses := buses n; line_types := line_types n; transformer_types := transformer_types n;
         lines := [seq line_values (buses n) l | l <- ls]; transformers := [seq transformer_values a | a <- ts];
         shunts := [seq shunt_values (buses n) s | s <- shunts n];
         links := [seq other_values (buses n) o | o <- links n]; stores := [seq other_values (buses n) o | o <- stores n] |}
  | _, _ => None
  end.

(* the branches calculate_Y sees (pf.py 1203-1243): no tap for a line; ps is exp(1j phase_shift pi / 180) *)
Definition line_branch n (i0 i1 : 'I_n) (l : line) : option (branch C n) :=
  match l_zpu l, l_ypu l with
  | Some z, Some y => Some {| b0 := i0; b1 := i1; z := z; ysh := y; tap := None; side := None; ps := 1 |}
  | _, _ => None
  end.
Definition transformer_branch n (i0 i1 : 'I_n) (ps : C) (a : transformer) : option (branch C n) :=
  match tr_zpu a, tr_ypu a with
  | Some z, Some y => Some {| b0 := i0; b1 := i1; z := z; ysh := y; tap := Some (tr_tap a); side := Some (tr_side a); ps := ps |}
  | _, _ => None
  end.
End P.
