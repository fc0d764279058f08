From mathcomp Require Import all_ssreflect all_algebra.
From Coq Require Import String.
From Verif Require Import AdmitModel PerunitModel PypowerModel.
Set Implicit Arguments. Unset Strict Implicit. Unset Printing Implicit Defensive.
Import GRing.Theory Num.Theory.
Local Open Scope ring_scope.

(* Import of pandapower nets: io.py 1885-2110, exact arithmetic. Rows of the tables are kept in order; names of loads, generators
   and branches are left out. None stands for the KeyError of an unknown bus. *)
Section P.
Variable C : numClosedFieldType.
Variable pi : C.                             (* math.pi *)

Record nbus := Nbus { nb_id : nat; nb_name : string; nb_vn : C }.
Record nload := Nload { nl_bus : nat; nl_p : C; nl_q : C; nl_scaling : C }.
Record ngen := Ngen { ng_bus : nat; ng_p : C; ng_scaling : C; ng_vm : C }.
Record nsgen := Nsgen { ns_bus : nat; ns_p : C; ns_q : C; ns_scaling : C }.
Record next := Next { ne_bus : nat; ne_vm : C }.
Record nline := Nline { nn_from : nat; nn_to : nat; nn_type : string; nn_length : C; nn_r : C; nn_x : C; nn_c : C; nn_max_i : C; nn_parallel : C }.
Record ntrafo := Ntrafo { nt_hv : nat; nt_lv : nat; nt_type : option string; nt_sn : C; nt_vk : C; nt_vkr : C; nt_pfe : C; nt_i0 : C; nt_shift : C; nt_tap : option C }.
Record nshunt := Nshunt { nu_bus : nat; nu_p : C; nu_q : C; nu_vn : C }.
Record nswitch := Nswitch { nw_bus : nat; nw_element : nat; nw_et : string; nw_closed : bool }.
Record net := Net { n_bus : seq nbus; n_load : seq nload; n_gen : seq ngen; n_sgen : seq nsgen; n_ext : seq next; n_line : seq nline;
                    n_trafo : seq ntrafo; n_shunt : seq nshunt; n_switch : seq nswitch; f_hz : C }.

Fixpoint traverse {A B : Type} (f : A -> option B) (s : seq A) : option (seq B) :=
  match s with
  | [::] => Some [::]
  | a :: r => match f a, traverse f r with Some b, Some t => Some (b :: t) | _, _ => None end
  end.

Section Import.
Variables (n : net) (extra_line_data : bool).
Definition bus_at (i : nat) : option nbus := ohead [seq b <- n_bus n | nb_id b == i].
(* net.bus.name.loc[i] *)
Definition name_of (i : nat) : option string := omap nb_name (bus_at i).
(* net.bus.vn_kv.loc[i] *)
Definition vn_of (i : nat) : option C := omap nb_vn (bus_at i).

(* 1924-1937: values written one after the other *)
Definition written (ws : seq (string * C)) (x : string) (v : C) : C := last v [seq w.2 | w <- ws & String.eqb w.1 x].
Definition import_buses : option (seq (pbus C)) :=
  match traverse (fun g => omap (pair^~ (ng_vm g)) (name_of (ng_bus g))) (n_gen n), traverse (fun e => omap (pair^~ (ne_vm e)) (name_of (ne_bus e))) (n_ext n) with
  | Some gs, Some es => Some [seq Pbus (nb_name b) (nb_vn b) "PQ" (written es (nb_name b) (written gs (nb_name b) 1)) | b <- n_bus n]
  | _, _ => None
  end.
(* 1939-1946 *)
Definition import_load (l : nload) : option (pload C) := omap (fun x => Pload x (nl_scaling l * nl_p l) (nl_scaling l * nl_q l)) (name_of (nl_bus l)).
(* 1949-1980; p_nom is the default *)
Definition import_gen (g : ngen) : option (pgen C) := omap (fun x => Pgen x (ng_scaling g * ng_p g) 0 0 (Some "PV"%string)) (name_of (ng_bus g)).
Definition import_sgen (g : nsgen) : option (pgen C) := omap (fun x => Pgen x (ns_scaling g * ns_p g) (ns_scaling g * ns_q g) 0 (Some "PQ"%string)) (name_of (ns_bus g)).
Definition import_ext (g : next) : option (pgen C) := omap (fun x => Pgen x 0 0 0 (Some "Slack"%string)) (name_of (ne_bus g)).
(* 1982-1985 *)
Definition import_gens : option (seq (pgen C)) :=
  match traverse import_gen (n_gen n), traverse import_sgen (n_sgen n), traverse import_ext (n_ext n) with
  | Some a, Some b, Some c => Some (a ++ b ++ c)
  | _, _, _ => None
  end.
(* 1987-2022, with s_nom *)
Definition import_line (l : nline) : option (line C * C) :=
  match name_of (nn_from l), name_of (nn_to l), vn_of (nn_from l) with
  | Some x, Some y, Some u =>
      if extra_line_data then
        Some ({| l_bus0 := x; l_bus1 := y; l_type := ""; l_carrier := ""; l_length := nn_length l; l_par := nn_parallel l;
                 l_r := nn_r l * nn_length l; l_x := nn_x l * nn_length l; l_g := 0; l_b := nn_c l * nn_length l * 10%:R ^- 9 * 2%:R * pi * f_hz n;
                 l_v := None; l_zpu := None; l_ypu := None; l_zeff := None |}, u * nn_max_i l)
      else
        Some ({| l_bus0 := x; l_bus1 := y; l_type := nn_type l; l_carrier := ""; l_length := nn_length l; l_par := nn_parallel l;
                 l_r := 0; l_x := 0; l_g := 0; l_b := 0; l_v := None; l_zpu := None; l_ypu := None; l_zeff := None |}, 0)
  | _, _, _ => None
  end.
(* 2025: a name counts unless it is empty *)
Definition by_type : bool := has (fun t => if nt_type t is Some s then ~~ String.eqb s "" else false) (n_trafo n).
(* 2025-2070; NaN is filled with 0, also in the column type *)
Definition import_trafo (t : ntrafo) : option (transformer C) :=
  match name_of (nt_hv t), name_of (nt_lv t) with
  | Some x, Some y =>
      let tap := odflt 0 (nt_tap t) in
      if by_type then
        Some {| tr_bus0 := x; tr_bus1 := y; tr_type := odflt "0"%string (nt_type t); tr_model := "t"; tr_par := 1; tr_pos := tap; tr_r := 0; tr_x := Some 0; tr_g := 0;
                tr_b := 0; tr_s := 0; tr_shift := 0; tr_side := 0; tr_tap := 1; tr_zpu := None; tr_ypu := None; tr_zeff := None |}
      else
        let z := nt_vk t / 100%:R / nt_sn t in let r := nt_vkr t / 100%:R / nt_sn t in
        let y_ := nt_i0 t / 100%:R in let g := nt_pfe t / nt_sn t / 1000%:R / nt_sn t in
        Some {| tr_bus0 := x; tr_bus1 := y; tr_type := ""; tr_model := "t"; tr_par := 1; tr_pos := tap; tr_r := r; tr_x := Some (odflt 0 (sqrt (z ^+ 2 - r ^+ 2)));
                tr_g := g; tr_b := odflt 0 (sqrt (y_ ^+ 2 - g ^+ 2)); tr_s := nt_sn t; tr_shift := nt_shift t; tr_side := 0; tr_tap := 1;
                tr_zpu := None; tr_ypu := None; tr_zeff := None |}
  | _, _ => None
  end.
(* 2073-2083 *)
Definition import_shunt (s : nshunt) : option (shunt C) :=
  omap (fun x => {| sh_bus := x; sh_g := nu_p s / nu_vn s ^+ 2; sh_b := nu_q s / nu_vn s ^+ 2; sh_ypu := None |}) (name_of (nu_bus s)).
(* 2085-2092 *)
Definition added : option (imported C) :=
  match import_buses, traverse import_load (n_load n), import_gens, traverse import_line (n_line n), traverse import_trafo (n_trafo n), traverse import_shunt (n_shunt n) with
  | Some bs, Some ls, Some gs, Some ns, Some ts, Some ss =>
      Some {| p_buses := bs; p_loads := ls; p_gens := gs; p_lines := [seq x.1 | x <- ns]; p_rates := [seq x.2 | x <- ns]; p_trafos := ts; p_shunts := ss |}
  | _, _, _, _, _, _ => None
  end.

(* 2096-2101: pairs of the bus that goes and the bus that stays *)
Definition to_replace : option (seq (string * string)) :=
  traverse (fun s => match name_of (nw_bus s), name_of (nw_element s) with Some a, Some b => Some (b, a) | _, _ => None end)
           [seq s <- n_switch n | String.eqb (nw_et s) "b" && nw_closed s].
(* 2103-2104; KeyError when a name is gone already *)
Fixpoint remove_buses (xs : seq string) (bs : seq (pbus C)) : option (seq (pbus C)) :=
  match xs with
  | [::] => Some bs
  | x :: r => if has (fun b => String.eqb (pb_name b) x) bs then remove_buses r [seq b <- bs | ~~ String.eqb (pb_name b) x] else None
  end.
(* 2106-2111: all values are replaced at once *)
Definition moved (rs : seq (string * string)) (x : string) : string := last x [seq w.2 | w <- rs & String.eqb w.1 x].
Definition move_line rs (l : line C) : line C :=
  {| l_bus0 := moved rs (l_bus0 l); l_bus1 := moved rs (l_bus1 l); l_type := l_type l; l_carrier := l_carrier l; l_length := l_length l; l_par := l_par l;
     l_r := l_r l; l_x := l_x l; l_g := l_g l; l_b := l_b l; l_v := l_v l; l_zpu := l_zpu l; l_ypu := l_ypu l; l_zeff := l_zeff l |}.
Definition move_trafo rs (a : transformer C) : transformer C :=
  {| tr_bus0 := moved rs (tr_bus0 a); tr_bus1 := moved rs (tr_bus1 a); tr_type := tr_type a; tr_model := tr_model a; tr_par := tr_par a; tr_pos := tr_pos a;
     tr_r := tr_r a; tr_x := tr_x a; tr_g := tr_g a; tr_b := tr_b a; tr_s := tr_s a; tr_shift := tr_shift a; tr_side := tr_side a; tr_tap := tr_tap a;
     tr_zpu := tr_zpu a; tr_ypu := tr_ypu a; tr_zeff := tr_zeff a |}.
Definition amalgamate (rs : seq (string * string)) (p : imported C) : option (imported C) :=
  omap (fun bs =>
    {| p_buses := bs; p_loads := [seq Pload (moved rs (pl_bus l)) (pl_p l) (pl_q l) | l <- p_loads p];
       p_gens := [seq Pgen (moved rs (pg_bus g)) (pg_p g) (pg_q g) (pg_nom g) (pg_control g) | g <- p_gens p];
       p_lines := [seq move_line rs l | l <- p_lines p]; p_rates := p_rates p; p_trafos := [seq move_trafo rs a | a <- p_trafos p];
       p_shunts := [seq {| sh_bus := moved rs (sh_bus s); sh_g := sh_g s; sh_b := sh_b s; sh_ypu := sh_ypu s |} | s <- p_shunts p] |})
   (remove_buses [seq w.1 | w <- rs] (p_buses p)).
Definition import_from_pandapower_net : option (imported C) :=
  match added, to_replace with Some p, Some rs => amalgamate rs p | _, _ => None end.
End Import.
End P.
