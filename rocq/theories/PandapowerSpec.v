From mathcomp Require Import all_ssreflect all_algebra.
From Coq Require Import String Relations.
From Verif Require Import AdmitModel PerunitModel PerunitSpec PypowerModel PandapowerModel.
Set Implicit Arguments. Unset Strict Implicit. Unset Printing Implicit Defensive.
Import GRing.Theory Num.Theory.
Local Open Scope ring_scope.

Section S.
Variable C : numClosedFieldType.
Implicit Type n : net C.

Definition own_ids n : Prop := List.NoDup (List.map (@nb_id C) (n_bus n)) /\ List.NoDup (List.map (@nb_name C) (n_bus n)).
Definition at_bus n (i : nat) (x : string) : Prop := exists b, [/\ List.In b (n_bus n), nb_id b = i & nb_name b = x].
(* a closed switch between buses merges x into y *)
Definition joined n (x y : string) : Prop :=
  exists s, [/\ List.In s (n_switch n), nw_et s = "b"%string & nw_closed s = true] /\ at_bus n (nw_element s) x /\ at_bus n (nw_bus s) y.
Definition no_chain n : Prop := forall x y z, joined n x y -> ~ joined n y z.
Definition stays n (y : string) : Prop := (exists i, at_bus n i y) /\ forall z, ~ joined n y z.
(* where an element at bus i is found: at a bus that stays, joined with its own *)
Definition placed n (i : nat) (y : string) : Prop := exists x, [/\ at_bus n i x, clos_refl_sym_trans _ (joined n) x y & stays n y].

(* buses referred to *)
Definition switches n : seq nswitch := [seq s <- n_switch n | String.eqb (nw_et s) "b" && nw_closed s].
Definition references n : seq nat :=
  [seq nl_bus l | l <- n_load n] ++ [seq ng_bus g | g <- n_gen n] ++ [seq ns_bus g | g <- n_sgen n] ++ [seq ne_bus g | g <- n_ext n] ++ [seq nn_from l | l <- n_line n] ++
  [seq nn_to l | l <- n_line n] ++ [seq nt_hv t | t <- n_trafo n] ++ [seq nt_lv t | t <- n_trafo n] ++ [seq nu_bus s | s <- n_shunt n] ++
  [seq nw_bus s | s <- switches n] ++ [seq nw_element s | s <- switches n].

(* voltage set point: last external grid, else last generator, else 1 *)
Definition last_at {A : Type} (id : A -> nat) (i : nat) (s : seq A) (a : A) : Prop := exists s0 s1, [/\ s = s0 ++ a :: s1, id a = i & forall c, List.In c s1 -> id c <> i].
Definition held n (b : nbus C) (v : C) : Prop :=
  (exists2 e, last_at (@ne_bus C) (nb_id b) (n_ext n) e & v = ne_vm e) \/
  (forall e, List.In e (n_ext n) -> ne_bus e <> nb_id b) /\
  ((exists2 g, last_at (@ng_bus C) (nb_id b) (n_gen n) g & v = ng_vm g) \/ (forall g, List.In g (n_gen n) -> ng_bus g <> nb_id b) /\ v = 1).

(* what a line of pandapower is: parallel systems in Ohm, Siemens; its apparent power limit in MVA *)
Definition line_z (l : nline C) : C := (nn_r l + 'i * nn_x l) * nn_length l / nn_parallel l.
Definition line_y (pi : C) n (l : nline C) : C := 'i * (2%:R * pi * f_hz n * nn_c l * 10%:R ^- 9) * nn_length l * nn_parallel l.
Definition line_limit (u : C) (l : nline C) : C := sqrtC 3%:R * u * nn_max_i l * nn_parallel l.
(* its name plate *)
Definition plate_of (t : ntrafo C) : ttype C := Ttype "" (nt_sn t) (nt_vk t) (nt_vkr t) (nt_pfe t) (nt_i0 t) (nt_shift t) 0 0 0.
End S.
