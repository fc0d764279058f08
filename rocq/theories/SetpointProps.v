From Coq Require Import List String Bool QArith Arith.
From Verif Require Import ControlModel LinModel BalanceModel BalanceSpec AssignModel PfoutModel PfoutSpec SetpointModel SetpointSpec SetpointProofs.
Import ListNotations.
Open Scope string_scope.
Open Scope list_scope.
Open Scope Q_scope.

(* ---------- C67: the optimised dispatch as set points of a power flow ---------- *)
(* all rows get the reported power as set point, links that of their first bus; reactive set points and everything else stay *)
Theorem C67_tables tb : let tb' := fix_optimal_dispatch tb in
  Forall2 fixed_one (t_gens tb) (t_gens tb') /\ Forall2 (Forall2 fixed_one) (t_rest tb) (t_rest tb') /\ Forall2 fixed_link (t_links tb) (t_links tb') /\
  t_shunts tb' = t_shunts tb /\ t_ports tb' = t_ports tb.
Proof. exact (fixed_tables tb). Qed.
Print Assumptions C67_tables.
(* at every bus the set points add up to what the branches take away in the optimum *)
Theorem C67_set_points n losses x sns t bs tb T cols thr cs b :
  nodal_balance n losses T cols thr = Some cs -> (forall b, In b (meshed cols thr) -> In b (BalanceModel.buses n)) ->
  sat x cs -> (t < T)%nat -> sns t = true -> reported n x sns t bs tb ->
  (forall b, In b bs -> In b (BalanceModel.buses n)) -> In b bs -> b <> "" ->
  set_p (fix_optimal_dispatch tb) b == taken n x t b + lost_at n x t losses b.
Proof.
  exact (fun B MM SA LT St R IB I NE =>
    fixed_set_points n x sns t St bs tb losses b R I NE (balance_of n losses x T cols thr cs t bs B MM SA LT IB b I)).
Qed.
Print Assumptions C67_set_points.

(* lpf: same injections and same dispatch as in the optimum *)
Theorem C67_linear s n0 nc c n x sns t tb :
  optimised s n0 nc c n false x sns t tb -> no_conductance tb ->
  let r := lpf_out c (fix_optimal_dispatch tb) in
  (forall b, In b (buses_o c) -> r_p r b == taken n x t b) /\
  same_p (t_gens tb) (t_gens (r_tabs r)) /\ Forall2 same_p (t_rest tb) (t_rest (r_tabs r)).
Proof. exact (fixed_lpf_lossless s n0 nc c n x sns t tb). Qed.
Print Assumptions C67_linear.

(* with losses in the optimisation the slack generator gives up exactly the losses of the sub-network *)
Theorem C67_linear_losses s n0 nc c n losses x sns t tb :
  optimised s n0 nc c n losses x sns t tb -> no_conductance tb ->
  let r := lpf_out c (fix_optimal_dispatch tb) in
  (forall b, In b (buses_o c) -> r_p r b == taken n x t b + lost_at n x t losses b -
     (if String.eqb b (slack_bus (ctl_slack c)) then loss_in n x t (buses_o c) losses else 0)) /\
  slack_lowered c (loss_in n x t (buses_o c) losses) (t_gens tb) (t_gens (r_tabs r)) /\
  Forall2 same_p (t_rest tb) (t_rest (r_tabs r)).
Proof. exact (fixed_lpf s n0 nc c n losses x sns t tb). Qed.
Print Assumptions C67_linear_losses.

(* pf with any solution (sp, sq) of the equations: injections of the optimum at all buses but the slack bus,
   dispatch of the optimum for all generators but the slack generator *)
Theorem C67_nonlinear s n0 nc c n losses x sns t tb sp sq tol :
  optimised s n0 nc c n losses x sns t tb -> 0 <= tol ->
  (forall b, In b (pvs c ++ pqs c) -> close tol (sp b) (set_p (fix_optimal_dispatch tb) b)) ->
  exists r, pf_out c nc sp sq (fix_optimal_dispatch tb) = inl r /\
    (forall b, In b (buses_o c) -> b <> slack_bus (ctl_slack c) ->
       r_p r b == taken n x t b + lost_at n x t losses b /\ close tol (sp b) (taken n x t b + lost_at n x t losses b)) /\
    Forall2 (fun o o' => o_name o' = o_name o /\ (slack_generator (ctl_slack c) <> Some (o_name o) -> o_p o' == o_p o))
      (t_gens tb) (t_gens (r_tabs r)).
Proof. exact (fixed_pf s n0 nc c n losses x sns t tb sp sq tol). Qed.
Print Assumptions C67_nonlinear.

(* two generators at a, a link from a to c, a store at c, a load at b, three lines; the set points before
   were different *)
Definition on (_ : nat) : bool := true.
Definition cm (nm b : string) : comp := {| c_name := nm; c_bus := b; c_sign := 1; c_active := on |}.
Definition ln (nm b0 b1 : string) : branch := {| b_name := nm; b_bus0 := b0; b_bus1 := b1; b_active := on |}.
Definition ex_net : net :=
  {| BalanceModel.buses := ["a"; "b"; "c"]; BalanceModel.gens := [cm "g0" "a"; cm "g1" "a"]; stores := [cm "s" "c"]; units := [];
     lines := [ln "l0" "a" "b"; ln "l1" "b" "c"; ln "l2" "c" "a"]; trafos := [];
     links := [{| l_name := "k"; l_bus0 := "a"; l_bus1 := "c"; l_eff1 := fun _ => 1#2; l_ports := []; BalanceModel.l_active := on |}];
     loads := [{| d_bus := "b"; d_sign := -(1); d_p := fun _ => 3; d_active := true |}] |}.
Definition ex_x : sol := fun v =>
  match v with (k, _, nm) =>
    if String.eqb k "Generator-p" then (if String.eqb nm "g0" then 2 else 3)
    else if String.eqb k "Store-p" then -(1)
    else if String.eqb k "Link-p" then 2
    else if String.eqb k "Line-s" then (if String.eqb nm "l0" then 2 else -(1))
    else 0 end.
Definition ex_cn : cnet :=
  {| ControlModel.gens := [{| gname := "g0"; gbus := "a"; gctrl := "Slack"; gactive := true |};
                           {| gname := "g1"; gbus := "a"; gctrl := "PQ"; gactive := true |}];
     ControlModel.buses := map (fun b => {| bname := b; bsub := "0"; bctrl := "PQ"; bgen := None |}) ["a"; "b"; "c"] |}.
Definition ro (nm b : string) (sg p : Q) : one :=
  {| o_name := nm; o_bus := b; o_sign := sg; o_active := true; o_pset := 7; o_qset := 0; o_pnom := 10; o_popt := 10; o_p := p; o_q := 0 |}.
Definition ex_tb (shunts : list one) : tabs :=
  {| t_gens := [ro "g0" "a" 1 2; ro "g1" "a" 1 3]; t_rest := [[ro "d" "b" (-(1)) 3]; []; [ro "s" "c" 1 (-(1))]];
     t_shunts := shunts;
     t_links := [{| PfoutModel.l_bus := fun i => match i with O => "a" | _ => "c" end; PfoutModel.l_eff := fun _ => 1#2;
                    PfoutModel.l_active := true; l_pset := 7; l_old := fun i => match i with O => 2 | _ => -(1) end |}];
     t_ports := 1%nat |}.

Definition ex_c : controls :=
  {| ctl_slack := {| slack_generator := Some "g0"; slack_bus := "a" |}; pvs := []; pqs := ["b"; "c"]; buses_o := ["a"; "b"; "c"] |}.
Lemma ex_optimised losses x sh :
  (forall v, fst (fst v) <> "Line-loss" -> x v = ex_x v) ->
  (forall b, In b ["a"; "b"; "c"] -> net_power ex_net losses x 0 b == demand ex_net 0 b) ->
  exists nc, optimised "0" ex_cn nc ex_c ex_net losses x on 0 (ex_tb sh).
Proof.
  intros EX HB. eexists. unfold optimised.
  split; [repeat (constructor; [cbn; intuition discriminate|]); constructor|].
  split; [repeat (constructor; [cbn; intuition discriminate|]); constructor|].
  split; [cbn; intuition discriminate|]. split; [vm_compute; reflexivity|].
  split; [discriminate|]. split; [reflexivity|]. split; [intros o [<-|[<-|[]]]; split; reflexivity|].
  split; [reflexivity|]. split.
  { unfold reported. split; [|split].
    - cbn [buses_o ex_c ex_net BalanceModel.gens filter]. repeat constructor; try (exists none); cbn; rewrite ?EX; auto; try discriminate; reflexivity.
    - do 3 eexists. split; [reflexivity|]. split; [|split].
      + repeat constructor. exists none. reflexivity.
      + constructor.
      + repeat constructor; try (exists none); cbn; rewrite ?EX; auto; try discriminate; reflexivity.
    - repeat constructor. exists none. cbn. rewrite ?EX; try discriminate; reflexivity. }
  split; [|exact HB].
  intros br I _. cbn in I. destruct I as [<-|[<-|[<-|[]]]]; cbn; tauto.
Qed.

Example C67_ex : exists nc, optimised "0" ex_cn nc ex_c ex_net false ex_x on 0 (ex_tb []) /\ no_conductance (ex_tb []) /\
  map (taken ex_net ex_x 0) ["a"; "b"; "c"] = [3; -(3); 0] /\
  same_p (t_gens (ex_tb [])) (t_gens (r_tabs (lpf_out ex_c (fix_optimal_dispatch (ex_tb []))))) /\
  ~ same_p (t_gens (ex_tb [])) (t_gens (r_tabs (lpf_out ex_c (ex_tb [])))).
Proof.
  destruct (ex_optimised false ex_x []) as [nc O]; [reflexivity| |].
  { intros b I. cbn in I. destruct I as [<-|[<-|[<-|[]]]]; reflexivity. }
  exists nc. split; [exact O|]. split; [intros o []|].
  split; [reflexivity|]. split; [repeat constructor|].
  intros H. inversion H as [|? ? ? ? (_ & _ & E)]; subst. vm_compute in E. discriminate.
Qed.

(* with losses: 12 generated at a, 10 needed at b, 2 lost on the line; lpf then leaves 10 to the generator *)
Definition lossy_net : net :=
  {| BalanceModel.buses := ["a"; "b"]; BalanceModel.gens := [cm "g0" "a"]; stores := []; units := [];
     lines := [ln "l0" "a" "b"]; trafos := []; links := [];
     loads := [{| d_bus := "b"; d_sign := -(1); d_p := fun _ => 10; d_active := true |}] |}.
Definition lossy_x : sol := fun v =>
  if String.eqb (fst (fst v)) "Generator-p" then 12 else if String.eqb (fst (fst v)) "Line-s" then 11 else 2.
Definition lossy_cn : cnet :=
  {| ControlModel.gens := [{| gname := "g0"; gbus := "a"; gctrl := "Slack"; gactive := true |}];
     ControlModel.buses := map (fun b => {| bname := b; bsub := "0"; bctrl := "PQ"; bgen := None |}) ["a"; "b"] |}.
Definition lossy_tb : tabs :=
  {| t_gens := [ro "g0" "a" 1 12]; t_rest := [[ro "d" "b" (-(1)) 10]; []; []]; t_shunts := []; t_links := []; t_ports := 1%nat |}.
Theorem C67_losses_refuted : exists s n0 nc c n x sns t tb, optimised s n0 nc c n true x sns t tb /\ no_conductance tb /\
  ~ same_p (t_gens tb) (t_gens (r_tabs (lpf_out c (fix_optimal_dispatch tb)))).
Proof.
  exists "0", lossy_cn. do 2 eexists. exists lossy_net, lossy_x, on, 0%nat, lossy_tb. split.
  { unfold optimised.
    split; [repeat (constructor; [cbn; intuition discriminate|]); constructor|].
    split; [repeat (constructor; [cbn; intuition discriminate|]); constructor|].
    split; [cbn; intuition discriminate|]. split; [vm_compute; reflexivity|].
    split; [discriminate|]. split; [reflexivity|]. split; [intros o [<-|[]]; split; reflexivity|].
    split; [reflexivity|]. split.
    { unfold reported. split; [|split].
      - repeat constructor. exists none. reflexivity.
      - do 3 eexists. split; [reflexivity|]. split; [|split]; repeat constructor. exists none. reflexivity.
      - constructor. }
    split; [intros br I _; cbn in I; destruct I as [<-|[]]; cbn; tauto|].
    intros b I. cbn in I. destruct I as [<-|[<-|[]]]; reflexivity. }
  split; [intros o []|]. intros H. inversion H as [|? ? ? ? (_ & _ & E)]; subst. vm_compute in E. discriminate.
Qed.
Print Assumptions C67_losses_refuted.

(* shunts are not part of the optimisation: a conductance moves the slack generator off its optimum *)
Theorem C67_shunt_refuted : exists s n0 nc c n x sns t tb, optimised s n0 nc c n false x sns t tb /\
  ~ same_p (t_gens tb) (t_gens (r_tabs (lpf_out c (fix_optimal_dispatch tb)))).
Proof.
  destruct (ex_optimised false ex_x [ro "h" "b" (-(1)) 0]) as [nc O]; [reflexivity| |].
  { intros b I. cbn in I. destruct I as [<-|[<-|[<-|[]]]]; reflexivity. }
  do 9 eexists. split; [exact O|]. intros H. inversion H as [|? ? ? ? (_ & _ & E)]; subst. vm_compute in E. discriminate.
Qed.
Print Assumptions C67_shunt_refuted.
