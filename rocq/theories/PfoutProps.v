From Coq Require Import List String Bool QArith Qabs Arith.
From Verif Require Import ControlModel ControlSpec BalanceSpec PfoutModel PfoutSpec PfoutProofs.
Import ListNotations.
Open Scope string_scope.
Open Scope list_scope.
Open Scope Q_scope.

(* ---------- C56: from set points to nodal injections ---------- *)
Theorem C56_injections t b : b <> "" ->
  nodal_p (set_points t) b == set_p t b /\ nodal_q (set_points t) b == set_q t b.
Proof. exact (pf_injection t b). Qed.
Print Assumptions C56_injections.

Theorem C56_injections_linear t b : b <> "" -> lpf_nodal (lpf_points t) b == set_p_lin t b.
Proof. exact (lpf_injection t b). Qed.
Print Assumptions C56_injections_linear.

(* ---------- C57: results of the power flow ---------- *)
Theorem C57_balanced s n0 n c sp sq t r tol :
  NoDup (map gname (gens n0)) -> NoDup (map bname (buses n0)) -> ~ In "" (map bname (buses n0)) ->
  find_bus_controls s n0 = inl (n, c) -> t_gens t <> [] -> gens_of s n0 (t_gens t) ->
  (forall o, In o (t_gens t) -> plain o) ->
  pf_out c n sp sq t = inl r ->
  (forall b, b <> "" -> inj_p (r_tabs r) b == r_p r b /\ inj_q (r_tabs r) b == r_q r b) /\
  (0 <= tol ->
   (forall b, In b (pvs c ++ pqs c) -> close tol (sp b) (set_p t b)) ->
   (forall b, In b (pqs c) -> close tol (sq b) (set_q t b)) ->
   forall x, In x (buses n0) -> bsub x = s ->
     close tol (sp (bname x)) (inj_p (r_tabs r) (bname x)) /\ close tol (sq (bname x)) (inj_q (r_tabs r) (bname x))).
Proof. exact (pf_from_controls s n0 n c sp sq t r tol). Qed.
Print Assumptions C57_balanced.

Theorem C57_untouched c n sp sq t r :
  pf_out c n sp sq t = inl r ->
  Forall2 (fun l l' => Forall2 (fun o o' => o_name o' = o_name o /\ o_p o' == plain_p o /\ o_q o' == plain_q o) l l')
    (t_rest t) (t_rest (r_tabs r)) /\
  t_links (r_tabs r) = t_links t /\
  Forall2 (fun o o' =>
    o_name o' = o_name o /\ o_bus o' = o_bus o /\ o_active o' = o_active o /\
    (slack_generator (ctl_slack c) <> Some (o_name o) -> o_p o' == plain_p o) /\
    (slack_generator (ctl_slack c) <> Some (o_name o) ->
     (forall b, In b (pvs c) -> gen_of n b <> Some (o_name o)) -> o_q o' == plain_q o))
    (t_gens t) (t_gens (r_tabs r)).
Proof. exact (pf_untouched c n sp sq t r). Qed.
Print Assumptions C57_untouched.

Theorem C57_needs_generator c n sp sq t :
  (exists g, slack_generator (ctl_slack c) = Some g) <-> exists r, pf_out c n sp sq t = inl r.
Proof. exact (pf_defined c n sp sq t). Qed.
Print Assumptions C57_needs_generator.

Theorem C57_linear s n0 n c t :
  NoDup (map gname (gens n0)) -> NoDup (map bname (buses n0)) -> ~ In "" (map bname (buses n0)) ->
  find_bus_controls s n0 = inl (n, c) -> t_gens t <> [] -> gens_of s n0 (t_gens t) ->
  (forall o, In o (t_gens t) -> plain o) ->
  (forall b, b <> "" -> inj_p_lin (r_tabs (lpf_out c t)) b == r_p (lpf_out c t) b) /\
  total (r_p (lpf_out c t)) (buses_o c) == 0 /\
  forall b, In b (buses_o c) -> b <> slack_bus (ctl_slack c) -> r_p (lpf_out c t) b == set_p_lin t b.
Proof. exact (lpf_from_controls s n0 n c t). Qed.
Print Assumptions C57_linear.

Theorem C57_single_bus dist k c all t0 r :
  NoDup (map o_name (t_gens t0)) -> (forall o, In o (t_gens t0) -> plain o /\ o_bus o = slack_bus (ctl_slack c)) ->
  (forall g, slack_generator (ctl_slack c) = Some g -> In g (map o_name (t_gens t0))) ->
  (dist = true -> ~ total (weight_of k) (t_gens t0) == 0) ->
  slack_bus (ctl_slack c) <> "" ->
  pf_single dist k c all t0 = inl r ->
  inj_p (r_tabs r) (slack_bus (ctl_slack c)) == 0 /\ inj_q (r_tabs r) (slack_bus (ctl_slack c)) == 0 /\
  r_p r (slack_bus (ctl_slack c)) == 0 /\ r_q r (slack_bus (ctl_slack c)) == 0 /\
  (dist = true -> moved (t_gens t0) (t_gens (r_tabs r))
     (fun o => weight_of k o / total (weight_of k) (t_gens t0) * - set_p t0 (slack_bus (ctl_slack c)))).
Proof. exact (single_balanced dist k c all t0 r). Qed.
Print Assumptions C57_single_bus.

(* ---------- C58: distributed slack ---------- *)
Theorem C58_balanced s n0 n c k all solve t0 r tol :
  0 <= tol -> NoDup (map gname (gens n0)) -> NoDup (map bname (buses n0)) -> ~ In "" (map bname (buses n0)) ->
  find_bus_controls s n0 = inl (n, c) -> t_gens t0 <> [] -> gens_of s n0 (t_gens t0) ->
  (forall o, In o (t_gens t0) -> plain o) ->
  NoDup (map o_name all) -> own_gens (buses_o c) all (t_gens t0) -> weights_ok k (t_gens t0) ->
  (forall w, exists G, forall b, In b (buses_o c) -> close tol (fst (solve w) b) (set_p t0 b - w b * G)) ->
  pf_out_dist c n k all solve t0 = inl r ->
  forall b, In b (buses_o c) -> close tol (inj_p (r_tabs r) b) (r_p r b) /\ inj_q (r_tabs r) b == r_q r b.
Proof. exact (dist_from_controls s n0 n c k all solve t0 r tol). Qed.
Print Assumptions C58_balanced.

Theorem C58_proportional c n k all solve t0 r :
  NoDup (map o_name all) -> own_gens (buses_o c) all (t_gens t0) ->
  (forall o, In o (t_gens t0) -> plain o) -> by_generator k (t_gens t0) ->
  NoDup (buses_o c) -> ~ In "" (buses_o c) ->
  (forall w, exists G, forall b, In b (buses_o c) -> fst (solve w) b == set_p t0 b - w b * G) ->
  pf_out_dist c n k all solve t0 = inl r ->
  moved (t_gens t0) (t_gens (r_tabs r))
    (fun o => weight_of k o / total (weight_of k) (t_gens t0) *
              total (fun b => r_p r b - set_p t0 b) (buses_o c)).
Proof. exact (dist_proportional c n k all solve t0 r). Qed.
Print Assumptions C58_proportional.

Theorem C58_succeeds c n k all solve t0 :
  (k = PSet /\ (forall o, In o all \/ In o (t_gens t0) -> 0 <= o_pset o)) \/
  (k = PNom /\ all <> [] /\ (forall o, In o all \/ In o (t_gens t0) -> 0 < o_pnom o)) ->
  (exists g, slack_generator (ctl_slack c) = Some g) ->
  exists r, pf_out_dist c n k all solve t0 = inl r.
Proof. exact (dist_defined c n k all solve t0). Qed.
Print Assumptions C58_succeeds.

(* ---------- examples ---------- *)
Definition rw (nm b : string) (a : bool) (sg p q pn po : Q) : one :=
  {| o_name := nm; o_bus := b; o_sign := sg; o_active := a; o_pset := p; o_qset := q; o_pnom := pn; o_popt := po;
     o_p := 7#1; o_q := 7#1 |}.
Definition lk (b0 b1 : string) (a : bool) (p e : Q) : lnk :=
  {| l_bus := fun i => match i with O => b0 | 1%nat => b1 | _ => "" end; l_eff := fun _ => e; l_active := a;
     l_pset := p; l_old := fun _ => 0 |}.
Definition bs (nm : string) : bus := {| bname := nm; bsub := "0"; bctrl := "PQ"; bgen := None |}.
Definition gn (nm b ct : string) : gen := {| gname := nm; gbus := b; gctrl := ct; gactive := true |}.

(* slack at a, two generators at b (one PV), loads at b and c, a link from a to c, a generator elsewhere *)
Definition ex_n : cnet :=
  {| gens := [gn "g0" "a" "Slack"; gn "g1" "b" "PQ"; gn "g2" "b" "PV"; gn "h" "z" "PV"];
     buses := [bs "a"; bs "b"; {| bname := "z"; bsub := "1"; bctrl := "PQ"; bgen := None |}; bs "c"] |}.
Definition ex_gens : list one :=
  [rw "g0" "a" true 1 10 0 40 40; rw "g1" "b" true 1 20 1 30 0; rw "g2" "b" true 1 30 0 30 60].
Definition ex_all : list one := ex_gens ++ [rw "h" "z" true 1 5 0 100 100].
Definition ex_t : tabs :=
  {| t_gens := ex_gens;
     t_rest := [[rw "l1" "b" true (-1) 15 3 0 0; rw "l2" "c" true (-1) 50 5 0 0; rw "off" "c" false (-1) 99 9 0 0];
                [rw "su" "c" true 1 (-2) 0 0 0]];
     t_shunts := [rw "sh" "c" true (-1) 3 0 0 0]; t_links := [lk "a" "c" true 10 (9#10)]; t_ports := 2%nat |}.
Example C56_ex :
  set_p ex_t "a" == 0 /\ set_p ex_t "b" == 35#1 /\ set_p ex_t "c" == - (43#1) /\ set_q ex_t "b" == - (2#1) /\
  set_p_lin ex_t "c" == - (46#1).
Proof. repeat split; vm_compute; reflexivity. Qed.

Definition ex_sp (b : string) : Q := if String.eqb b "a" then 9#1 else set_p ex_t b.
Definition ex_sq (b : string) : Q := if String.eqb b "c" then set_q ex_t b else 4#1.
Example C57_ex :
  NoDup (map gname (gens ex_n)) /\ NoDup (map bname (buses ex_n)) /\ ~ In "" (map bname (buses ex_n)) /\
  gens_of "0" ex_n (t_gens ex_t) /\ (forall o, In o (t_gens ex_t) -> plain o) /\
  exists n c r, find_bus_controls "0" ex_n = inl (n, c) /\ buses_o c = ["a"; "b"; "c"] /\
    pf_out c n ex_sp ex_sq ex_t = inl r /\
    (forall b, In b (pvs c ++ pqs c) -> close 0 (ex_sp b) (set_p ex_t b)) /\
    (forall b, In b (pqs c) -> close 0 (ex_sq b) (set_q ex_t b)) /\
    map o_p (t_gens (r_tabs r)) = [19#1; 20#1; 30#1] /\ map (fun o => Qred (o_q o)) (t_gens (r_tabs r)) = [4#1; 1#1; 6#1].
Proof.
  split; [repeat constructor; cbn; intuition discriminate|].
  split; [repeat constructor; cbn; intuition discriminate|].
  split; [cbn; intuition discriminate|]. split; [reflexivity|].
  split; [intros o [<-|[<-|[<-|[]]]]; split; reflexivity|].
  destruct (find_bus_controls "0" ex_n) as [[n c]|] eqn:E; [|vm_compute in E; discriminate].
  vm_compute in E. injection E as <- <-. do 3 eexists. split; [reflexivity|]. split; [reflexivity|].
  split; [reflexivity|].
  split; [|split; [|split; vm_compute; reflexivity]].
  - intros b [<-|[<-|[]]]; vm_compute; discriminate.
  - intros b [<-|[]]; vm_compute; discriminate.
Qed.

Example C57_ex_linear :
  exists n c, find_bus_controls "0" ex_n = inl (n, c) /\
    map (fun b => Qred (r_p (lpf_out c ex_t) b)) ["a"; "b"; "c"] = [11#1; 35#1; - (46#1)] /\
    map (fun o => Qred (o_p o)) (t_gens (r_tabs (lpf_out c ex_t))) = [21#1; 20#1; 30#1].
Proof.
  destruct (find_bus_controls "0" ex_n) as [[n c]|] eqn:E; [|vm_compute in E; discriminate].
  vm_compute in E. injection E as <- <-. do 2 eexists. split; [reflexivity|]. split; vm_compute; reflexivity.
Qed.

Definition one_bus : controls :=
  {| ctl_slack := {| slack_generator := Some "g1"; slack_bus := "b" |}; pvs := []; pqs := []; buses_o := ["b"] |}.
Definition one_t : tabs :=
  {| t_gens := [rw "g1" "b" true 1 20 1 30 0; rw "g2" "b" true 1 30 0 30 60];
     t_rest := [[rw "l1" "b" true (-1) 60 3 0 0]]; t_shunts := []; t_links := []; t_ports := 1%nat |}.
Example C57_ex_single :
  (~ total (weight_of PSet) (t_gens one_t) == 0) /\
  (exists r, pf_single true PSet one_bus (t_gens one_t) one_t = inl r /\
     map (fun o => Qred (o_p o)) (t_gens (r_tabs r)) = [24#1; 36#1]) /\
  exists r, pf_single false PSet one_bus (t_gens one_t) one_t = inl r /\
     map (fun o => Qred (o_p o)) (t_gens (r_tabs r)) = [30#1; 30#1].
Proof.
  split; [vm_compute; discriminate|].
  split; (eexists; split; [reflexivity|vm_compute; reflexivity]).
Qed.

(* a solver that finds 12 units of slack power *)
Definition ex_solve (w : string -> Q) : (string -> Q) * (string -> Q) :=
  (fun b => set_p ex_t b - w b * - (12#1), ex_sq).
Example C58_ex :
  exists n c, find_bus_controls "0" ex_n = inl (n, c) /\
    own_gens (buses_o c) ex_all (t_gens ex_t) /\ NoDup (map o_name ex_all) /\
    (forall w, exists G, forall b, fst (ex_solve w) b == set_p ex_t b - w b * G) /\
    by_generator (Custom (Some "Generator") [("g0", 1); ("g1", 2#1); ("g2", 0)]) (t_gens ex_t) /\
    weights_ok (Custom None [("b", 1); ("a", 2#1)]) (t_gens ex_t) /\
    (exists r, pf_out_dist c n PSet ex_all ex_solve ex_t = inl r /\
       map (fun o => Qred (o_p o)) (t_gens (r_tabs r)) = [12#1; 24#1; 36#1]) /\
    (exists r, pf_out_dist c n PNom ex_all ex_solve ex_t = inl r /\
       map (fun o => Qred (o_p o)) (t_gens (r_tabs r)) = [74#5; 118#5; 168#5]) /\
    (exists r, pf_out_dist c n (Custom (Some "Generator") [("g0", 1); ("g1", 2#1); ("g2", 0)]) ex_all ex_solve ex_t = inl r /\
       map (fun o => Qred (o_p o)) (t_gens (r_tabs r)) = [14#1; 28#1; 30#1]) /\
    (exists r, pf_out_dist c n (Custom None [("b", 1); ("a", 2#1)]) ex_all ex_solve ex_t = inl r /\
       map (fun o => Qred (o_p o)) (t_gens (r_tabs r)) = [18#1; 22#1; 32#1]).
Proof.
  destruct (find_bus_controls "0" ex_n) as [[n c]|] eqn:E; [|vm_compute in E; discriminate].
  vm_compute in E. injection E as <- <-. do 2 eexists. split; [reflexivity|]. split; [reflexivity|].
  split; [repeat constructor; cbn; intuition discriminate|].
  split; [intros w; exists (- (12#1)); intros b; reflexivity|].
  split; [split; [repeat constructor; cbn; intuition discriminate|intros e [<-|[<-|[<-|[]]]]; cbn; auto]|].
  split; [split; [repeat constructor; cbn; intuition discriminate|right; intros e [<-|[<-|[]]]; cbn; auto]|].
  repeat split; (eexists; split; [reflexivity|vm_compute; reflexivity]).
Qed.

(* ---------- where the claims fail ---------- *)
(* a link that is switched off still carries its set point *)
Theorem C56_inactive_link_refuted :
  exists t b, (forall l, In l (t_links t) -> l_active l = false) /\
    ~ nodal_p (set_points t) b == total (fed o_pset b) (rows t).
Proof.
  exists {| t_gens := []; t_rest := []; t_shunts := []; t_links := [lk "a" "b" false 5 1]; t_ports := 1%nat |}, "b".
  split; [intros l [<-|[]]; reflexivity|vm_compute; discriminate].
Qed.
Print Assumptions C56_inactive_link_refuted.

(* find_bus_controls may choose a generator that is switched off; its output then feeds nothing in *)
Theorem C57_inactive_slack_refuted :
  exists s n0 n c t sp sq r, find_bus_controls s n0 = inl (n, c) /\ gens_of s n0 (t_gens t) /\
    (forall o, In o (t_gens t) -> o_sign o == 1) /\ (exists o, In o (t_gens t) /\ o_active o = true) /\
    pf_out c n sp sq t = inl r /\ ~ inj_p (r_tabs r) "a" == r_p r "a".
Proof.
  exists "0", {| gens := [gn "g0" "a" "PQ"; gn "g1" "a" "PQ"]; buses := [bs "a"; bs "b"] |}.
  do 2 eexists.
  exists {| t_gens := [rw "g0" "a" false 1 0 0 0 0; rw "g1" "a" true 1 5 0 0 0]; t_rest := []; t_shunts := [];
            t_links := []; t_ports := 1%nat |}, (fun _ => 9#1), (fun _ => 0).
  eexists. split; [vm_compute; reflexivity|]. split; [reflexivity|].
  split; [intros o [<-|[<-|[]]]; reflexivity|]. split; [eexists; split; [right; left; reflexivity|reflexivity]|].
  split; [reflexivity|vm_compute; discriminate].
Qed.
Print Assumptions C57_inactive_slack_refuted.

(* a slack generator with sign -1 moves the wrong way *)
Theorem C57_sign_refuted :
  exists s n0 n c t sp sq r, find_bus_controls s n0 = inl (n, c) /\ gens_of s n0 (t_gens t) /\
    (forall o, In o (t_gens t) -> o_active o = true) /\
    pf_out c n sp sq t = inl r /\ ~ inj_p (r_tabs r) "a" == r_p r "a".
Proof.
  exists "0", {| gens := [gn "g0" "a" "PQ"]; buses := [bs "a"; bs "b"] |}.
  do 2 eexists.
  exists {| t_gens := [rw "g0" "a" true (-1) 5 0 0 0]; t_rest := []; t_shunts := [];
            t_links := []; t_ports := 1%nat |}, (fun _ => 9#1), (fun _ => 0).
  eexists. split; [vm_compute; reflexivity|]. split; [reflexivity|].
  split; [intros o [<-|[]]; reflexivity|].
  split; [reflexivity|vm_compute; discriminate].
Qed.
Print Assumptions C57_sign_refuted.

(* without generators the linear power flow invents power at the first bus *)
Theorem C57_linear_no_generator_refuted :
  exists s n0 n c t b, find_bus_controls s n0 = inl (n, c) /\ gens_of s n0 (t_gens t) /\ In b (buses_o c) /\
    ~ inj_p_lin (r_tabs (lpf_out c t)) b == r_p (lpf_out c t) b.
Proof.
  exists "0", {| gens := []; buses := [bs "a"; bs "b"] |}. do 2 eexists.
  exists {| t_gens := []; t_rest := [[rw "l" "b" true (-1) 5 0 0 0]]; t_shunts := []; t_links := []; t_ports := 1%nat |}, "a".
  split; [vm_compute; reflexivity|]. split; [reflexivity|]. split; [now left|vm_compute; discriminate].
Qed.
Print Assumptions C57_linear_no_generator_refuted.

(* the set points of a single bus are all zero, those of a generator elsewhere are not *)
Theorem C57_single_zero_refuted :
  exists c all t r, (forall o, In o (t_gens t) -> plain o /\ o_bus o = slack_bus (ctl_slack c)) /\
    slack_generator (ctl_slack c) = Some "g1" /\ map o_name (t_gens t) = ["g1"] /\
    pf_single true PSet c all t = inl r /\ ~ inj_p (r_tabs r) (slack_bus (ctl_slack c)) == 0.
Proof.
  exists one_bus, (rw "g1" "b" true 1 0 0 30 0 :: [rw "h" "z" true 1 5 0 0 0]),
    {| t_gens := [rw "g1" "b" true 1 0 0 30 0]; t_rest := [[rw "l1" "b" true (-1) 60 3 0 0]]; t_shunts := [];
       t_links := []; t_ports := 1%nat |}.
  eexists. split; [intros o [<-|[]]; repeat split|]. split; [reflexivity|]. split; [reflexivity|].
  split; [reflexivity|vm_compute; discriminate].
Qed.
Print Assumptions C57_single_zero_refuted.

(* no other weights than p_set work for a single bus *)
Theorem C58_single_bus_refuted k c all t r :
  k <> PSet -> t_gens t <> [] -> pf_single true k c all t <> inl r.
Proof.
  intros K NE E. unfold pf_single in E. cbv zeta in E. cbn [t_gens set_points] in E.
  destruct (map dispatch (t_gens t)) as [|o l] eqn:M; [destruct (t_gens t); [congruence|discriminate]|].
  destruct (single_shares k all (o :: l)) as [x|] eqn:SH; [|discriminate].
  destruct (single_shares_are _ _ _ _ SH) as [X _]. contradiction.
Qed.
Print Assumptions C58_single_bus_refuted.

Definition two_c : controls :=
  {| ctl_slack := {| slack_generator := Some "g0"; slack_bus := "a" |}; pvs := []; pqs := ["b"]; buses_o := ["a"; "b"] |}.
Definition two_n : cnet := {| gens := [gn "g0" "a" "Slack"; gn "g1" "b" "PQ"]; buses := [bs "a"; bs "b"] |}.
Definition two_t (gs : list one) : tabs :=
  {| t_gens := gs; t_rest := [[rw "l" "b" true (-1) 20 0 0 0]]; t_shunts := []; t_links := []; t_ports := 1%nat |}.
Definition two_solve (t : tabs) (w : string -> Q) : (string -> Q) * (string -> Q) :=
  (fun b => set_p t b - w b * - (12#1), fun _ => 0).
(* one generator without nominal power at a bus, although "distribute evenly if no p_nom given" *)
Theorem C58_zero_p_nom_refuted :
  exists gs, (forall o, In o gs -> plain o) /\ (forall o, In o gs -> 0 <= o_pnom o) /\ 0 < total o_pnom gs /\
    pf_out_dist two_c two_n PNom gs (two_solve (two_t gs)) (two_t gs) = inr AttributeError.
Proof.
  exists [rw "g0" "a" true 1 5 0 10 0; rw "g1" "b" true 1 5 0 0 0; rw "g2" "b" true 1 5 0 10 0].
  split; [intros o [<-|[<-|[<-|[]]]]; split; reflexivity|].
  split; [intros o [<-|[<-|[<-|[]]]]; vm_compute; discriminate|]. split; vm_compute; reflexivity.
Qed.
Print Assumptions C58_zero_p_nom_refuted.

(* generator weights as a dict or as a Series whose index has no name *)
Theorem C58_dict_refuted :
  exists gs w, (forall o, In o gs -> plain o) /\ for_gens w gs /\ (forall e, In e w -> 0 < snd e) /\
    pf_out_dist two_c two_n (Custom None w) gs (two_solve (two_t gs)) (two_t gs) = inr TypeError.
Proof.
  exists [rw "g0" "a" true 1 5 0 10 0; rw "g1" "b" true 1 5 0 10 0], [("g0", 1); ("g1", 1)].
  split; [intros o [<-|[<-|[]]]; split; reflexivity|].
  split; [intros e [<-|[<-|[]]]; cbn; auto|]. split; [intros e [<-|[<-|[]]]; reflexivity|]. vm_compute. reflexivity.
Qed.
Print Assumptions C58_dict_refuted.

(* weights for some of the generators only *)
Theorem C58_some_generators_refuted :
  exists gs w, (forall o, In o gs -> plain o) /\ for_gens w gs /\ (forall e, In e w -> 0 < snd e) /\
    pf_out_dist two_c two_n (Custom (Some "Generator") w) gs (two_solve (two_t gs)) (two_t gs) = inr KeyError.
Proof.
  exists [rw "g0" "a" true 1 5 0 10 0; rw "g1" "b" true 1 5 0 10 0], [("g1", 1)].
  split; [intros o [<-|[<-|[]]]; split; reflexivity|].
  split; [intros e [<-|[]]; cbn; auto|]. split; [intros e [<-|[]]; reflexivity|]. vm_compute. reflexivity.
Qed.
Print Assumptions C58_some_generators_refuted.

(* generators that are switched off are given their share *)
Theorem C58_inactive_refuted :
  exists gs r, (forall o, In o gs -> o_sign o == 1 /\ 0 < o_pnom o) /\ (exists o, In o gs /\ plain o /\ o_bus o = "a") /\
    pf_out_dist two_c two_n PNom gs (two_solve (two_t gs)) (two_t gs) = inl r /\
    ~ inj_p (r_tabs r) "b" == r_p r "b".
Proof.
  exists [rw "g0" "a" true 1 5 0 10 0; rw "g1" "b" false 1 5 0 10 0]. eexists.
  split; [intros o [<-|[<-|[]]]; split; reflexivity|].
  split; [eexists; split; [left; reflexivity|split; [split; reflexivity|reflexivity]]|].
  split; [reflexivity|vm_compute; discriminate].
Qed.
Print Assumptions C58_inactive_refuted.

(* a weight for a bus without generators: its share is lost *)
Theorem C58_bus_without_generator_refuted :
  exists gs r, (forall o, In o gs -> plain o) /\
    pf_out_dist two_c two_n (Custom None [("a", 1); ("b", 1)]) gs (two_solve (two_t gs)) (two_t gs) = inl r /\
    ~ inj_p (r_tabs r) "b" == r_p r "b".
Proof.
  exists [rw "g0" "a" true 1 5 0 10 0]. eexists.
  split; [intros o [<-|[]]; split; reflexivity|]. split; [reflexivity|vm_compute; discriminate].
Qed.
Print Assumptions C58_bus_without_generator_refuted.

(* p_nom_opt decides between buses, p_nom within a bus: a generator that was not built takes up power *)
Theorem C58_p_nom_opt_refuted :
  exists gs r, (forall o, In o gs -> plain o /\ 0 <= o_popt o) /\
    pf_out_dist two_c two_n PNomOpt gs (two_solve (two_t gs)) (two_t gs) = inl r /\
    ~ moved gs (t_gens (r_tabs r)) (fun o => weight_of PNomOpt o / total (weight_of PNomOpt) gs *
              total (fun b => r_p r b - set_p (two_t gs) b) (buses_o two_c)).
Proof.
  exists [rw "g0" "a" true 1 5 0 10 10; rw "g1" "b" true 1 5 0 10 0; rw "g2" "b" true 1 5 0 10 10]. eexists.
  split; [intros o [<-|[<-|[<-|[]]]]; repeat split; vm_compute; discriminate|]. split; [reflexivity|].
  intros M. inversion M as [|? ? ? ? _ M2]; subst. inversion M2 as [|? ? ? ? (_ & _ & X) _]; subst.
  vm_compute in X. discriminate.
Qed.
Print Assumptions C58_p_nom_opt_refuted.
