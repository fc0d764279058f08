From Coq Require Import List String Bool QArith.
From Verif Require Import LinModel LinProofs DispatchModel DispatchSpec DispatchProofs.
Import ListNotations.
Open Scope string_scope.
Open Scope Q_scope.

(* the generated constraints say exactly that every asset respects its bounds *)
Theorem C27_bounds_iff cls attr nattr k losses T assets x :
  sat x (all_constraints cls attr nattr k losses T assets) <-> dispatch_ok cls attr nattr k losses T assets x.
Proof. exact (dispatch_iff cls attr nattr k losses T assets x). Qed.
Print Assumptions C27_bounds_iff.

Theorem C27_off_means_zero cls attr nattr k losses T assets x a t :
  dispatch_ok cls attr nattr k losses T assets x -> In a assets -> (t < T)%nat -> active a t = true -> com a = true ->
  (reported cls x "status" a t == 0 -> reported cls x "p" a t == 0) /\
  (reported cls x "status" a t == 1 ->
     min_pu a t * nom a <= reported cls x "p" a t /\ reported cls x "p" a t <= max_pu a t * nom a).
Proof. exact (off_zero cls attr nattr k losses T assets x a t). Qed.
Print Assumptions C27_off_means_zero.

Theorem C27_inactive_dispatches_nothing cls x v a t : active a t = false -> reported cls x v a t = 0.
Proof. exact (inactive_zero cls x v a t). Qed.
Print Assumptions C27_inactive_dispatches_nothing.

Theorem C27_whole_modules cls attr nattr k losses T assets x a :
  domains cls T assets x -> dispatch_ok cls attr nattr k losses T assets x ->
  In a assets -> ext a = true -> 0 < nom_mod a ->
  exists z : nat, nom_opt cls nattr x a == nom_mod a * inject_Z (Z.of_nat z).
Proof. exact (modular_multiple cls attr nattr k losses T assets x a). Qed.
Print Assumptions C27_whole_modules.

Theorem C27_branch_flow cls attr nattr losses T assets x a t :
  domains cls T assets x -> dispatch_ok cls attr nattr Passive losses T assets x ->
  In a assets -> (t < T)%nat -> active a t = true -> (ext a = true \/ com a = false) ->
  let c := max_pu a t * nom_opt cls nattr x a in
  - c <= reported cls x attr a t /\ reported cls x attr a t <= c.
Proof. exact (branch_limit cls attr nattr Passive losses T assets x a t eq_refl). Qed.
Print Assumptions C27_branch_flow.

(* a fixed, an extendable modular, a committable and an inactive generator over two snapshots *)
Definition base (nm : string) : asset :=
  {| name := nm; nom := 100; nom_min := 0; nom_max := None; nom_set := None; nom_mod := 0; ext := false; com := false;
     active := fun _ => true; min_pu := fun t => if Nat.eqb t 0 then 1 # 4 else 0; max_pu := fun t => if Nat.eqb t 0 then 1 else 1 # 2;
     max_hours := 1; fix_set := fun _ => None |}.
Definition ex_assets : list asset :=
  [ base "fix";
    {| name := "ext"; nom := 0; nom_min := 10; nom_max := Some 200; nom_set := None; nom_mod := 25; ext := true; com := false;
       active := fun _ => true; min_pu := fun _ => 0; max_pu := fun _ => 1 # 2; max_hours := 1; fix_set := fun t => if Nat.eqb t 1 then Some 30 else None |};
    {| name := "com"; nom := 40; nom_min := 0; nom_max := None; nom_set := None; nom_mod := 0; ext := false; com := true;
       active := fun _ => true; min_pu := fun _ => 1 # 2; max_pu := fun _ => 1; max_hours := 1; fix_set := fun _ => None |};
    {| name := "off"; nom := 40; nom_min := 0; nom_max := None; nom_set := None; nom_mod := 0; ext := false; com := false;
       active := fun _ => false; min_pu := fun _ => 1 # 2; max_pu := fun _ => 1; max_hours := 1; fix_set := fun _ => None |} ].
Definition ex_x : sol := fun v =>
  let '(w, t, nm) := v in
  if String.eqb w "Generator-p" then
    if String.eqb nm "fix" then (if Nat.eqb t 0 then 25 else 50)
    else if String.eqb nm "ext" then (if Nat.eqb t 0 then 37 else 30)
    else if String.eqb nm "com" then (if Nat.eqb t 0 then 0 else 33)
    else 7
  else if String.eqb w "Generator-p_nom" then 75
  else if String.eqb w "Generator-n_mod" then 3
  else if String.eqb w "Generator-status" then (if Nat.eqb t 0 then 0 else 1)
  else 0.
Example C27_ex : sat ex_x (all_constraints "Generator" "p" "p_nom" Other false 2 ex_assets) /\
  ~ sat (fun v => ex_x v + 1) (all_constraints "Generator" "p" "p_nom" Other false 2 ex_assets) /\
  domains "Generator" 2 ex_assets ex_x.
Proof.
  split; [apply satb_iff; reflexivity|]. split; [rewrite <- satb_iff; vm_compute; discriminate|].
  split; [|split].
  - intros a t I _ _. simpl in I. intuition subst; vm_compute; discriminate.
  - intros a I. exists 3%nat. simpl in I. intuition subst; reflexivity.
  - intros a t I L _. vm_compute in I. destruct I as [<-|[]].
    destruct t as [|[|t]]; [left|right|]; try reflexivity. exfalso. apply (Nat.nle_succ_0 t). apply le_S_n, le_S_n. exact L.
Qed.
