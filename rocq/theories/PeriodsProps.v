From Coq Require Import List String Bool ZArith QArith.
From Verif Require Import Assoc TablesModel TablesSpec TablesProofs PeriodsModel PeriodsProofs.
Import ListNotations.
Open Scope string_scope.
Open Scope list_scope.

Definition pr_assets : list asset :=
  [{| aname := "old"; aactive := true; build_year := 2000; lifetime := Some 25 |};
   {| aname := "new"; aactive := true; build_year := 2030; lifetime := None |};
   {| aname := "off"; aactive := false; build_year := 0; lifetime := None |}].

(* C08: without period (or without build years) exactly the active flag ... *)
Theorem C08_no_period :
  forall (known : list Z) (hl : bool) (assets : list asset) (i : nat) (a : asset),
    nth_error assets i = Some a ->
    marked (get_active_assets known hl None assets) i a (aactive a = true).
Proof. exact active_none. Qed.
Print Assumptions C08_no_period.

Theorem C08_no_build_years :
  forall (known : list Z) (req : option (list Z)) (assets : list asset) (i : nat) (a : asset),
    nth_error assets i = Some a ->
    marked (get_active_assets known false req assets) i a (aactive a = true).
Proof. exact active_nolife. Qed.
Print Assumptions C08_no_build_years.

(* ... with periods the flag and being alive in one of them *)
Theorem C08_periods :
  forall (known ps : list Z) (assets : list asset) (i : nat) (a : asset),
    (forall p, In p ps -> In p known) -> nth_error assets i = Some a ->
    marked (get_active_assets known true (Some ps) assets) i a
      (aactive a = true /\ exists p, In p ps /\ alive a p).
Proof. exact active_periods. Qed.
Print Assumptions C08_periods.

Theorem C08_unknown_period :
  forall (known ps : list Z) (assets : list asset) (p : Z),
    In p ps -> ~ In p known -> get_active_assets known true (Some ps) assets = inr ValueErr.
Proof. exact active_unknown. Qed.
Print Assumptions C08_unknown_period.

(* the mask has one entry per asset, in the order of the table *)
Theorem C08_complete :
  forall (known : list Z) (hl : bool) (req : option (list Z)) (assets : list asset)
         (l : list (string * bool)),
    get_active_assets known hl req assets = inl l -> map fst l = map aname assets.
Proof. exact active_length. Qed.
Print Assumptions C08_complete.

(* per-snapshot mask of a network with investment periods *)
Theorem C08_activity_mask :
  forall (sns : list msnap) (assets : list asset) (i : nat) (a : asset) (p : Z) (t : string),
    In (p, t) sns -> nth_error assets i = Some a ->
    marked (activity_row sns true assets (p, t)) i a (aactive a = true /\ alive a p).
Proof. exact mask_multi. Qed.
Print Assumptions C08_activity_mask.

Example C08_example :
  get_active_assets [2020; 2025; 2030]%Z true (Some [2020]%Z) pr_assets
    = inl [("old", true); ("new", false); ("off", false)] /\
  get_active_assets [2020; 2025; 2030]%Z true (Some [2025; 2030]%Z) pr_assets
    = inl [("old", false); ("new", true); ("off", false)] /\
  get_active_assets [2020; 2025; 2030]%Z true (Some [2021]%Z) pr_assets = inr ValueErr /\
  activity_row [(2020, "a"); (2030, "a")]%Z true pr_assets (2030, "a")%Z
    = inl [("old", false); ("new", true); ("off", false)].
Proof. repeat split; reflexivity. Qed.

(* C49: on a network with plain snapshots set_investment_periods(ps) makes (period, timestep)
   snapshots for every pair, repeats every time series and the weightings for each period and gives
   every period the weight 1 *)
Theorem C49_set_periods :
  forall (sns : list string) (w : table) (fr : dict table) (ps : list Z),
    ps <> [] -> sns <> [] -> increasing ps = true -> NoDup sns ->
    (exists N, good_table sns N w) ->
    (forall a t, In (a, t) fr -> exists N, good_table sns N t) -> NoDup (dkeys fr) ->
    exists sns' w' fr' pw,
      set_periods (Single sns w fr) ps = (Multi sns' w' fr' pw, None) /\
      periods_of sns' = ps /\ NoDup sns' /\
      (forall p s, In (p, s) sns' <-> In p ps /\ In s sns) /\
      (forall c p s, In p ps -> mget w' c (p, s) = tget w c s) /\
      (forall a t, dget fr a = Some t -> exists t', dget fr' a = Some t' /\ mindex t' = sns' /\
         forall name p s, In p ps -> mget t' name (p, s) = tget t name s) /\
      dkeys fr' = dkeys fr /\
      (forall p, In p ps -> assocz pw p = Some (VNum 1)).
Proof. exact set_periods_single. Qed.
Print Assumptions C49_set_periods.

(* a second call keeps all data and succeeds only for exactly the periods of the snapshots *)
Theorem C49_set_periods_again :
  forall (sns : list msnap) (w : mtable) (fr : dict mtable) (pw : list (Z * val)) (ps : list Z) (n' : pnet),
    set_periods (Multi sns w fr pw) ps = (n', None) ->
    exists pw', n' = Multi sns w fr pw' /\
      (ps <> [] -> (forall p, In p ps <-> In p (periods_of sns)) /\
         forall p, In p ps ->
           assocz pw' p = Some (match assocz pw p with Some v => v | None => VNum 1 end)).
Proof. exact set_periods_again. Qed.
Print Assumptions C49_set_periods_again.

(* periods that are not strictly increasing are rejected; a call that raises changes nothing *)
Theorem C49_not_increasing :
  forall (n : pnet) (ps : list Z), increasing ps = false -> set_periods n ps = (n, Some ValueErr).
Proof. exact set_periods_reject. Qed.
Print Assumptions C49_not_increasing.

Theorem C49_raising_call_changes_nothing :
  forall (n : pnet) (ps : list Z) (e : nerr),
    snd (set_periods n ps) = Some e -> fst (set_periods n ps) = n.
Proof. exact set_periods_error. Qed.
Print Assumptions C49_raising_call_changes_nothing.

Definition pr_net : pnet :=
  Single ["t0"; "t1"] {| tindex := ["t0"; "t1"]; tcols := [("objective", [VNum 1; VNum 2])] |}
    [("Generator.p", {| tindex := ["t0"; "t1"]; tcols := [("g", [VNum 5; VNum 6])] |})].
Example C49_example :
  match fst (set_periods pr_net [2020; 2030]%Z) with
  | Multi sns w [(_, t)] pw =>
      sns = [(2020, "t0"); (2020, "t1"); (2030, "t0"); (2030, "t1")]%Z /\
      mget t "g" (2030, "t1")%Z = Some (VNum 6) /\ mget w "objective" (2020, "t1")%Z = Some (VNum 2) /\
      pw = [(2020, VNum 1); (2030, VNum 1)]%Z
  | _ => False
  end /\
  set_periods pr_net [2020; 2020]%Z = (pr_net, Some ValueErr) /\
  snd (set_periods (fst (set_periods pr_net [2020; 2030]%Z)) [2030]%Z) = Some NotImpl.
Proof. repeat split; reflexivity. Qed.
