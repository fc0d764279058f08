(* Property theorems for pypsa.options (C01, C02). *)
From Coq Require Import List String Bool Arith.
From Verif Require Import Assoc OptionsModel OptionsSpec OptionsProofs.
Import ListNotations.
Open Scope string_scope.

(* C01: after any history of _add_option / set_option / attribute assignment / reset_all the options
   object answers exactly like a flat map from full dotted names to (value, default). *)
Theorem C01_options_refine_flat_map : forall (V : Type) (h : list (op V)) (p : string),
  get_option (run [] h) p =
  match dget (flat_run h) p with Some (v, _) => inl v | None => inr InvalidOption end.
Proof. exact @options_refine. Qed.
Print Assumptions C01_options_refine_flat_map.

(* C01: each call raises exactly when the flat map says so, and a raising call changes nothing. *)
Theorem C01_options_outcome : forall (V : Type) (h : list (op V)) (o : op V),
  snd (step (run [] h) o) = snd (flat_step (flat_run h) o) /\
  (snd (step (run [] h) o) <> None -> fst (step (run [] h) o) = run [] h).
Proof. exact @options_outcome. Qed.
Print Assumptions C01_options_outcome.

(* C01: the last write to exactly this name since the last reset wins, else the default, else the
   value from before the history. *)
Theorem C01_last_write_wins :
  forall (V : Type) (h0 h : list (op V)) (p : string) (v0 d : V),
  only_writes h -> get_option (run [] h0) p = inl v0 ->
  get_option (reset_all (run [] h0)) p = inl d ->
  get_option (run (run [] h0) h) p = inl (last_write v0 d (rev h) p).
Proof. exact @options_last_write. Qed.
Print Assumptions C01_last_write_wins.

Example C01_nonvacuous :
  get_option default_tree "params.statistics.round" = inl (PInt 5) /\
  get_option (reset_all default_tree) "params.statistics.round" = inl (PInt 5) /\
  get_option (run default_tree
     [SetOption "params.statistics.round" (PInt 7);
      SetOption "params.statistics" (PInt 1);           (* a category: rejected *)
      SetOption "params.statistics.round.x" (PInt 1);   (* below an option: rejected *)
      AttrAssign "params.statistics.drop_zero" (PBool false);
      AddOption "params.statistics.round.y" (PInt 3)])  (* rejected *)
    "params.statistics.round" = inl (PInt 7) /\
  snd (step default_tree (SetOption "params.statistics" (PInt 1))) = Some InvalidOption.
Proof. repeat split; vm_compute; reflexivity. Qed.

(* C02: with distinct names every named option is back to its entry value on every exit path: the
   body returned or raised (left disjunct; other options keep what the body gave them), or entering
   failed because some given name is not a registered option (right disjunct; nothing changed). *)
Theorem C02_option_context_restores :
  forall (V : Type) (as_str : V -> option string) (t : tree V) (args : list V)
         (pairs : list (V * V)) (body : tree V -> tree V * option oerr),
  pair_up args = Some pairs -> keeps_options body ->
  NoDup (map fst (given as_str pairs)) ->
  let names := map (fun p => as_str (fst p)) pairs in
  let '(t', out) := option_context as_str t args body in
  (forall n, In n (map fst (given as_str pairs)) -> get_option t' n = get_option t n) /\
  ((Forall (fun o => exists n, o = Some n /\ registered t n) names /\
    exists t1,
      (forall n v, In (n, v) (given as_str pairs) -> get_option t1 n = inl v) /\
      (forall n, ~ In n (map fst (given as_str pairs)) -> get_option t1 n = get_option t n) /\
      out = snd (body t1) /\
      (forall n, ~ In n (map fst (given as_str pairs)) ->
                 get_option t' n = get_option (fst (body t1)) n))
   \/
   (~ Forall (fun o => exists n, o = Some n /\ registered t n) names /\
    out = Some InvalidOption /\ forall n, get_option t' n = get_option t n)).
Proof. exact @context_distinct. Qed.
Print Assumptions C02_option_context_restores.

(* C02: any sequence of API calls is an admissible body. *)
Theorem C02_histories_are_bodies : forall (V : Type) (h : list (op V)) (out : option oerr),
  keeps_options (fun t => (run t h, out)).
Proof. exact @history_keeps. Qed.
Print Assumptions C02_histories_are_bodies.

(* C02, repeated names: what is restored is the value from just before the last assignment, i.e.
   the value given by the previous occurrence. *)
Theorem C02_option_context_repeated_names :
  forall (V : Type) (as_str : V -> option string) (t : tree V) (args : list V)
         (pairs : list (V * V)) (body : tree V -> tree V * option oerr),
  pair_up args = Some pairs -> keeps_options body ->
  let names := map (fun p => as_str (fst p)) pairs in
  let '(t', out) := option_context as_str t args body in
  (Forall (fun o => exists n, o = Some n /\ registered t n) names /\
   exists t1, (forall n, get_option t1 n = newest n (given as_str pairs) (get_option t n)) /\
     out = snd (body t1) /\
     forall n, get_option t' n =
       (if in_dec string_dec n (map fst (given as_str pairs))
        then saved t n (given as_str pairs) else get_option (fst (body t1)) n))
  \/
  (~ Forall (fun o => exists n, o = Some n /\ registered t n) names /\ out = Some InvalidOption).
Proof. exact @context_general. Qed.
Print Assumptions C02_option_context_repeated_names.

(* C02: restoring fails when a name is given twice. *)
Theorem C02_option_context_duplicate_refuted :
  exists (t : tree pyval) (args : list pyval) (n : string),
    snd (option_context py_str t args (fun t => (t, None))) = None /\
    get_option (fst (option_context py_str t args (fun t => (t, None)))) n <> get_option t n.
Proof.
  exists default_tree,
    [PStr "params.statistics.round"; PInt 1; PStr "params.statistics.round"; PInt 2],
    "params.statistics.round".
  split; [vm_compute; reflexivity|vm_compute; discriminate].
Qed.
Print Assumptions C02_option_context_duplicate_refuted.

(* odd number of arguments: ValueError, nothing changed *)
Theorem C02_option_context_odd :
  forall (V : Type) (as_str : V -> option string) (t : tree V) (args : list V) body,
  Nat.Odd (List.length args) -> option_context as_str t args body = (t, Some ValueErr).
Proof. exact @context_odd. Qed.
Print Assumptions C02_option_context_odd.

Example C02_nonvacuous :
  let args := [PStr "params.statistics.round"; PInt 1; PStr "params.statistics.drop_zero"; PBool false] in
  let body := fun t => (run t [SetOption "params.statistics.round" (PInt 9);
                               SetOption "params.statistics.nice_names" (PBool false)],
                        Some (BodyRaised "boom")) in
  let r := option_context py_str default_tree args body in
  snd r = Some (BodyRaised "boom") /\
  get_option (fst r) "params.statistics.round" = inl (PInt 5) /\
  get_option (fst r) "params.statistics.nice_names" = inl (PBool false) /\
  (* entering fails at the second name *)
  let r2 := option_context py_str default_tree
              [PStr "params.statistics.round"; PInt 1; PStr "nope"; PInt 2] body in
  snd r2 = Some InvalidOption /\ get_option (fst r2) "params.statistics.round" = inl (PInt 5).
Proof. repeat split; vm_compute; reflexivity. Qed.
