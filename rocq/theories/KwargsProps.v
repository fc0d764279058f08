(* Property theorems for deprecated keyword renaming (C03). *)
From Coq Require Import List String Bool Lia.
From Verif Require Import Assoc KwargsModel KwargsProofs.
Import ListNotations.
Open Scope string_scope.

(* C03: a call raises exactly on a conflict; otherwise the wrapped function is called once with a
   keyword dict in which each used deprecated name appears under its new name with its value,
   deprecated names are gone, and every other keyword is untouched. *)
Theorem C03_deprecated_kwargs :
  forall (V R : Type) (f : dict V -> R) (al : list (string * string)) (kw : dict V),
  good_table al -> NoDup (dkeys kw) ->
  (conflict al kw -> exists a n, call_wrapped false al f kw = inr (BothGiven a n)) /\
  (~ conflict al kw -> exists kw', call_wrapped false al f kw = inl (f kw') /\
      NoDup (dkeys kw') /\ forall k, seen al kw k (dget kw' k)).
Proof. intros V R f al kw. exact (call_wrapped_spec f al kw). Qed.
Print Assumptions C03_deprecated_kwargs.

(* C03: an alias declared for a version newer than the running one makes every call raise, and it is the
   only way to that error. *)
Theorem C03_future_version :
  forall (V R : Type) (f : dict V -> R) (al : list (string * string)) (kw : dict V) (too_new : bool),
  call_wrapped too_new al f kw = inr VersionError <-> too_new = true.
Proof. intros V R f al kw t. exact (call_wrapped_version f al kw t). Qed.
Print Assumptions C03_future_version.

(* the largest alias table in the repository, plot/maps/static.py:1305-1313 *)
Definition plot_aliases : list (string * string) :=
  [("bus_norm", "bus_cmap_norm"); ("line_norm", "line_cmap_norm"); ("link_norm", "link_cmap_norm");
   ("transformer_norm", "transformer_cmap_norm"); ("color_geomap", "geomap_colors")].

Example C03_nonvacuous :
  good_table plot_aliases /\
  call_wrapped false plot_aliases (fun kw => kw) [("line_norm", 1); ("title", 2)]
    = inl [("title", 2); ("line_cmap_norm", 1)] /\
  call_wrapped false plot_aliases (fun kw => kw) [("line_norm", 1); ("line_cmap_norm", 2)]
    = inr (BothGiven "line_norm" "line_cmap_norm").
Proof.
  split; [|split; reflexivity]. split.
  - repeat constructor; simpl; intuition discriminate.
  - simpl. intros a n H.
    repeat (destruct H as [H|H]; [injection H as <- <-; intuition discriminate|]). contradiction.
Qed.

(* why replacement names must not be deprecated themselves: chains are followed in table order only *)
Example C03_chain_order :
  call_wrapped false [("a", "b"); ("b", "c")] (fun kw => kw) [("a", 1)] = inl [("c", 1)] /\
  call_wrapped false [("b", "c"); ("a", "b")] (fun kw => kw) [("a", 1)] = inl [("b", 1)].
Proof. split; reflexivity. Qed.
