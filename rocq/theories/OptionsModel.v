(* Model of /repo/pypsa/_options.py (whole file except printing).
   Python values are an opaque type V. Child dictionaries are association lists.
   Not modelled: docs strings and describe_options (lines 158-200, printing only); names starting
   with an underscore (they address Python attributes of the node, line 68); children whose name
   coincides with a method of OptionsNode. *)
From Coq Require Import List String Ascii Bool Arith.
From Verif Require Import Assoc.
Import ListNotations.
Open Scope string_scope.

(* str.split(".") : always a non-empty list *)
Fixpoint split_dot (s : string) : list string :=
  match s with
  | EmptyString => [EmptyString]
  | String c r =>
      if Ascii.eqb c "."%char then EmptyString :: split_dot r
      else match split_dot r with
           | [] => [String c EmptyString]
           | h :: t => String c h :: t
           end
  end.

Section Opts.
Context {V : Type}.

(* _options.py:29-56. An Option carries a value and a default; an OptionsNode carries children. *)
Inductive node : Type :=
| Opt (value default : V)
| Cat (children : list (string * node)).

(* the error classes raised by the module *)
Inductive oerr : Type :=
| InvalidOption   (* InvalidOptionError, lines 6-26 *)
| ValueErr        (* ValueError, lines 90, 100, 222 *)
| BodyRaised (e : string).  (* whatever the with-body raised *)

Fixpoint child (ch : list (string * node)) (k : string) : option node :=
  match ch with
  | [] => None
  | (k', n) :: r => if String.eqb k' k then Some n else child r k
  end.

Fixpoint set_child (ch : list (string * node)) (k : string) (n : node) : list (string * node) :=
  match ch with
  | [] => [(k, n)]
  | (k', n') :: r => if String.eqb k' k then (k', n) :: r else (k', n') :: set_child r k n
  end.

(* _options.py:106-126 get_option on the list of path parts: navigate through categories (112-117),
   the leaf must be an option (120-126). *)
Fixpoint get_parts (ch : list (string * node)) (parts : list string) : V + oerr :=
  match parts with
  | [] => inr InvalidOption                       (* split never yields [] *)
  | [leaf] => match child ch leaf with
              | Some (Opt v _) => inl v
              | _ => inr InvalidOption
              end
  | p :: rest => match child ch p with
                 | Some (Cat ch') => get_parts ch' rest
                 | _ => inr InvalidOption
                 end
  end.

(* _options.py:128-148 set_option; returns the updated tree or the error (tree untouched) *)
Fixpoint set_parts (ch : list (string * node)) (parts : list string) (v : V)
  : list (string * node) + oerr :=
  match parts with
  | [] => inr InvalidOption
  | [leaf] => match child ch leaf with
              | Some (Opt _ d) => inl (set_child ch leaf (Opt v d))
              | _ => inr InvalidOption
              end
  | p :: rest => match child ch p with
                 | Some (Cat ch') =>
                     match set_parts ch' rest v with
                     | inl ch'' => inl (set_child ch p (Cat ch''))
                     | inr e => inr e
                     end
                 | _ => inr InvalidOption
                 end
  end.

(* _options.py:43-45, 150-156 *)
Fixpoint reset_node (n : node) : node :=
  match n with
  | Opt _ d => Opt d d
  | Cat ch => Cat (map (fun e => (fst e, reset_node (snd e))) ch)
  end.

(* _options.py:80-104 _add_option: creates missing categories, refuses to turn an option into a
   category or a category into an option, otherwise (re)places the leaf with value = default. *)
Fixpoint add_parts (ch : list (string * node)) (parts : list string) (d : V)
  : list (string * node) + oerr :=
  match parts with
  | [] => inr ValueErr
  | [leaf] => match child ch leaf with
              | Some (Cat _) => inr ValueErr
              | _ => inl (set_child ch leaf (Opt d d))
              end
  | p :: rest => match child ch p with
                 | None => match add_parts [] rest d with
                           | inl ch'' => inl (set_child ch p (Cat ch''))
                           | inr e => inr e
                           end
                 | Some (Cat ch') =>
                     match add_parts ch' rest d with
                     | inl ch'' => inl (set_child ch p (Cat ch''))
                     | inr e => inr e
                     end
                 | Some (Opt _ _) => inr ValueErr
                 end
  end.

(* attribute assignment  options.a.b.c = v : the prefix a.b is evaluated by __getattr__
   (_options.py:58-65: a category yields the node, an option yields its plain value, anything else
   raises), then __setattr__ (67-78) on the resulting node: unknown child or category raises,
   an option gets the value. Assigning an attribute of a plain option value raises AttributeError
   (InvalidOptionError is a subclass; modelled by the same constructor). *)
Fixpoint attr_set (ch : list (string * node)) (parts : list string) (v : V)
  : list (string * node) + oerr :=
  match parts with
  | [] => inr InvalidOption
  | [name] => match child ch name with
              | None => inr InvalidOption
              | Some (Cat _) => inr InvalidOption
              | Some (Opt _ d) => inl (set_child ch name (Opt v d))
              end
  | p :: rest => match child ch p with
                 | None => inr InvalidOption
                 | Some (Opt _ _) => inr InvalidOption
                 | Some (Cat ch') =>
                     match attr_set ch' rest v with
                     | inl ch'' => inl (set_child ch p (Cat ch''))
                     | inr e => inr e
                     end
                 end
  end.

Definition tree := list (string * node).          (* children of the root node `options` *)

Definition get_option (t : tree) (path : string) : V + oerr := get_parts t (split_dot path).
Definition set_option (t : tree) (path : string) (v : V) : tree + oerr :=
  set_parts t (split_dot path) v.
Definition reset_all (t : tree) : tree := map (fun e => (fst e, reset_node (snd e))) t.
Definition add_option (t : tree) (path : string) (d : V) : tree + oerr :=
  add_parts t (split_dot path) d.

(* one user-visible call and its effect on the tree; a raising call leaves the tree as it is
   because every raise above happens before the only write *)
Inductive op : Type :=
| SetOption (path : string) (v : V)
| AttrAssign (path : string) (v : V)     (* options.<path> = v *)
| ResetAll
| AddOption (path : string) (d : V).

Definition commit (t : tree) (r : tree + oerr) : tree * option oerr :=
  match r with inl t' => (t', None) | inr e => (t, Some e) end.

Definition step (t : tree) (o : op) : tree * option oerr :=
  match o with
  | SetOption p v => commit t (set_option t p v)
  | AttrAssign p v => commit t (attr_set t (split_dot p) v)
  | ResetAll => (reset_all t, None)
  | AddOption p d => commit t (add_option t p d)
  end.

Definition run (t : tree) (h : list op) : tree := fold_left (fun t o => fst (step t o)) h t.

(* _options.py:206-237 option_context. `args` is the flat positional argument list of Python values;
   as_str tells which values are strings (only those can be option names: path.split fails with
   AttributeError otherwise, modelled as InvalidOption, its subclass). *)
Variable as_str : V -> option string.

(* lines 221-225; None = odd number of arguments *)
Fixpoint pair_up (args : list V) : option (list (V * V)) :=
  match args with
  | [] => Some []
  | a :: b :: r => match pair_up r with Some l => Some ((a, b) :: l) | None => None end
  | [_] => None
  end.

(* lines 230-232: store original, set new; stops at the first raise. Returns the tree, the dict
   original_values and the raised error if any. *)
Fixpoint enter (t : tree) (orig : dict V) (pairs : list (V * V))
  : tree * dict V * option oerr :=
  match pairs with
  | [] => (t, orig, None)
  | (nv, v) :: rest =>
      match as_str nv with
      | None => (t, orig, Some InvalidOption)
      | Some n =>
          match get_option t n with
          | inr e => (t, orig, Some e)
          | inl v0 =>
              let orig' := dset orig n v0 in
              match set_option t n v with
              | inr e => (t, orig', Some e)
              | inl t' => enter t' orig' rest
              end
          end
      end
  end.

(* lines 234-237: the finally block; a raise inside would abort the remaining restores *)
Fixpoint restore (t : tree) (orig : dict V) : tree * option oerr :=
  match orig with
  | [] => (t, None)
  | (n, v0) :: rest =>
      match set_option t n v0 with
      | inr e => (t, Some e)
      | inl t' => restore t' rest
      end
  end.

(* the with statement: body is an arbitrary state transformer that may raise *)
Definition with_pairs (t : tree) (pairs : list (V * V))
           (body : tree -> tree * option oerr) : tree * option oerr :=
  let '(t1, orig, err) := enter t [] pairs in
  let '(t2, out) := match err with
                    | Some e => (t1, Some e)
                    | None => body t1
                    end in
  match restore t2 orig with
  | (t3, Some e) => (t3, Some e)
  | (t3, None) => (t3, out)
  end.

Definition option_context (t : tree) (args : list V)
           (body : tree -> tree * option oerr) : tree * option oerr :=
  match pair_up args with
  | None => (t, Some ValueErr)
  | Some pairs => with_pairs t pairs body
  end.

End Opts.

Arguments node : clear implicits.
Arguments tree : clear implicits.
Arguments op : clear implicits.

(* _options.py:241-261: the tree set up at import time *)
Inductive pyval : Type := PBool (b : bool) | PInt (z : nat) | PStr (s : string).

Definition py_str (v : pyval) : option string := match v with PStr s => Some s | _ => None end.

Definition default_tree : tree pyval :=
  run [] [AddOption "warnings.components_store_iter" (PBool true);
          AddOption "params.statistics.nice_names" (PBool true);
          AddOption "params.statistics.drop_zero" (PBool true);
          AddOption "params.statistics.round" (PInt 5)].
