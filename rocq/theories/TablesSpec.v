(* What the table calls are meant to guarantee, stated on the observable content of the tables. *)
From Coq Require Import List String Bool ZArith.
From Verif Require Import Assoc TablesModel.
Import ListNotations.
Open Scope string_scope.
Open Scope list_scope.

(* a time-series frame fits snapshots S and component names N *)
Definition good_table (S N : list string) (t : table) : Prop :=
  tindex t = S /\ NoDup (dkeys (tcols t)) /\
  forall name col, In (name, col) (tcols t) -> In name N /\ List.length col = List.length S.

Definition good_comp (S : list string) (m : meta) (c : comp) : Prop :=
  NoDup (names_of c) /\
  NoDup (dkeys (dyn c)) /\
  (* each row has a cell for every registered static attribute *)
  (forall name row a am, In (name, row) (static c) -> dget m a = Some am ->
      akind am <> KSeries -> In a (dkeys row)) /\
  (* and none for the attributes that exist only as time series *)
  (forall name row a, In (name, row) (static c) -> In a (dkeys row) -> is_series m a = false) /\
  (* each registered varying attribute has its frame *)
  (forall a am, dget m a = Some am -> akind am <> KStatic -> In a (dkeys (dyn c))) /\
  (* all frames fit *)
  (forall a t, In (a, t) (dyn c) -> good_table S (names_of c) t).

(* consistency of the whole network *)
Definition Inv (metas : dict meta) (n : net) : Prop :=
  NoDup (snaps n) /\
  snaps n <> [] /\
  tindex (weights n) = snaps n /\
  (forall w col, In (w, col) (tcols (weights n)) -> List.length col = List.length (snaps n)) /\
  dkeys (comps n) = dkeys metas /\
  (forall cls c m, dget (comps n) cls = Some c -> dget metas cls = Some m ->
      good_comp (snaps n) m c).

(* arguments as pandas and numpy can hand them over: rectangular frames, distinct keywords *)
Definition kw_ok (v : kwval) : Prop :=
  match v with
  | Ser idx l => List.length l = List.length idx
  | Frame idx cols => forall e, In e cols -> List.length (snd e) = List.length idx
  | Array2 nrows cols => forall c, In c cols -> List.length c = nrows
  | _ => True
  end.

Definition op_ok (o : nop) : Prop :=
  match o with
  | Add _ _ _ _ _ kw => NoDup (map fst kw) /\ forall k v, In (k, v) kw -> kw_ok v
  | Remove _ _ _ => True
  | SetSnapshots sns _ => sns <> [] /\ NoDup sns
  end.

(* the value of attribute [attr] of component [name] at snapshot [s] as the rest of the package
   reads it: the time series if there is one, otherwise the static value; attributes that exist only
   as series read as their default where no column exists *)
Definition eff (m : meta) (c : comp) (name attr s : string) : option val :=
  match dget (static c) name with
  | None => None
  | Some row =>
      match (match dget (dyn c) attr with Some t => tget t name s | None => None end) with
      | Some v => Some v
      | None => if is_series m attr then Some (default_of m attr)
                else Some (match dget row attr with Some v => v | None => VNaN end)
      end
  end.

(* the value a keyword gives to component number i of the call at snapshot number j *)
Definition given (single : bool) (v : kwval) (i j : nat) : val :=
  match v with
  | Scalar x => x
  | List1 l => if single then nth j l VNaN
               else match l with [x] => x | _ => nth i l VNaN end
  | Ser _ l => if single then nth j l VNaN
               else match l with [x] => x | _ => nth i l VNaN end
  | Frame _ cols => nth j (nth i (map snd cols) []) VNaN
  | Array2 _ cols => nth j (nth i cols []) VNaN
  | DictArg => VNaN
  end.

(* does the keyword make a time series (True) or a static value (False)? *)
Definition gives_series (single : bool) (v : kwval) : bool :=
  match v with
  | List1 _ | Ser _ _ => single
  | Frame _ _ | Array2 _ _ => true
  | _ => false
  end.
