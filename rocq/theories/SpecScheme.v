(** * Specification vocabulary for the validation of definitions. *)
From Verif Require Import Base Dict Value StrUtils Cli DictSource SchemeValidator.

(** A completer is accepted in the place described by the completers that enclose it (outermost
    first). *)
Definition accepted (e : env) (c : ctx) (enclosing : list str) (v : value) : Prop :=
  exists t, check_complete e c enclosing v = Ok t.

(** ** Nesting *)

(** The completer of an entry [key, description, completer, ...] of a key-value completer, if
    there is one. *)
Definition entry_completer (v : value) : list value :=
  match v with
  | VList (_ :: _ :: VNone :: _) => []
  | VList (_ :: _ :: x :: _) => [x]
  | _ => []
  end.

(** The completers written directly inside a completer. *)
Definition children (v : value) : list value :=
  match v with
  | VList (VStr name :: args) =>
      if str_eqb name (s "combine") then
        match args with [VList l] => l | _ => [] end
      else if str_eqb name (s "key_value_list") then
        match args with _ :: _ :: VList l :: _ => flat_map entry_completer l | _ => [] end
      else if str_eqb name (s "key_value_pair") then
        match args with _ :: VList l :: _ => flat_map entry_completer l | _ => [] end
      else if str_eqb name (s "list") then
        match args with x :: _ => [x] | _ => [] end
      else if str_eqb name (s "prefix") then
        match args with [_; x] => [x] | _ => [] end
      else []
  | _ => []
  end.

Definition name_of (v : value) : str := match v with VList (VStr name :: _) => name | _ => [] end.

(** [inside enc v enc' x]: [x] is [v] (which stands inside the completers [enc]) or a completer
    at any depth inside of it; [enc'] are the completers that enclose [x]. *)
Inductive inside (enc : list str) (v : value) : list str -> value -> Prop :=
| inside_self : inside enc v enc v
| inside_child enc' x y : inside enc v enc' x -> In y (children x) ->
    inside enc v (enc' ++ [name_of x]) y.

(** The same completer with all completers directly inside replaced by [['file']], which is
    accepted everywhere. *)
Definition harmless : value := VList [VStr (s "file")].
Definition blank_entry (v : value) : value :=
  match v with
  | VList (a :: b :: VNone :: r) => v
  | VList (a :: b :: _ :: r) => VList (a :: b :: harmless :: r)
  | _ => v
  end.
Definition blank (v : value) : value :=
  match v with
  | VList (VStr name :: args) =>
      VList (VStr name ::
        if str_eqb name (s "combine") then
          match args with [VList l] => [VList (map (fun _ => harmless) l)] | _ => args end
        else if str_eqb name (s "key_value_list") then
          match args with
          | a :: b :: VList l :: r => a :: b :: VList (map blank_entry l) :: r
          | _ => args
          end
        else if str_eqb name (s "key_value_pair") then
          match args with
          | a :: VList l :: r => a :: VList (map blank_entry l) :: r
          | _ => args
          end
        else if str_eqb name (s "list") then
          match args with _ :: r => harmless :: r | _ => args end
        else if str_eqb name (s "prefix") then
          match args with [a; _] => [a; harmless] | _ => args end
        else args)
  | _ => v
  end.

(** A completer is fine in its place, whatever the completers inside of it are. *)
Definition fine (e : env) (c : ctx) (enclosing : list str) (x : value) : Prop :=
  accepted e c enclosing (blank x).

(** Completers that can contain others, and completers that are not allowed everywhere. *)
Definition nesting (v : value) : Prop :=
  In (name_of v) [s "combine"; s "key_value_list"; s "key_value_pair"; s "list"; s "prefix"].
Definition sensitive (v : value) : Prop := In (name_of v) [s "none"; s "command_arg"].

(** No completer that is not allowed everywhere follows, as a sibling, a completer that contains
    others. *)
Definition undisturbed (v : value) : Prop :=
  forall enc x l1 y l2 z, inside [] v enc x -> children x = l1 ++ y :: l2 -> nesting y ->
    In z l2 -> ~ sensitive z.

(** ** Ranges *)

(** The numbers offered by [['range', start, stop, step]]. *)
Definition in_range (start stop step x : Z) : Prop :=
  exists k, (0 <= k)%Z /\ x = (start + k * step)%Z /\
    ((0 < step)%Z -> (x <= stop)%Z) /\ ((step < 0)%Z -> (stop <= x)%Z).
(** The elements of Python's [range(start, stop, step)]. *)
Definition in_pyrange (start stop step x : Z) : Prop :=
  exists k, (0 <= k)%Z /\ x = (start + k * step)%Z /\
    ((0 < step)%Z -> (x < stop)%Z) /\ ((step < 0)%Z -> (stop < x)%Z).

(** ** Positionals *)

Definition positional_of (v : value) (n : Z) (rep : bool) : Prop :=
  exists p, v = VDict p /\ (vget (s "number") p = Some (VInt n) \/
                            exists b, vget (s "number") p = Some (VBool b) /\ n = (if b then 1 else 0)%Z) /\
    rep = match vget (s "repeatable") p with Some x => truthy x | None => false end.

(** All repeatable positionals share one number, and no positional has a greater one. *)
Definition last_repeatable (l : list value) : Prop :=
  forall v n w m r, In v l -> In w l -> positional_of v n true -> positional_of w m r ->
    (m <= n)%Z /\ (r = true -> m = n).
Definition some_repeatable (l : list value) : Prop :=
  exists v n, In v l /\ positional_of v n true.

(** ** Lists of definitions *)

(** The words of the [prog] entry of a definition. *)
Definition words (v : value) : list str :=
  match v with
  | VDict d => match vget (s "prog") d with Some (VStr p) => split_c SP p | _ => [] end
  | _ => []
  end.
Definition names_program (v : value) : Prop :=
  exists d p, v = VDict d /\ vget (s "prog") d = Some (VStr p) /\ validate_prog p = Ok tt.
Definition parents_first (docs : list value) : Prop :=
  forall before v after, docs = before ++ v :: after ->
    removelast (words v) = [] \/ In (removelast (words v)) (map words before).
Definition one_program (docs : list value) : Prop :=
  exists v, In v docs /\ length (words v) = 1 /\
    forall v', In v' docs -> length (words v') = 1 -> v' = v.
Definition has_subcommand (docs : list value) (v : value) : Prop :=
  exists w, In w docs /\ words w <> [] /\ removelast (words w) = words v.

(** A definition is right by itself, and a repeatable positional is the last thing the command
    accepts. *)
Definition positionals_of (v : value) : list value :=
  match v with
  | VDict d => match vget (s "positionals") d with Some (VList l) => l | _ => [] end
  | _ => []
  end.
Definition right (e : env) (docs : list value) (v : value) : Prop :=
  (exists d, v = VDict d /\ check_definition e d = Ok tt) /\
  last_repeatable (positionals_of v) /\
  (some_repeatable (positionals_of v) -> ~ has_subcommand docs v).
