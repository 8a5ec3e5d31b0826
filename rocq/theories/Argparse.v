(** * Model of crazy_complete/argparse_source.py 35-196 and argparse_mod.py. *)
From Verif Require Import Base PyStr Value Cli ArgparseSource.
Open Scope list_scope.

(** ** argparse's objects *)

(** The classes of actions that get_complete tells apart; [KFlag]: store_true, store_false,
    store_const, append_const and count; [KStore]: store, append and extend. *)
Inductive akind := KHelp | KVersion | KFlag | KStore | KBoolean | KOther.
Inductive anargs := NNone | NInt (z : Z) | NText (x : str).
Inductive ametavar := MNone | MText (x : str) | MTuple (l : list str).
(** Simplification: choices are a range, a list, a tuple or a dictionary. *)
Inductive achoices := ChNone | ChRange (start stop step : Z) | ChValue (v : value).
(** [a_complete], [a_when], [a_repeatable], [a_final]: what the methods of argparse_mod.py 23-54
    return. *)
Record action := MkAction {
  a_kind : akind;
  a_strings : list str;
  a_nargs : anargs;
  a_dest : str;
  a_metavar : ametavar;
  a_choices : achoices;
  a_help : option str;
  a_complete : option (list value);
  a_when : option str;
  a_repeatable : xbool;
  a_final : bool }.
(** [Sub choices helps]: an action made by add_subparsers; [choices] are the parsers by name, [helps]
    what [_get_subactions] returns: names with their help.  [pr_groups]: the mutually exclusive groups;
    for each group the option strings of its actions. *)
Inductive parser := Parser (prog : str) (description : option str) (aliases : list str) (items : list item) (groups : list (list (list str)))
with item := Act (a : action) | Sub (choices : list (str * parser)) (helps : list (str * option str)).

Definition SUPPRESS : str := s "==SUPPRESS==".

(** ** The conversion *)

(** [if choices]: empty ranges and collections are false *)
Definition range_nonempty (start stop step : Z) : bool := if (step >? 0)%Z then (start <? stop)%Z else (stop <? start)%Z.
Definition choices_complete (c : achoices) : option (list value) :=
  match c with
  | ChNone => None
  | ChRange start stop step =>
      if range_nonempty start stop step then match range_to_complete start stop step with VList l => Some l | _ => None end else None
  | ChValue v => match v with VList [] | VDict [] => None | _ => Some [VStr (s "choices"); v] end
  end.
(** argparse_source.py 35-74, without the warnings *)
Definition get_complete (a : action) : res (option (list value)) :=
  match a_kind a with
  | KHelp | KVersion | KFlag => Ok None
  | KStore =>
      match a_complete a with
      | Some (x :: l) => Ok (Some (x :: l))
      | _ => match choices_complete (a_choices a) with Some l => Ok (Some l) | None => Ok (Some [VStr (s "none")]) end
      end
  | KBoolean => Err (CrazyError (s "argparse.BooleanOptionalAction is not supported yet"))
  | KOther => Err (CrazyError (s "Unknown action type"))
  end.
(** argparse_source.py 77-83 *)
Definition get_final (a : action) : bool := match a_kind a with KHelp | KVersion => true | _ => a_final a end.
(** [action.metavar or action.dest]; the constructors refuse tuples (type_utils.py) *)
Definition metavar_or_dest (a : action) : res (option str) :=
  match a_metavar a with
  | MTuple (_ :: _) => Err (CrazyError (s "Parameter `metavar` has an invalid type"))
  | MText (c :: x) => Ok (Some (c :: x))
  | _ => Ok (Some (a_dest a))
  end.
(** argparse_source.py 135-142, without the warning *)
Definition is_repeatable (n : anargs) : bool :=
  match n with
  | NText x => negb (str_eqb x (s "?"))
  | NInt z => negb (z =? 1)%Z
  | NNone => false
  end.
(** argparse_source.py 144-152 *)
Definition positional_of_action (number : Z) (a : action) : res pos :=
  do complete <- get_complete a;
  do metavar <- metavar_or_dest a;
  mk_positional number metavar (a_help a) complete false (is_repeatable (a_nargs a)) (a_when a) None.
(** argparse_source.py 153-180, without the warning *)
Definition option_of_action (a : action) : res opt :=
  do complete <- get_complete a;
  do metavar <- (match complete with Some (_ :: _) => metavar_or_dest a | _ => Ok None end);
  let suppressed := match a_help a with Some x => str_eqb x SUPPRESS | None => false end in
  Ok (MkOpt (a_strings a) metavar (if suppressed then None else a_help a) complete false None
        (match a_nargs a with NText x => str_eqb x (s "?") | _ => false end)
        (a_repeatable a) (get_final a) suppressed (a_when a) None SepInherit).

(** argparse_source.py 182-194, cli.py 928-942: each group overwrites the groups of its options *)
Definition share (x y : list str) : bool := existsb (fun a => mems a y) x.
Definition set_groups (o : opt) (g : list str) : opt :=
  MkOpt (o_strings o) (o_metavar o) (o_help o) (o_complete o) (o_nosort o) (Some g) (o_optional_arg o) (o_repeatable o)
    (o_final o) (o_hidden o) (o_when o) (o_capture o) (o_sep o).
Fixpoint apply_groups (n : nat) (groups : list (list (list str))) (l : list opt) : list opt :=
  match groups with
  | [] => l
  | g :: groups' =>
      apply_groups (S n) groups'
        (map (fun o => if existsb (fun strings => share strings (o_strings o)) g then set_groups o [s "group" ++ show_nat n] else o) l)
  end.

(** argparse_source.py 119-130: the help texts of sub-commands *)
Definition help_of (helps : list (str * option str)) (name : str) : option str :=
  match find (fun x => str_eqb (fst x) name) (rev helps) with Some (_ , h) => h | None => None end.
Definition or_else (x : option str) (y : option str) : option str := match x with Some (c :: t) => Some (c :: t) | _ => y end.

(** argparse_source.py 86-196.  [prog]: empty if not given. *)
Fixpoint to_commandline (p : parser) (prog : str) (description : option str) {struct p} : res cmd :=
  let 'Parser own_prog own_description aliases items groups := p in
  let name := match prog with [] => own_prog | _ => prog end in
  do c0 <- mk_commandline name (or_else description own_description) aliases None XInherit XInherit XInherit;
  do c1 <- (fix go (items : list item) (c : cmd) (number : Z) : res cmd :=
      match items with
      | [] => Ok c
      | Act a :: items' =>
          match a_strings a with
          | [] =>
              do q <- positional_of_action (number + 1) a;
              go items' (set_positionals c (c_positionals c ++ [q])) (number + 1)%Z
          | _ =>
              do o <- option_of_action a;
              do c' <- add_option c o;
              go items' c' number
          end
      | Sub choices helps :: items' =>
          if negb (forallb (fun h => mems (fst h) (map fst choices)) helps) then Err KeyError
          else
            do c' <- add_subcommands c;
            do l <- (fix each (choices : list (str * parser)) (l : list cmd) : res (list cmd) :=
                match choices with
                | [] => Ok l
                | (n, q) :: choices' =>
                    do sub <- to_commandline q n (help_of helps n);
                    do l' <- add_commandline_object l sub;
                    each choices' l'
                end) choices [];
            go items' (set_subcommands c' (Some l)) number
      end) items c0 0%Z;
  Ok (set_options c1 (apply_groups 1 groups (c_options c1))).
