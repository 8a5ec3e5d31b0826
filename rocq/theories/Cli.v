(** * Model of crazy_complete/cli.py and of the command name part of utils.py.

    Objects are immutable trees here.  The [parent] pointer of a command line is the list of
    its ancestors, nearest first, in a located command (see [located]).  Simplifications:
    - type errors ([validate_type]) cannot occur: the fields are typed;
    - a [SubCommandsOption] is the list of its subcommands; its other fields are constant
      (metavar 'command', help None, complete ['none']) and its number is computed when needed
      (see [subcommands_number]);
    - text of error messages is shortened. *)
From Verif Require Import Base Dict Value StrUtils Abbrev.

(** cli.py 24-31: True, False or INHERIT *)
Inductive xbool := XTrue | XFalse | XInherit.
Definition xbool_eqb (a b : xbool) : bool :=
  match a, b with
  | XTrue, XTrue | XFalse, XFalse | XInherit, XInherit => true
  | _, _ => false
  end.

(** cli.py 717-718: the values of [long_opt_arg_sep] *)
Inductive argsep := SepInherit | SepSpace | SepEquals | SepBoth.

(** cli.py 602-743 *)
Record opt := MkOpt {
  o_strings : list str;
  o_metavar : option str;
  o_help : option str;
  o_complete : option (list value);
  o_nosort : bool;
  o_groups : option (list str);
  o_optional_arg : bool;
  o_repeatable : xbool;
  o_final : bool;
  o_hidden : bool;
  o_when : option str;
  o_capture : option str;
  o_sep : argsep }.

(** cli.py 468-537 *)
Record pos := MkPos {
  p_number : Z;
  p_metavar : option str;
  p_help : option str;
  p_complete : list value;
  p_nosort : bool;
  p_repeatable : bool;
  p_when : option str;
  p_capture : option str }.

(** cli.py 33-114 *)
Inductive cmd := Cmd
  (prog : str) (help : option str) (aliases : list str) (wraps : option str)
  (abbreviate_commands abbreviate_options inherit_options : xbool)
  (options : list opt) (positionals : list pos) (subcommands : option (list cmd)).

Definition c_prog (c : cmd) := let 'Cmd x _ _ _ _ _ _ _ _ _ := c in x.
Definition c_help (c : cmd) := let 'Cmd _ x _ _ _ _ _ _ _ _ := c in x.
Definition c_aliases (c : cmd) := let 'Cmd _ _ x _ _ _ _ _ _ _ := c in x.
Definition c_wraps (c : cmd) := let 'Cmd _ _ _ x _ _ _ _ _ _ := c in x.
Definition c_abbrev_cmds (c : cmd) := let 'Cmd _ _ _ _ x _ _ _ _ _ := c in x.
Definition c_abbrev_opts (c : cmd) := let 'Cmd _ _ _ _ _ x _ _ _ _ := c in x.
Definition c_inherit (c : cmd) := let 'Cmd _ _ _ _ _ _ x _ _ _ := c in x.
Definition c_options (c : cmd) := let 'Cmd _ _ _ _ _ _ _ x _ _ := c in x.
Definition c_positionals (c : cmd) := let 'Cmd _ _ _ _ _ _ _ _ x _ := c in x.
Definition c_subcommands (c : cmd) := let 'Cmd _ _ _ _ _ _ _ _ _ x := c in x.
Definition subs (c : cmd) : list cmd := match c_subcommands c with Some l => l | None => [] end.

Definition is_some {A} (o : option A) : bool := match o with Some _ => true | None => false end.
Definition nonempty {A} (l : list A) : bool := match l with [] => false | _ => true end.
(** truth of an optional list or string: neither None nor empty *)
Definition otruthy {A} (o : option (list A)) : bool :=
  match o with Some l => nonempty l | None => false end.

(** cli.py 680-727 *)
Definition mk_option (o : opt) : res opt :=
  if negb (nonempty (o_strings o)) then Err (CrazyError (s "Empty option strings"))
  else if negb (forallb is_valid_option_string (o_strings o))
    then Err (CrazyError (s "Invalid option string"))
  else if match o_capture o with Some x => negb (is_valid_variable_name x) | None => false end
    then Err (CrazyError (s "Invalid variable name"))
  else if otruthy (o_metavar o) && negb (otruthy (o_complete o))
    then Err (CrazyError (s "Option has metavar set, but has no complete"))
  else if o_optional_arg o && negb (otruthy (o_complete o))
    then Err (CrazyError (s "Option has optional_arg=True, but has no complete"))
  else if o_hidden o && xbool_eqb (o_repeatable o) XTrue
    then Err (CrazyError (s "Option has both hidden and repeatable set to True"))
  else Ok o.

(** cli.py 512-537; [complete] may be None or empty and becomes ['none']. *)
Definition mk_positional (number : Z) (metavar help : option str) (complete : option (list value))
    (nosort repeatable : bool) (when capture : option str) : res pos :=
  if match capture with Some x => negb (is_valid_variable_name x) | None => false end
    then Err (CrazyError (s "Invalid variable name"))
  else if (number <=? 0)%Z then Err (CrazyError (s "number has to be >= 1"))
  else Ok (MkPos number metavar help
             (match complete with
              | Some (x :: l) => x :: l
              | _ => [VStr (s "none")]
              end) nosort repeatable when capture).

(** cli.py 71-114 *)
Definition mk_commandline (prog : str) (help : option str) (aliases : list str)
    (wraps : option str) (abc abo inh : xbool) : res cmd :=
  if match wraps with Some w => is_empty_or_whitespace w | None => false end
    then Err (CrazyError (s "wraps is empty"))
  else if match wraps with Some w => contains_space w | None => false end
    then Err (CrazyError (s "wraps: cannot contain space"))
  else if existsb contains_space aliases then Err (CrazyError (s "aliases: cannot contain space"))
  else Ok (Cmd prog help aliases wraps abc abo inh [] [] None).

Definition set_options (c : cmd) (x : list opt) : cmd :=
  let 'Cmd a b cc d e f g _ i j := c in Cmd a b cc d e f g x i j.
Definition set_positionals (c : cmd) (x : list pos) : cmd :=
  let 'Cmd a b cc d e f g h _ j := c in Cmd a b cc d e f g h x j.
Definition set_subcommands (c : cmd) (x : option (list cmd)) : cmd :=
  let 'Cmd a b cc d e f g h i _ := c in Cmd a b cc d e f g h i x.

(** cli.py 116-127 *)
Definition add_option (c : cmd) (o : opt) : res cmd :=
  do o' <- mk_option o; Ok (set_options c (c_options c ++ [o'])).

(** cli.py 129-140 *)
Definition add_positional (c : cmd) (p : pos) : res cmd :=
  do p' <- mk_positional (p_number p) (p_metavar p) (p_help p) (Some (p_complete p))
             (p_nosort p) (p_repeatable p) (p_when p) (p_capture p);
  Ok (set_positionals c (c_positionals c ++ [p'])).

(** cli.py 151-165; a [SubCommandsOption] object is always true. *)
Definition add_subcommands (c : cmd) : res cmd :=
  match c_subcommands c with
  | Some _ => Err (CrazyError (s "CommandLine object already has subcommands"))
  | None => Ok (set_subcommands c (Some []))
  end.

(** cli.py 893-899 *)
Definition get_subcommand_by_name (l : list cmd) (name : str) : option cmd :=
  find (fun c => str_eqb (c_prog c) name) l.

(** cli.py 861-868; a command line object is always true. *)
Definition add_commandline_object (l : list cmd) (c : cmd) : res (list cmd) :=
  match get_subcommand_by_name l (c_prog c) with
  | Some _ => Err (CrazyError (s "Duplicate subcommand"))
  | None => Ok (l ++ [c])
  end.

(** cli.py 870-878 *)
Definition add_commandline (l : list cmd) (name help : str) : res (list cmd) :=
  match get_subcommand_by_name l name with
  | Some _ => Err (CrazyError (s "Duplicate subcommand"))
  | None => Ok (l ++ [Cmd name (Some help) [] None XInherit XInherit XInherit [] [] None])
  end.

(** cli.py 880-891: an ordered dictionary from name to help *)
Definition get_choices (l : list cmd) (with_aliases : bool) : list (str * option str) :=
  fold_left (fun r sub =>
      let r := dset str_eqb (c_prog sub) (c_help sub) r in
      if with_aliases
      then fold_left (fun r alias => dset str_eqb alias (c_help sub) r) (c_aliases sub) r
      else r) l [].

(** ** Equality *)

(** cli.py 827-842; [long_opt_arg_sep] is not compared. *)
Definition opt_eqb (a b : opt) : bool :=
  list_eqb str_eqb (o_strings a) (o_strings b)
  && option_eqb str_eqb (o_metavar a) (o_metavar b)
  && option_eqb str_eqb (o_help a) (o_help b)
  && Bool.eqb (o_optional_arg a) (o_optional_arg b)
  && xbool_eqb (o_repeatable a) (o_repeatable b)
  && Bool.eqb (o_final a) (o_final b)
  && Bool.eqb (o_hidden a) (o_hidden b)
  && option_eqb (list_eqb value_eqb) (o_complete a) (o_complete b)
  && Bool.eqb (o_nosort a) (o_nosort b)
  && option_eqb (list_eqb str_eqb) (o_groups a) (o_groups b)
  && option_eqb str_eqb (o_when a) (o_when b)
  && option_eqb str_eqb (o_capture a) (o_capture b).

(** cli.py 573-584 *)
Definition pos_eqb (a b : pos) : bool :=
  Z.eqb (p_number a) (p_number b)
  && option_eqb str_eqb (p_metavar a) (p_metavar b)
  && option_eqb str_eqb (p_help a) (p_help b)
  && Bool.eqb (p_repeatable a) (p_repeatable b)
  && list_eqb value_eqb (p_complete a) (p_complete b)
  && Bool.eqb (p_nosort a) (p_nosort b)
  && option_eqb str_eqb (p_when a) (p_when b)
  && option_eqb str_eqb (p_capture a) (p_capture b).

(** cli.py 437-450, 901-908 *)
Fixpoint cmd_eqb (a b : cmd) : bool :=
  let 'Cmd prog help aliases wraps abc abo inh options positionals subcommands := a in
  str_eqb prog (c_prog b)
  && list_eqb str_eqb aliases (c_aliases b)
  && option_eqb str_eqb help (c_help b)
  && option_eqb str_eqb wraps (c_wraps b)
  && xbool_eqb abc (c_abbrev_cmds b)
  && xbool_eqb abo (c_abbrev_opts b)
  && xbool_eqb inh (c_inherit b)
  && list_eqb opt_eqb options (c_options b)
  && list_eqb pos_eqb positionals (c_positionals b)
  && match subcommands, c_subcommands b with
     | None, None => true
     | Some x, Some y => list_eqb cmd_eqb x y
     | _, _ => false
     end.

(** ** Located commands *)

(** [located root ps c]: [c] is a command of the tree [root] and [ps] are its ancestors,
    nearest first.  This is what the [parent] pointers of a tree built by the functions above
    say. *)
Inductive located (root : cmd) : list cmd -> cmd -> Prop :=
| located_root : located root [] root
| located_sub ps c sub : located root ps c -> In sub (subs c) -> located root (c :: ps) sub.

(** cli.py 297-320: root first.  [ps] are the ancestors, nearest first. *)
Fixpoint parents_loop (ps : list cmd) (acc : list cmd) : list cmd :=
  match ps with [] => acc | p :: ps' => parents_loop ps' (p :: acc) end.
Definition get_parents (ps : list cmd) (c : cmd) (include_self : bool) : list cmd :=
  let parents := parents_loop ps [] in
  if include_self then parents ++ [c] else parents.

(** cli.py 322-328 *)
Definition get_root_commandline (ps : list cmd) (c : cmd) : cmd := last ps c.

(** cli.py 364-371 (without a given program name) *)
Definition get_command_path (ps : list cmd) (c : cmd) : str :=
  join [SP] (map c_prog (get_parents ps c true)).

(** ** Options of a command line *)

(** [<=] on strings: lexicographic by code point *)
Fixpoint str_leb (a b : str) : bool :=
  match a, b with
  | [], _ => true
  | _ :: _, [] => false
  | x :: a', y :: b' => N.ltb x y || (N.eqb x y && str_leb a' b')
  end.
(** [sorted] on strings: the result does not depend on the algorithm. *)
Fixpoint insert_str (x : str) (l : list str) : list str :=
  match l with
  | [] => [x]
  | y :: l' => if str_leb x y then x :: l else y :: insert_str x l'
  end.
Definition sort_strs (l : list str) : list str := fold_right insert_str [] l.

(** cli.py 753-756 *)
Definition option_strings_key (o : opt) : str := join [SP] (sort_strs (o_strings o)).

(** cli.py 183-190: the values of the ordered dictionary are pairs of a command line and the
    options collected from it. *)
Definition getter_add (d : list (str * (cmd * list opt))) (o : opt) (c : cmd)
    : list (str * (cmd * list opt)) :=
  let key := option_strings_key o in
  let d := if dmem str_eqb key d then d else dset str_eqb key (c, []) d in
  match dget str_eqb key d with
  | Some (c', os) => if cmd_eqb c' c then dset str_eqb key (c', os ++ [o]) d else d
  | None => d   (* unreachable: the key has just been set *)
  end.

(** cli.py 170-181, 192-198, 200-222 *)
Definition get_options (ps : list cmd) (c : cmd) (with_parent_options only_with_arguments : bool)
    : list opt :=
  let commandlines := if with_parent_options then get_parents ps c true else [c] in
  let d :=
    fold_left (fun d c' =>
        fold_left (fun d o =>
            if negb only_with_arguments || otruthy (o_complete o) then getter_add d o c' else d)
          (c_options c') d)
      (rev commandlines) [] in
  flat_map (fun e => snd (snd e)) d.

(** cli.py 224-250 *)
Definition get_option_strings (ps : list cmd) (c : cmd) (with_parent_options only_with_arguments : bool)
    : list str :=
  flat_map o_strings (get_options ps c with_parent_options only_with_arguments).

(** cli.py 252-264 *)
Definition get_final_options (ps : list cmd) (c : cmd) : list opt :=
  flat_map (fun c' => filter o_final (c_options c')) (c :: ps).

(** cli.py 330-346; the inner loop finds the first option that has the string. *)
Fixpoint options_by_strings_loop (options : list opt) (result : list opt) (strings : list str)
    : res (list opt) :=
  match strings with
  | [] => Ok result
  | x :: strings' =>
      match find (fun o => mems x (o_strings o)) options with
      | Some o =>
          options_by_strings_loop options
            (if existsb (opt_eqb o) result then result else result ++ [o]) strings'
      | None => Err (CrazyError (s "Option not found"))
      end
  end.
Definition get_options_by_option_strings (c : cmd) (strings : list str) : res (list opt) :=
  options_by_strings_loop (c_options c) [] strings.

(** cli.py 785-802 *)
Fixpoint remove_first (o : opt) (l : list opt) : res (list opt) :=
  match l with
  | [] => Err (ValueError (s "list.remove(x): x not in list"))
  | x :: l' => if opt_eqb x o then Ok l' else do r <- remove_first o l'; Ok (x :: r)
  end.
Definition has_group (g : str) (o : opt) : bool :=
  match o_groups o with Some gs => mems g gs | None => false end.
Definition get_conflicting_options (options : list opt) (self : opt) : res (list opt) :=
  if negb (otruthy (o_groups self)) then Ok []
  else
    let groups := match o_groups self with Some gs => gs | None => [] end in
    let r := fold_left (fun r g =>
        fold_left (fun r o =>
            if has_group g o then if existsb (opt_eqb o) r then r else r ++ [o] else r)
          options r) groups [] in
    remove_first self r.

(** cli.py 816-825 *)
Definition has_required_arg (o : opt) : bool := is_some (o_complete o) && negb (o_optional_arg o).
Definition has_optional_arg (o : opt) : bool := is_some (o_complete o) && o_optional_arg o.

(** ** Positional numbers *)

Definition highest_number (l : list pos) : Z :=
  fold_left (fun h p => Z.max h (p_number p)) l 0%Z.

(** cli.py 348-356 *)
Definition get_highest_positional_num (c : cmd) : Z :=
  (highest_number (c_positionals c) + if is_some (c_subcommands c) then 1 else 0)%Z.

(** cli.py 852-859: the number of the subcommand selector when the positionals were added
    before it, as all the sources and [copy] do. *)
Definition subcommands_number (c : cmd) : Z := (highest_number (c_positionals c) + 1)%Z.

(** cli.py 539-558; [ps] are the ancestors of the command line that has the positional. *)
Definition positional_index (ps : list cmd) (number : Z) : Z :=
  fold_left (fun n c =>
      let n := (n + highest_number (c_positionals c))%Z in
      if is_some (c_subcommands c) then (n + 1)%Z else n)
    (parents_loop ps []) (number - 1)%Z.

(** ** Walking and copying *)

(** cli.py 373-386: all command lines with their ancestors, in the order of the visit *)
Fixpoint visit_commandlines (ps : list cmd) (c : cmd) : list (list cmd * cmd) :=
  let 'Cmd _ _ _ _ _ _ _ _ _ subcommands := c in
  (ps, c) :: match subcommands with
             | None => []
             | Some l => (fix go l := match l with
                                      | [] => []
                                      | x :: l' => visit_commandlines (c :: ps) x ++ go l'
                                      end) l
             end.

Fixpoint fold_res {A B} (f : A -> B -> res A) (l : list B) (a : A) : res A :=
  match l with
  | [] => Ok a
  | x :: l' => do a' <- f a x; fold_res f l' a'
  end.

(** cli.py 388-435 *)
Fixpoint copy (c : cmd) : res cmd :=
  let 'Cmd prog help aliases wraps abc abo inh options positionals subcommands := c in
  do c0 <- mk_commandline prog help aliases wraps abc abo inh;
  do c1 <- fold_res add_option options c0;
  do c2 <- fold_res add_positional positionals c1;
  match subcommands with
  | None => Ok c2
  | Some l =>
      do c3 <- add_subcommands c2;
      do l' <- (fix go (acc : list cmd) (l : list cmd) : res (list cmd) :=
                  match l with
                  | [] => Ok acc
                  | x :: l' => do y <- copy x; do acc' <- add_commandline_object acc y; go acc' l'
                  end) [] l;
      Ok (set_subcommands c3 (Some l'))
  end.

(** ** Command lines that can be built *)

(** The command lines that any sequence of calls of the constructors and the [add_...]
    functions can build.  [built_sub]: [add_commandline_object] on the subcommands. *)
Inductive built : cmd -> Prop :=
| built_new prog help aliases wraps abc abo inh c :
    mk_commandline prog help aliases wraps abc abo inh = Ok c -> built c
| built_option c o c' : built c -> add_option c o = Ok c' -> built c'
| built_positional c p c' : built c -> add_positional c p = Ok c' -> built c'
| built_subcommands c c' : built c -> add_subcommands c = Ok c' -> built c'
| built_sub c l sub l' : built c -> c_subcommands c = Some l -> built sub ->
    add_commandline_object l sub = Ok l' -> built (set_subcommands c (Some l')).

(** ** Names and abbreviations of commands (utils.py) *)

(** utils.py 173-190; the second argument is the parent. *)
Definition get_all_command_variations (c : cmd) (parent : option cmd) : res (list str) :=
  match parent with
  | None => Ok (c_prog c :: c_aliases c)
  | Some p =>
      match c_abbrev_cmds c with
      | XFalse => Ok (c_prog c :: c_aliases c)
      | _ =>   (* True, or the non-empty text INHERIT *)
          do a <- get_abbreviations (command_abbreviations (map c_prog (subs p))) (c_prog c);
          Ok (a ++ c_aliases c)
      end
  end.

(** utils.py 157-170; None is the generator that does not abbreviate.  [inherit_options] is
    true unless False. *)
Definition get_option_abbreviator (ps : list cmd) (c : cmd)
    : res (option (list (str * (list str * nat)))) :=
  match c_abbrev_opts c with
  | XFalse => Ok None
  | _ =>
      let with_parents := negb (xbool_eqb (c_inherit c) XFalse) in
      let options := get_options ps c with_parents false in
      let strings := flat_map (fun o => get_long_option_strings (o_strings o)
                                        ++ get_old_option_strings (o_strings o)) options in
      do d <- option_abbreviations strings; Ok (Some d)
  end.

(** utils.py 257-274 *)
Definition get_query_option_strings (ps : list cmd) (c : cmd) (with_parent_options : bool) : str :=
  join [SP] (flat_map (fun o =>
      if has_required_arg o then map (fun x => x ++ s "=") (o_strings o)
      else if has_optional_arg o then map (fun x => x ++ s "=?") (o_strings o)
      else o_strings o)
    (get_options ps c with_parent_options false)).
