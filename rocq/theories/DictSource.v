(** * Model of crazy_complete/dictionary_source.py and crazy_complete/compat.py. *)
From Verif Require Import Base Dict StrUtils Value Cli.
Open Scope list_scope.

(** [d.get(k)] for a text key *)
Definition vget (k : str) (d : list (value * value)) : option value := dget value_eqb (VStr k) d.

(** ** Reading values (the type checks of cli.py 71-114, 512-537 and 680-727).
    Each returns [CrazyError] (CrazyTypeError) on a value of the wrong type.  The Python code
    checks all types before it checks the values; here the checks are made one after the other,
    so that only the text of the first reported error may differ. *)
Definition type_error : exn := CrazyError (s "Invalid type").

Fixpoint as_strs (l : list value) : res (list str) :=
  match l with
  | [] => Ok []
  | VStr x :: l' => do r <- as_strs l'; Ok (x :: r)
  | _ :: _ => Err type_error
  end.
Definition as_str_list (v : value) : res (list str) :=
  match v with VList l => as_strs l | _ => Err type_error end.
Definition as_opt_str_list (v : value) : res (option (list str)) :=
  match v with VNone => Ok None | _ => do l <- as_str_list v; Ok (Some l) end.
Definition as_opt_str (v : value) : res (option str) :=
  match v with VNone => Ok None | VStr x => Ok (Some x) | _ => Err type_error end.
Definition as_opt_list (v : value) : res (option (list value)) :=
  match v with VNone => Ok None | VList l => Ok (Some l) | _ => Err type_error end.
Definition as_bool (v : value) : res bool :=
  match v with VBool b => Ok b | _ => Err type_error end.
Definition INHERIT : str := s "INHERIT".
(** cli.py 27-30 *)
Definition as_xbool (v : value) : res xbool :=
  match v with
  | VBool true => Ok XTrue
  | VBool false => Ok XFalse
  | VStr x => if str_eqb x INHERIT then Ok XInherit else Err type_error
  | _ => Err type_error
  end.
(** In Python a bool is an int. *)
Definition as_int (v : value) : res Z :=
  match v with
  | VInt z => Ok z
  | VBool b => Ok (if b then 1 else 0)%Z
  | _ => Err type_error
  end.
Definition as_sep (v : value) : res argsep :=
  match v with
  | VStr x =>
      if str_eqb x INHERIT then Ok SepInherit
      else if str_eqb x (s "space") then Ok SepSpace
      else if str_eqb x (s "equals") then Ok SepEquals
      else if str_eqb x (s "both") then Ok SepBoth
      else Err (CrazyError (s "Invalid value for `long_opt_arg_sep`"))
  | _ => Err type_error
  end.

Definition getd (k : str) (default : value) (d : list (value * value)) : value :=
  match vget k d with Some v => v | None => default end.

(** dictionary_source.py 17-20 *)
Definition validate_keys (d : list (value * value)) (allowed : list str) : res unit :=
  if forallb (fun kv => match fst kv with VStr k => mems k allowed | _ => false end) d
  then Ok tt else Err (CrazyError (s "Unknown key")).

Definition option_keys : list str :=
  [s "option_strings"; s "metavar"; s "help"; s "optional_arg"; s "groups"; s "repeatable";
   s "final"; s "hidden"; s "complete"; s "nosort"; s "when"; s "capture"; s "long_opt_arg_sep"].
Definition positional_keys : list str :=
  [s "number"; s "metavar"; s "help"; s "repeatable"; s "complete"; s "nosort"; s "when";
   s "capture"].
Definition command_keys : list str :=
  [s "prog"; s "help"; s "aliases"; s "wraps"; s "abbreviate_commands"; s "abbreviate_options";
   s "inherit_options"; s "options"; s "positionals"].

(** dictionary_source.py 49-69; [keys()] of something else than a dictionary is an
    AttributeError. *)
Definition add_option_dict (c : cmd) (v : value) : res cmd :=
  match v with
  | VDict d =>
      do _ <- validate_keys d option_keys;
      do strings <- as_str_list (getd (s "option_strings") VNone d);
      do metavar <- as_opt_str (getd (s "metavar") VNone d);
      do help <- as_opt_str (getd (s "help") VNone d);
      do optional_arg <- as_bool (getd (s "optional_arg") (VBool false) d);
      do groups <- as_opt_str_list (getd (s "groups") VNone d);
      do repeatable <- as_xbool (getd (s "repeatable") (VStr INHERIT) d);
      do final <- as_bool (getd (s "final") (VBool false) d);
      do hidden <- as_bool (getd (s "hidden") (VBool false) d);
      do complete <- as_opt_list (getd (s "complete") VNone d);
      do nosort <- as_bool (getd (s "nosort") (VBool false) d);
      do when <- as_opt_str (getd (s "when") VNone d);
      do capture <- as_opt_str (getd (s "capture") VNone d);
      do sep <- as_sep (getd (s "long_opt_arg_sep") (VStr INHERIT) d);
      add_option c (MkOpt strings metavar help complete nosort groups optional_arg repeatable
                      final hidden when capture sep)
  | _ => Err AttributeError
  end.

(** dictionary_source.py 71-84 *)
Definition add_positional_dict (c : cmd) (v : value) : res cmd :=
  match v with
  | VDict d =>
      do _ <- validate_keys d positional_keys;
      do number <- as_int (getd (s "number") VNone d);
      do metavar <- as_opt_str (getd (s "metavar") VNone d);
      do help <- as_opt_str (getd (s "help") VNone d);
      do repeatable <- as_bool (getd (s "repeatable") (VBool false) d);
      do complete <- as_opt_list (getd (s "complete") VNone d);
      do nosort <- as_bool (getd (s "nosort") (VBool false) d);
      do when <- as_opt_str (getd (s "when") VNone d);
      do capture <- as_opt_str (getd (s "capture") VNone d);
      do p <- mk_positional number metavar help complete nosort repeatable when capture;
      Ok (set_positionals c (c_positionals c ++ [p]))
  | _ => Err AttributeError
  end.

(** dictionary_source.py 23-86, with [prog] given (it always is). *)
Definition dictionary_to_commandline (d : list (value * value)) (prog : str) : res cmd :=
  do _ <- validate_keys d command_keys;
  match getd (s "options") (VList []) d, getd (s "positionals") (VList []) d with
  | VList options, VList positionals =>
      do help <- as_opt_str (getd (s "help") VNone d);
      do aliases <- as_opt_str_list (getd (s "aliases") (VList []) d);
      do wraps <- as_opt_str (getd (s "wraps") VNone d);
      do abc <- as_xbool (getd (s "abbreviate_commands") (VStr INHERIT) d);
      do abo <- as_xbool (getd (s "abbreviate_options") (VStr INHERIT) d);
      do inh <- as_xbool (getd (s "inherit_options") (VStr INHERIT) d);
      do c <- mk_commandline prog help (match aliases with Some l => l | None => [] end) wraps
                abc abo inh;
      do c <- fold_res add_option_dict options c;
      fold_res add_positional_dict positionals c
  | _, _ => Err type_error
  end.

(** dictionary_source.py 89-99; a document that is not a dictionary is reported as TypeError
    (in Python: CrazyError for a list or text, TypeError for a number). *)
Definition check_prog_in_dictionary (v : value) : res (list (value * value) * str) :=
  match v with
  | VDict d =>
      match vget (s "prog") d with
      | None => Err (CrazyError (s "Missing `prog` field"))
      | Some (VStr p) => do _ <- validate_prog p; Ok (d, p)
      | Some _ => Err type_error
      end
  | _ => Err TypeError
  end.

(** dictionary_source.py 102-115, and the change of the command line it returns: the commands
    are objects that are changed in place, here the changed tree is returned. *)
Definition missing : exn := CrazyError (s "Missing definition of program").
Fixpoint update_child (name : str) (f : cmd -> res cmd) (l : list cmd) : res (list cmd) :=
  match l with
  | [] => Err missing
  | c :: l' =>
      if str_eqb (c_prog c) name then do c' <- f c; Ok (c' :: l')
      else do r <- update_child name f l'; Ok (c :: r)
  end.
Fixpoint update_at (path : list str) (f : cmd -> res cmd) (c : cmd) : res cmd :=
  match path with
  | [] => f c
  | name :: path' =>
      match c_subcommands c with
      | None => Err missing
      | Some l => do l' <- update_child name (update_at path' f) l; Ok (set_subcommands c (Some l'))
      end
  end.

(** dictionary_source.py 173-186: one turn of the loop. *)
Definition multiple : exn := CrazyError (s "Multiple definition of program").
Definition add_child (new : cmd) (c : cmd) : res cmd :=
  match add_commandline_object (match c_subcommands c with Some l => l | None => [] end) new with
  | Ok l' => Ok (set_subcommands c (Some l'))
  | Err _ => Err multiple
  end.
Definition add_definition (root : cmd) (v : value) : res cmd :=
  do (d, p) <- check_prog_in_dictionary v;
  match rev (split_ws p) with
  | [] => Err IndexError
  | progname :: rpath =>
      update_at (rev rpath) (fun c =>
        do new <- dictionary_to_commandline d progname;
        add_child new c) root
  end.

(** dictionary_source.py 118-160.  [str]s in the place of values are replaced, keys are not. *)
Fixpoint replace_in (defines : list (value * value)) (v : value) : value :=
  match v with
  | VStr x => getd x (VStr x) defines
  | VList l => VList (map (replace_in defines) l)
  | VDict d => VDict (map (fun kv => (fst kv, replace_in defines (snd kv))) d)
  | _ => v
  end.
Definition is_defines (v : value) : bool :=
  match v with
  | VDict d => match vget (s "prog") d with
               | Some (VStr p) => str_eqb p (s "%defines%")
               | _ => false
               end
  | _ => false
  end.
Fixpoint split_defines (docs : list value) : option (list (value * value) * list value) :=
  match docs with
  | [] => None
  | v :: docs' =>
      match v with
      | VDict d => if is_defines v then Some (d, docs') else
          match split_defines docs' with Some (d', r) => Some (d', v :: r) | None => None end
      | _ => match split_defines docs' with Some (d', r) => Some (d', v :: r) | None => None end
      end
  end.
Definition replace_defines_in_documents (docs : list value) : list value :=
  match split_defines docs with
  | None => docs
  | Some (d, docs') =>
      let d := filter (fun kv => negb (value_eqb (fst kv) (VStr (s "prog")))) d in
      map (replace_in d) docs'
  end.

(** compat.py 12-48 (the warnings are not modelled) *)
Definition drop_key (k : str) (d : list (value * value)) : list (value * value) :=
  filter (fun kv => negb (value_eqb (fst kv) (VStr k))) d.
Definition fix_option (v : value) : value :=
  match v with
  | VDict d =>
      match vget (s "group") d with
      | None => v
      | Some g =>
          match vget (s "groups") d with
          | Some _ => VDict (drop_key (s "group") d)
          | None => VDict (drop_key (s "group") d ++ [(VStr (s "groups"), VList [g])])
          end
      end
  | _ => v
  end.
Definition fix_commandline (v : value) : value :=
  match v with
  | VDict d =>
      match vget (s "options") d with
      | Some (VList l) => VDict (dset value_eqb (VStr (s "options")) (VList (map fix_option l)) d)
      | _ => v
      end
  | _ => v
  end.

Definition prepare (docs : list value) : list value :=
  map fix_commandline (replace_defines_in_documents docs).

Definition root0 : cmd := Cmd (s "root") None [] None XInherit XInherit XInherit [] [] None.

(** dictionary_source.py 163-198 *)
Definition dictionaries_to_commandline (docs : list value) : res cmd :=
  do root <- fold_res add_definition (prepare docs) root0;
  match c_subcommands root with
  | None => Err (CrazyError (s "No programs defined"))
  | Some [c] => Ok c
  | Some [] => Err IndexError
  | Some _ => Err (CrazyError (s "Too many main programs defined"))
  end.

(** ** Export *)

(** An OrderedDict filled by a sequence of [if ...: r[key] = value]; the keys are different. *)
Fixpoint entries (l : list (str * option value)) : list (value * value) :=
  match l with
  | [] => []
  | (k, Some v) :: l' => (VStr k, v) :: entries l'
  | (_, None) :: l' => entries l'
  end.

Definition vstrs (l : list str) : value := VList (map VStr l).
Definition xbool_entry (b : xbool) : option value :=
  match b with XTrue => Some (VBool true) | XFalse => Some (VBool false) | XInherit => None end.
Definition true_entry (b : bool) : option value := if b then Some (VBool true) else None.
Definition sep_entry (x : argsep) : option value :=
  match x with
  | SepInherit => None
  | SepSpace => Some (VStr (s "space"))
  | SepEquals => Some (VStr (s "equals"))
  | SepBoth => Some (VStr (s "both"))
  end.
Definition list_entry {A} (f : list A -> value) (l : list A) : option value :=
  match l with [] => None | _ => Some (f l) end.

(** dictionary_source.py 201-244 *)
Definition option_to_dictionary (o : opt) : value :=
  VDict (entries
    [(s "option_strings", Some (vstrs (o_strings o)));
     (s "metavar", option_map VStr (o_metavar o));
     (s "help", option_map VStr (o_help o));
     (s "optional_arg", true_entry (o_optional_arg o));
     (s "groups", option_map vstrs (o_groups o));
     (s "repeatable", xbool_entry (o_repeatable o));
     (s "final", true_entry (o_final o));
     (s "hidden", true_entry (o_hidden o));
     (s "complete", match o_complete o with Some l => list_entry VList l | None => None end);
     (s "nosort", true_entry (o_nosort o));
     (s "when", option_map VStr (o_when o));
     (s "capture", option_map VStr (o_capture o));
     (s "long_opt_arg_sep", sep_entry (o_sep o))]).

(** dictionary_source.py 247-275 *)
Definition positional_to_dictionary (p : pos) : value :=
  VDict (entries
    [(s "number", Some (VInt (p_number p)));
     (s "metavar", option_map VStr (p_metavar p));
     (s "help", option_map VStr (p_help p));
     (s "repeatable", true_entry (p_repeatable p));
     (s "complete", list_entry VList (p_complete p));
     (s "nosort", true_entry (p_nosort p));
     (s "when", option_map VStr (p_when p));
     (s "capture", option_map VStr (p_capture p))]).

(** dictionary_source.py 278-314 *)
Definition commandline_to_dictionary (ps : list cmd) (c : cmd) : value :=
  VDict (entries
    [(s "prog", Some (VStr (get_command_path ps c)));
     (s "aliases", list_entry vstrs (c_aliases c));
     (s "help", option_map VStr (c_help c));
     (s "wraps", option_map VStr (c_wraps c));
     (s "abbreviate_commands", xbool_entry (c_abbrev_cmds c));
     (s "abbreviate_options", xbool_entry (c_abbrev_opts c));
     (s "inherit_options", xbool_entry (c_inherit c));
     (s "options", list_entry (fun l => VList (map option_to_dictionary l)) (c_options c));
     (s "positionals", list_entry (fun l => VList (map positional_to_dictionary l)) (c_positionals c))]).

(** dictionary_source.py 317-325; [c] is exported as the root of a tree. *)
Definition commandline_to_dictionaries (c : cmd) : list value :=
  map (fun pc => commandline_to_dictionary (fst pc) (snd pc)) (visit_commandlines [] c).
