(** * Model of crazy_complete/generation.py (44-138), crazy_complete/completion_validator.py and
    the settings of crazy_complete/config.py they use.

    Simplifications: the objects are rebuilt instead of being changed in place; the
    [when_parsed] attributes are not stored (they are determined by [when]); an error of the
    parsing of a condition is passed on without the path of the command in front. *)
From Verif Require Import Base Dict Value StrUtils Cli DictSource When SchemeValidator.
Open Scope list_scope.

(** config.py 27-46; [long_opt_arg_sep] is checked to be one of these (config.py 240-257). *)
Inductive sep := Space | Equals | Both.
Record config := MkConfig {
  cf_abbreviate_commands : bool;
  cf_abbreviate_options : bool;
  cf_repeatable_options : bool;
  cf_inherit_options : bool;
  cf_long_opt_arg_sep : sep;
  cf_disabled_hidden : bool;
  cf_disabled_final : bool;
  cf_disabled_groups : bool;
  cf_disabled_repeatable : bool;
  cf_disabled_when : bool }.

(** config.py 27-46 *)
Definition default_config : config :=
  MkConfig false false false false Both false false false false false.

Definition xb (b : bool) : xbool := if b then XTrue else XFalse.
Definition argsep_of (x : sep) : argsep :=
  match x with Space => SepSpace | Equals => SepEquals | Both => SepBoth end.

(** generation.py 64-71 *)
Definition inherit_bool (x : xbool) (b : bool) : xbool :=
  match x with XInherit => xb b | _ => x end.

(** generation.py 73-92 *)
Definition apply_option (cf : config) (o : opt) : opt :=
  MkOpt (o_strings o) (o_metavar o) (o_help o) (o_complete o) (o_nosort o)
    (if cf_disabled_groups cf then Some [] else o_groups o)
    (o_optional_arg o)
    (if cf_disabled_repeatable cf then XTrue
     else inherit_bool (o_repeatable o) (cf_repeatable_options cf))
    (if cf_disabled_final cf then false else o_final o)
    (if cf_disabled_hidden cf then false else o_hidden o)
    (if cf_disabled_when cf then None else o_when o)
    (o_capture o)
    (match o_sep o with SepInherit => argsep_of (cf_long_opt_arg_sep cf) | x => x end).

(** generation.py 94-96 *)
Definition apply_positional (cf : config) (p : pos) : pos :=
  MkPos (p_number p) (p_metavar p) (p_help p) (p_complete p) (p_nosort p) (p_repeatable p)
    (if cf_disabled_when cf then None else p_when p) (p_capture p).

(** generation.py 44-96 on every command line of the tree (135) *)
Fixpoint apply_config (cf : config) (c : cmd) : cmd :=
  let 'Cmd prog help aliases wraps abc abo inh options positionals subcommands := c in
  Cmd prog help aliases wraps
    (inherit_bool abc (cf_abbreviate_commands cf))
    (inherit_bool abo (cf_abbreviate_options cf))
    (inherit_bool inh (cf_inherit_options cf))
    (map (apply_option cf) options)
    (map (apply_positional cf) positionals)
    (match subcommands with
     | None => None
     | Some l => Some (map (apply_config cf) l)
     end).

(** generation.py 99-123; a condition that is None or empty is not parsed. *)
Definition parse_when_of (e : env) (w : option str) : res unit :=
  match w with
  | Some (x :: l) => do _ <- parse_when (valid_ere e) (x :: l); Ok tt
  | _ => Ok tt
  end.
Definition add_parsed_when (e : env) (c : cmd) : res unit :=
  do _ <- fold_res (fun _ o => parse_when_of e (o_when o)) (c_options c) tt;
  fold_res (fun _ p => parse_when_of e (p_when p)) (c_positionals c) tt.

(** completion_validator.py 19-34: values without and with traces are not distinguished here. *)
Definition text_or_none (o : option str) : value :=
  match o with Some x => VStr x | None => VNone end.
Definition texts_or_none (o : option (list str)) : value :=
  match o with Some l => VList (map VStr l) | None => VNone end.
Definition list_or_none (o : option (list value)) : value :=
  match o with Some l => VList l | None => VNone end.
Definition xbool_value (x : xbool) : value :=
  match x with XTrue => VBool true | XFalse => VBool false | XInherit => VStr INHERIT end.
Definition key (k : String.string) (v : value) : value * value := (VStr (s k), v).
Arguments key k%string_scope v.

(** completion_validator.py 37-51 *)
Definition option_to_definition (o : opt) : dict :=
  [key "option_strings" (VList (map VStr (o_strings o)));
   key "metavar" (text_or_none (o_metavar o));
   key "help" (text_or_none (o_help o));
   key "complete" (list_or_none (o_complete o));
   key "nosort" (VBool (o_nosort o));
   key "groups" (texts_or_none (o_groups o));
   key "optional_arg" (VBool (o_optional_arg o));
   key "repeatable" (xbool_value (o_repeatable o));
   key "final" (VBool (o_final o));
   key "hidden" (VBool (o_hidden o));
   key "when" (text_or_none (o_when o));
   key "capture" (text_or_none (o_capture o))].

(** completion_validator.py 54-64 *)
Definition positional_to_definition (p : pos) : dict :=
  [key "number" (VInt (p_number p));
   key "metavar" (text_or_none (p_metavar p));
   key "help" (text_or_none (p_help p));
   key "repeatable" (VBool (p_repeatable p));
   key "complete" (VList (p_complete p));
   key "nosort" (VBool (p_nosort p));
   key "when" (text_or_none (p_when p));
   key "capture" (text_or_none (p_capture p))].

(** completion_validator.py 67-83 *)
Definition commandline_to_definition (ps : list cmd) (c : cmd) : dict :=
  [key "prog" (VStr (get_command_path ps c));
   key "help" (text_or_none (c_help c));
   key "aliases" (VList (map VStr (c_aliases c)));
   key "wraps" (text_or_none (c_wraps c));
   key "abbreviate_commands" (xbool_value (c_abbrev_cmds c));
   key "abbreviate_options" (xbool_value (c_abbrev_opts c));
   key "inherit_options" (xbool_value (c_inherit c));
   key "options" (VList (map (fun o => VDict (option_to_definition o)) (c_options c)));
   key "positionals" (VList (map (fun p => VDict (positional_to_definition p)) (c_positionals c)))].

(** completion_validator.py 86-94 *)
Definition definition_list (root : cmd) : list value :=
  map (fun x => VDict (commandline_to_definition (fst x) (snd x))) (visit_commandlines [] root).

(** completion_validator.py 97-100 *)
Definition validate_commandlines (e : env) (root : cmd) : res unit :=
  validate e (definition_list root).

(** generation.py 126-138 *)
Definition enhance_commandline (e : env) (cf : config) (root : cmd) : res cmd :=
  do c <- copy root;
  let c' := apply_config cf c in
  do _ <- fold_res (fun _ x => add_parsed_when e (snd x)) (visit_commandlines [] c') tt;
  do _ <- validate_commandlines e c';
  Ok c'.
