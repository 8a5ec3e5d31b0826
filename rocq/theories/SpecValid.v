(** * Specification: which definitions are written correctly.

    Written from the manual (docs/commands.yaml, docs/options.yaml): the completers and their
    arguments, and the parameters of options, positionals and commands. *)
From Verif Require Import Base Dict Value StrUtils Cli DictSource When SpecCli SchemeValidator SpecScheme.
Local Open Scope string_scope.
Local Open Scope list_scope.

(** ** Kinds of values *)

(** Not blank; without spaces, tabs and line feeds. *)
Definition filled (x : str) : Prop := exists ch, In ch x /\ is_space ch = false.
Definition solid (x : str) : Prop := ~ In SP x /\ ~ In TAB x /\ ~ In LF x.

Definition a_text (v : value) : Prop := exists x, v = VStr x.
Definition a_filled_text (v : value) : Prop := exists x, v = VStr x /\ filled x.
Definition a_word (v : value) : Prop := exists x, v = VStr x /\ filled x /\ solid x.
Definition a_character (v : value) : Prop := exists ch, v = VStr [ch].
Definition a_bool (v : value) : Prop := exists b, v = VBool b.
(** A Python bool is an integer. *)
Definition an_integer (v : value) : Prop := (exists z, v = VInt z) \/ exists b, v = VBool b.
Definition a_number (v : value) : Prop := an_integer v \/ exists x, v = VFloat x.
Definition a_list (v : value) : Prop := exists l, v = VList l.
Definition list_of (P : value -> Prop) (v : value) : Prop := exists l, v = VList l /\ Forall P l.
Definition filled_list_of (P : value -> Prop) (v : value) : Prop :=
  exists l, v = VList l /\ l <> [] /\ Forall P l.
(** Dictionaries, by what they map to what. *)
Definition table (K P : value -> Prop) (v : value) : Prop :=
  exists d, v = VDict d /\ Forall (fun kv => K (fst kv) /\ P (snd kv)) d.
Definition filled_table (K P : value -> Prop) (v : value) : Prop :=
  exists d, v = VDict d /\ d <> [] /\ Forall (fun kv => K (fst kv) /\ P (snd kv)) d.
Definition nullable (P : value -> Prop) (v : value) : Prop := v = VNone \/ P v.
Definition text_or_integer (v : value) : Prop := a_text v \/ an_integer v.
Definition one_of (l : list String.string) (v : value) : Prop := exists x, In x l /\ v = VStr (s x).
Definition inheritable_bool (v : value) : Prop := a_bool v \/ v = VStr (s "INHERIT").
Definition a_regex (e : env) (v : value) : Prop := exists x, v = VStr x /\ valid_ere e x = true.
Definition a_glob (e : env) (v : value) : Prop := exists x, v = VStr x /\ filled x /\ glob_check e x = Ok tt.
Definition a_variable (v : value) : Prop := exists x, v = VStr x /\ variable_name x.
Definition an_option_string (v : value) : Prop := exists x, v = VStr x /\ option_string x.
Definition a_condition (e : env) (v : value) : Prop :=
  exists x t, v = VStr x /\ parse_when (valid_ere e) x = Ok t.
(** Words separated by single blanks. *)
Definition a_program (v : value) : Prop :=
  exists x, v = VStr x /\ (forall w, In w (split_c SP x) -> w <> []) /\ ~ In TAB x /\ ~ In LF x /\ filled x.

(** ** Parameters *)

(** [d] has only these parameters, with values of the given kinds. *)
Definition parameters (allowed : list (String.string * (value -> Prop))) (d : dict) : Prop :=
  forall k v, In (k, v) d -> exists name P, In (name, P) allowed /\ k = VStr (s name) /\ P v.
(** The parameter is there; it is there and is not [null]; it is [true]. *)
Definition has (d : dict) (k : String.string) : Prop := exists v, vget (s k) d = Some v.
Definition sets (d : dict) (k : String.string) : Prop := exists v, vget (s k) d = Some v /\ v <> VNone.
Definition says_true (d : dict) (k : String.string) : Prop := vget (s k) d = Some (VBool true).
(** No argument, or a dictionary with these parameters. *)
Definition options (allowed : list (String.string * (value -> Prop))) (ok : dict -> Prop)
    (args : list value) : Prop :=
  args = [] \/ exists d, args = [VDict d] /\ parameters allowed d /\ ok d.
Definition always (d : dict) : Prop := True.

(** ** Completers *)

Section Completers.
Variable e : env.
Variable c : ctx.
(** The names of the completers around, outermost first. *)
Variable enclosing : list str.

Definition directly_in (names : list String.string) : Prop :=
  exists around n, In n names /\ enclosing = around ++ [s n].

(** A number with value [z]. *)
Definition denotes (v : value) (z : Z) : Prop :=
  v = VInt z \/ exists b : bool, v = VBool b /\ z = (if b then 1 else 0)%Z.
(** [a] is not greater than [b]; comparisons with floats are taken from the environment. *)
Definition not_above (a b : value) : Prop :=
  (forall x y, denotes a x -> denotes b y -> (x <= y)%Z) /\
  ((exists x, a = VFloat x) \/ (exists y, b = VFloat y) -> float_gt e a b = false).
Definition ordered (d : dict) : Prop :=
  forall a b, vget (s "min") d = Some a -> vget (s "max") d = Some b -> not_above a b.

(** The positional before this one completes a command. *)
Definition follows_command (p : dict) (ps : list value) : Prop :=
  exists before q after x args n m, ps = before ++ VDict q :: after /\
    vget (s "complete") q = Some (VList (VStr (s "command") :: args)) /\
    vget (s "number") q = Some n /\ vget (s "number") p = Some m /\
    denotes n x /\ denotes m (x + 1)%Z.

Definition separators := [("separator", a_character); ("duplicates", a_bool)].
Definition file_options :=
  [("directory", a_filled_text); ("extensions", filled_list_of a_word); ("fuzzy", a_bool);
   ("ignore_globs", filled_list_of (a_glob e))].
Definition number_options (P : value -> Prop) :=
  [("min", P); ("max", P); ("help", a_filled_text); ("suffixes", filled_table a_filled_text a_filled_text)].

(** An entry of a list of keys: key, description, completer or [null], and for lists of pairs
    the excluded keys. *)
Definition key_entry (key : str) (excludes : list str) (v : value) : Prop :=
  filled key /\ solid key /\ exists description completer,
    nullable a_text description /\
    (v = VList [VStr key; description; completer] /\ excludes = [] \/
     v = VList [VStr key; description; completer; VList (map VStr excludes)]).
Definition plain_entry (v : value) : Prop :=
  exists key description completer, v = VList [VStr key; description; completer] /\
    filled key /\ solid key /\ nullable a_text description.
Definition no_or_function (rest : list value) : Prop :=
  rest = [] \/ rest = [VNone] \/ exists x, rest = [VStr x] /\ filled x.

(** The names of the completers, and the arguments they take.  The completers inside of the
    arguments are not looked at. *)
Definition manual : list (list String.string * (list value -> Prop)) :=
  [(["alsa_card"; "alsa_device"; "charset"; "commandline_string"; "date_format"; "environment";
     "filesystem_type"; "gid"; "group"; "hostname"; "locale"; "login_shell"; "mountpoint";
     "net_interface"; "pid"; "process"; "service"; "signal"; "timezone"; "uid"; "user"; "variable"],
    fun args => args = []);
   (["none"], fun args => args = [] /\ ~ directly_in ["combine"; "list"; "prefix"]);
   (["choices"],
    fun args => exists x, args = [x] /\
      (list_of text_or_integer x \/ table text_or_integer text_or_integer x));
   (["command"],
    options [("path", a_filled_text); ("path_append", a_filled_text); ("path_prepend", a_filled_text)]
      (fun d => has d "path" -> ~ has d "path_append" /\ ~ has d "path_prepend"));
   (["command_arg"],
    fun args => args = [] /\ ~ directly_in ["combine"; "list"; "key_value_list"; "key_value_pair"] /\
      exists p ps, cx_positional c = Some p /\ cx_positionals c = VList ps /\
        says_true p "repeatable" /\ follows_command p ps);
   (["directory"], options [("directory", a_filled_text)] always);
   (["directory_list"], options (("directory", a_filled_text) :: separators) always);
   (["file"], options file_options always);
   (["file_list"], options (file_options ++ separators) always);
   (["history"; "mime_file"], fun args => exists x, args = [x] /\ a_regex e x);
   (["range"],
    fun args => exists a b start stop step,
      (args = [a; b] /\ step = 1%Z \/ exists x, args = [a; b; x] /\ denotes x step) /\
      denotes a start /\ denotes b stop /\ step <> 0%Z /\ in_range start stop step start);
   (["exec"; "exec_fast"; "exec_internal"], fun args => exists x, args = [x] /\ a_text x);
   (["key_value_list_exec"],
    fun args => exists x y z, args = [x; y; z] /\ a_character x /\ a_character y /\ a_filled_text z);
   (["key_value_pair_exec"],
    fun args => exists x y, args = [x; y] /\ a_character x /\ a_filled_text y);
   (["value_list"],
    fun args => exists d, args = [VDict d] /\
      parameters (("values", fun v => filled_list_of a_text v \/ filled_table a_text a_text v)
                  :: separators) d /\ has d "values");
   (["date"], fun args => exists x, args = [x] /\ a_filled_text x);
   (["ip_address"],
    fun args => args = [] \/
      exists x, args = [x] /\ one_of ["ipv4"; "ipv6"; "all"; "ipv4+"; "ipv6+"; "all+"] x);
   (["integer"], options (number_options an_integer) ordered);
   (["float"], options (number_options a_number) ordered);
   (["combine"], fun args => exists x y l, args = [VList (x :: y :: l)]);
   (["key_value_list"],
    fun args => exists x y l rest (entries : list (str * list str)), args = x :: y :: VList l :: rest /\
      a_character x /\ a_character y /\ l <> [] /\ no_or_function rest /\
      Forall2 (fun kx v => key_entry (fst kx) (snd kx) v) entries l /\ NoDup (map fst entries) /\
      forall kx k, In kx entries -> In k (snd kx) -> In k (map fst entries));
   (["key_value_pair"],
    fun args => exists x l rest, args = x :: VList l :: rest /\
      a_character x /\ l <> [] /\ Forall plain_entry l /\ no_or_function rest);
   (["list"], fun args => exists x rest, args = x :: rest /\ options separators always rest);
   (["prefix"], fun args => exists x y, args = [x; y] /\ a_text x)].

Definition written (v : value) : Prop :=
  exists names P n args, In (names, P) manual /\ In n names /\ v = VList (VStr (s n) :: args) /\ P args.
End Completers.

(** A completer in which every completer, at any depth, is written correctly. *)
Definition completer_written (e : env) (c : ctx) (v : value) : Prop :=
  forall enc x, inside [] v enc x -> written e c enc x.

(** ** Options, positionals and commands *)

Definition bool_or_null := nullable a_bool.
Definition text_or_null := nullable a_text.

Definition option_written (e : env) (positionals v : value) : Prop :=
  exists o, v = VDict o /\ has o "option_strings" /\
    parameters
      [("option_strings", filled_list_of an_option_string);
       ("metavar", text_or_null); ("help", text_or_null); ("optional_arg", bool_or_null);
       ("group", text_or_null); ("groups", nullable (list_of a_text));
       ("repeatable", inheritable_bool); ("final", bool_or_null); ("hidden", bool_or_null);
       ("nosort", bool_or_null);
       ("complete", nullable (completer_written e (MkCtx None positionals)));
       ("when", nullable (a_condition e)); ("capture", nullable a_variable);
       ("long_opt_arg_sep", one_of ["space"; "equals"; "both"; "INHERIT"])] o /\
    (sets o "metavar" -> sets o "complete") /\
    (says_true o "optional_arg" -> sets o "complete") /\
    ~ (says_true o "repeatable" /\ says_true o "hidden") /\
    ~ (sets o "group" /\ sets o "groups").

Definition positional_written (e : env) (positionals v : value) : Prop :=
  exists p, v = VDict p /\ has p "number" /\
    parameters
      [("number", fun v => exists z, denotes v z /\ (1 <= z)%Z);
       ("metavar", text_or_null); ("help", text_or_null); ("repeatable", bool_or_null);
       ("nosort", bool_or_null);
       ("complete", nullable (completer_written e (MkCtx (Some p) positionals)));
       ("when", nullable (a_condition e)); ("capture", nullable a_variable)] p.

Definition definition_written (e : env) (d : dict) : Prop :=
  let positionals := getd (s "positionals") VNone d in
  has d "prog" /\
  parameters
    [("prog", a_program); ("help", text_or_null); ("aliases", nullable (list_of a_word));
     ("wraps", nullable a_word);
     ("abbreviate_commands", inheritable_bool); ("abbreviate_options", inheritable_bool);
     ("inherit_options", inheritable_bool);
     ("options", nullable (list_of (option_written e positionals)));
     ("positionals", nullable (list_of (positional_written e positionals)))] d /\
  (sets d "wraps" -> forall x, vget (s "prog") d = Some (VStr x) -> solid x).

(** ** Python data *)

(** [part v x]: [x] is [v] or a value somewhere inside of it. *)
Inductive part : value -> value -> Prop :=
| part_self v : part v v
| part_list l x y : In x l -> part x y -> part (VList l) y
| part_dict d k x y : In (k, x) d -> part x y -> part (VDict d) y.
(** Each key of a dictionary is there once. *)
Definition proper (v : value) : Prop := forall d, part v (VDict d) -> NoDup (map fst d).

(** The completers of the options and positionals of a definition. *)
Definition completer_of (v x : value) : Prop :=
  exists d k l w o, v = VDict d /\ (k = "options" \/ k = "positionals") /\
    vget (s k) d = Some (VList l) /\ In w l /\ w = VDict o /\ vget (s "complete") o = Some x.
