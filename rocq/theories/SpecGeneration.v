(** * Specification vocabulary for the configuration of command trees. *)
From Verif Require Import Base Dict Value StrUtils Cli DictSource SchemeValidator SpecScheme
  Generation.

(** A setting that may be left open, before and after: a decided one stays, an open one gets the
    value [b]. *)
Definition decided (b : bool) (before after : xbool) : Prop :=
  (before = XInherit /\ after = if b then XTrue else XFalse) \/
  (before <> XInherit /\ after = before).
Definition decided_sep (x : sep) (before after : argsep) : Prop :=
  (before = SepInherit /\ after = match x with
                                  | Space => SepSpace | Equals => SepEquals | Both => SepBoth
                                  end) \/
  (before <> SepInherit /\ after = before).

(** What a configuration makes of an option, of a positional, and of a command with everything
    below it. *)
Record configured_option (cf : config) (o r : opt) : Prop := {
  co_strings : o_strings r = o_strings o;
  co_metavar : o_metavar r = o_metavar o;
  co_help : o_help r = o_help o;
  co_complete : o_complete r = o_complete o;
  co_nosort : o_nosort r = o_nosort o;
  co_optional : o_optional_arg r = o_optional_arg o;
  co_capture : o_capture r = o_capture o;
  co_sep : decided_sep (cf_long_opt_arg_sep cf) (o_sep o) (o_sep r);
  co_repeatable : if cf_disabled_repeatable cf then o_repeatable r = XTrue
                  else decided (cf_repeatable_options cf) (o_repeatable o) (o_repeatable r);
  co_groups : o_groups r = if cf_disabled_groups cf then Some [] else o_groups o;
  co_final : o_final r = if cf_disabled_final cf then false else o_final o;
  co_hidden : o_hidden r = if cf_disabled_hidden cf then false else o_hidden o;
  co_when : o_when r = if cf_disabled_when cf then None else o_when o }.

Record configured_positional (cf : config) (p r : pos) : Prop := {
  cp_number : p_number r = p_number p;
  cp_metavar : p_metavar r = p_metavar p;
  cp_help : p_help r = p_help p;
  cp_complete : p_complete r = p_complete p;
  cp_nosort : p_nosort r = p_nosort p;
  cp_repeatable : p_repeatable r = p_repeatable p;
  cp_capture : p_capture r = p_capture p;
  cp_when : p_when r = if cf_disabled_when cf then None else p_when p }.

Inductive configured (cf : config) (c r : cmd) : Prop := {
  cc_prog : c_prog r = c_prog c;
  cc_help : c_help r = c_help c;
  cc_aliases : c_aliases r = c_aliases c;
  cc_wraps : c_wraps r = c_wraps c;
  cc_commands : decided (cf_abbreviate_commands cf) (c_abbrev_cmds c) (c_abbrev_cmds r);
  cc_options : decided (cf_abbreviate_options cf) (c_abbrev_opts c) (c_abbrev_opts r);
  cc_inherit : decided (cf_inherit_options cf) (c_inherit c) (c_inherit r);
  cc_opts : Forall2 (configured_option cf) (c_options c) (c_options r);
  cc_poss : Forall2 (configured_positional cf) (c_positionals c) (c_positionals r);
  cc_has_subs : (c_subcommands c = None <-> c_subcommands r = None);
  cc_subs : Forall2 (configured cf) (subs c) (subs r) }.

(** Nothing is switched off by the configuration. *)
Definition nothing_disabled (cf : config) : Prop :=
  cf_disabled_hidden cf = false /\ cf_disabled_final cf = false /\ cf_disabled_groups cf = false /\
  cf_disabled_repeatable cf = false /\ cf_disabled_when cf = false.

(** An option is not made both hidden and repeatable. *)
Definition no_conflict (cf : config) (o : opt) : Prop :=
  o_hidden o = true -> cf_disabled_hidden cf = false ->
  cf_disabled_repeatable cf = false /\ o_repeatable o <> XTrue /\
  (o_repeatable o = XInherit -> cf_repeatable_options cf = false).

(** The default configuration, with conditions ignored or not. *)
Definition plain (ignore_when : bool) : config :=
  MkConfig false false false false Both false false false false ignore_when.

(** The path of a command has at most two words (it is the program or one of its
    subcommands). *)
Definition short_path (ps : list cmd) (c : cmd) : Prop :=
  length (split_c SP (get_command_path ps c)) <= 2.

(** ** What generation does to the definition *)

(** A completer for lists of files or directories that has its own separator or rule for
    duplicates. *)
Definition own_list_options (v : value) : Prop :=
  exists name d rest, v = VList (VStr name :: VDict d :: rest) /\
    (name = s "file_list" \/ name = s "directory_list") /\
    (vget (s "separator") d <> None \/ vget (s "duplicates") d <> None).

(** No completer, at any depth, is such a list. *)
Definition no_own_list (v : value) : Prop :=
  forall enc x, inside [] v enc x -> ~ own_list_options x.

(** No completer of the command tree is such a list. *)
Definition plain_lists (root : cmd) : Prop := forall ps c, located root ps c ->
  (forall o l, In o (c_options c) -> o_complete o = Some l -> no_own_list (VList l)) /\
  (forall p, In p (c_positionals c) -> no_own_list (VList (p_complete p))).
