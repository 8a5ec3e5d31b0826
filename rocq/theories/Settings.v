(** * Model of crazy_complete/application.py 27-48, 249-280, crazy_complete/config.py and
    crazy_complete/bash_versions.py: from the options of the program to the settings.

    Simplification: of the settings only those in [Generation.config], the version and the length of
    lines; digits are ASCII digits ([int_of]). *)
From Verif Require Import Base Cli Generation YamlParser.
Open Scope list_scope.

(** application.py 27-33 *)
Definition boolean (x : str) : res bool :=
  if str_eqb (lower x) (s "true") then Ok true
  else if str_eqb (lower x) (s "false") then Ok false
  else Err (ValueError (s "Not a bool: " ++ x)).

(** application.py 36-39 *)
Fixpoint ints (l : list str) : res (list Z) :=
  match l with
  | [] => Ok []
  | x :: l' =>
      match int_of x with
      | Some z => do r <- ints l'; Ok (z :: r)
      | None => Err (ValueError (s "invalid literal for int()"))
      end
  end.
Definition version (x : str) : res (list Z) := ints (split_c DOT x).

(** application.py 42-51 *)
Definition FEATURES : list str := [s "hidden"; s "final"; s "groups"; s "repeatable"; s "when"].
Fixpoint check_features (l : list str) : res unit :=
  match l with
  | [] => Ok tt
  | x :: l' => if mems x FEATURES then check_features l' else Err (ValueError (s "Invalid feature: " ++ x))
  end.
Definition feature_list (x : str) : res (list str) := do _ <- check_features (split_c COMMA x); Ok (split_c COMMA x).

(** The values of the options; [--disable] without argument is the empty list. *)
Record cli_options := MkCli {
  co_abbreviate_commands : bool;
  co_abbreviate_options : bool;
  co_repeatable_options : bool;
  co_inherit_options : bool;
  co_long_opt_arg_sep : sep;
  co_disable : list str;
  co_max_line_length : Z }.

(** application.py 268-278 *)
Definition disable (cf : config) (feature : str) : config :=
  let 'MkConfig ac ao ro io sp dh df dg dr dw := cf in
  if str_eqb feature (s "hidden") then MkConfig ac ao ro io sp true df dg dr dw
  else if str_eqb feature (s "final") then MkConfig ac ao ro io sp dh true dg dr dw
  else if str_eqb feature (s "groups") then MkConfig ac ao ro io sp dh df true dr dw
  else if str_eqb feature (s "repeatable") then MkConfig ac ao ro io sp dh df dg true dw
  else if str_eqb feature (s "when") then MkConfig ac ao ro io sp dh df dg dr true
  else cf.
(** application.py 249-280 *)
Definition get_config_from_options (co : cli_options) : config :=
  fold_left disable (co_disable co)
    (MkConfig (co_abbreviate_commands co) (co_abbreviate_options co) (co_repeatable_options co) (co_inherit_options co) (co_long_opt_arg_sep co)
      false false false false false).
(** config.py 334-348; [sys.maxsize] on 64 bits *)
Definition MAXSIZE : Z := 9223372036854775807.
Definition line_length (co : cli_options) : Z := if (0 <? co_max_line_length co)%Z then co_max_line_length co else MAXSIZE.

(** Python: [a >= b] for tuples of integers *)
Fixpoint tuple_ge (a b : list Z) : bool :=
  match a, b with
  | _, [] => true
  | [], _ :: _ => false
  | x :: a', y :: b' => if (x =? y)%Z then tuple_ge a' b' else (y <? x)%Z
  end.
(** bash_versions.py *)
Inductive function := filedir | init_completion | completion_loader | pids | pnames | uids | gids | shells | signals | fstypes
  | command_offset | available_interfaces | ip_addresses.
Definition new_name (f : function) : str :=
  match f with
  | filedir => s "_comp_compgen_filedir" | init_completion => s "_comp_initialize" | completion_loader => s "_comp_complete_load"
  | pids => s "_comp_compgen_pids" | pnames => s "_comp_compgen_pnames" | uids => s "_comp_compgen_uids" | gids => s "_comp_compgen_gids"
  | shells => s "_comp_compgen -a shells" | signals => s "_comp_compgen_signals" | fstypes => s "_comp_compgen -a fstypes"
  | command_offset => s "_comp_command_offset" | available_interfaces => s "_comp_compgen_available_interfaces"
  | ip_addresses => s "_comp_compgen_ip_addresses"
  end.
Definition old_name (f : function) : str :=
  match f with
  | filedir => s "_filedir" | init_completion => s "_init_completion" | completion_loader => s "_completion_loader"
  | pids => s "_pids" | pnames => s "_pnames" | uids => s "_uids" | gids => s "_gids" | shells => s "_shells" | signals => s "_signals"
  | fstypes => s "_fstypes" | command_offset => s "_command_offset" | available_interfaces => s "_available_interfaces"
  | ip_addresses => s "_ip_addresses"
  end.
Definition name_for (v : list Z) (f : function) : str := if tuple_ge v [2; 12]%Z then new_name f else old_name f.
