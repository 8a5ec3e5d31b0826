(** * Model of the functions of a zsh script: zsh.py 46-56, 110-131, 151-166, 232-237, 253-271. *)
From Verif Require Import Base Cli Helpers Zsh.
Open Scope list_scope.

(** The sections of a function that decide which function completes the command line; they are joined
    with empty lines and indented. *)
Record sections := Sections { init_section : str; subcommands_section : str }.
(** zsh.py 110-131, 151-166.  [query] is the name of the helper.  Without sub-commands the first
    section is there only if conditions or captured options need it; here it is left out. *)
Definition sections_of (prefix query : str) (ps : list cmd) (c : cmd) : res sections :=
  do calls <- subcommand_calls prefix ps c;
  Ok (match calls with
      | None => Sections [] []
      | Some calls => Sections (init_text query ps c) (subcommand_call_text query calls)
      end).
(** zsh.py 232-237, 253-271: the functions, in the order of the script *)
Definition script (prefix query : str) (root : cmd) : res (list (str * sections)) :=
  map_res (fun p => do x <- sections_of prefix query (fst p) (snd p); Ok (make_completion_funcname prefix (fst p) (snd p) [], x))
    (visit_commandlines [] root).
