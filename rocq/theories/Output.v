(** * Model of crazy_complete/output.py and of the outer layer of the three [generate_completion]
    functions: how the parts of a script are put together and how it registers itself.

    Simplifications: the texts of the included files are part of the settings (reading files is not
    modelled); the code of the helper functions, of the completion functions and of the wrappers are
    arguments: what is in them is the matter of other files. *)
From Verif Require Import Base.
Open Scope list_scope.

(** config.py 36-43: the settings of config.py that output.py and zsh.py look at;
    [st_included]: the contents of [include_files]. *)
Record settings := MkSettings {
  st_comments : list str;
  st_included : list str;
  st_vim_modeline : bool;
  st_zsh_compdef : bool }.

(** output.py 7-10 *)
Definition GENERATION_NOTICE : str := join [LF]
  [s "# This script was generated by crazy-complete.";
   s "# crazy-complete: A tool that creates robust and reliable autocompletion scripts for Bash, Fish and Zsh.";
   s "# For more information, visit: https://github.com/crazy-complete/crazy-complete"].

(** output.py 58-61: [add_comments] *)
Definition comments (st : settings) : list str :=
  match st_comments st with
  | [] => []
  | _ => [join [LF] (map (fun c => s "# " ++ c) (st_comments st))]
  end.
(** output.py 63-67: [add_included_files] *)
Definition included_files (st : settings) : list str := map (strip_p is_space) (st_included st).
(** output.py 74-78: [add_vim_modeline] *)
Definition vim_modeline (st : settings) (shell : str) : list str :=
  if st_vim_modeline st then [s "# vim: ft=" ++ shell ++ s " ts=2 sts=2 sw=2 et"] else [].
(** output.py 80-82: [get]; empty parts and None are left out *)
Definition is_part (x : str) : bool := match x with [] => false | _ => true end.
Definition get (parts : list str) : str := join [LF; LF] (filter is_part parts).
(** output.py 29-52: [add_as_block] *)
Definition block (lines : list str) : str := join [LF] lines.
(** A part that may be None (bash.py 222) *)
Definition part (x : option str) : list str := match x with Some t => [t] | None => [] end.

(** bash.py 216-228; [func], [wrapper]: what [_generate_wrapper] answers (165-197), [names]: the
    program and its aliases *)
Definition bash_script (st : settings) (helpers functions : list str) (func : str) (wrapper : option str) (names : list str) : str :=
  get ([GENERATION_NOTICE] ++ comments st ++ included_files st ++ helpers ++ functions ++ part wrapper
    ++ [s "complete -F " ++ func ++ s " " ++ join [SP] names] ++ vim_modeline st (s "sh")).

(** fish.py 307-322: the block that sets the variables; [used]: the functions of the list in 311-313
    that are used, with the names they have in the script *)
Definition fish_header (prog prepare : str) (used : list (str * str)) : list str :=
  [s "set -l prog '" ++ prog ++ s "'"; s "set -l P '" ++ prepare ++ s "'"]
  ++ map (fun '(f, x) => s "set -l " ++ f ++ s " '" ++ x ++ s "'") used
  ++ [[]; s "# Delete existing completions"; s "complete -c $prog -e"; []; s "# Generally disable file completion"; s "complete -c $prog -x"].
(** fish.py 324-327 *)
Definition fish_wraps (wraps : option str) : list str :=
  match wraps with
  | Some (c :: w) => [block [s "# Wrap command"; s "complete -c $prog -w " ++ c :: w]]
  | _ => []
  end.
(** fish.py 336-340 *)
Definition fish_aliases (prog : str) (aliases : list str) : list str :=
  match aliases with
  | [] => []
  | _ => [block (flat_map (fun a => [s "complete -c " ++ a ++ s " -e"; s "complete -c " ++ a ++ s " -w " ++ prog]) aliases)]
  end.
(** fish.py 301-344; [generators]: the comment and the lines of each command (329-334; those
    without lines are left out) *)
Definition fish_script (st : settings) (helpers : list str) (prog prepare : str) (used : list (str * str)) (wraps : option str)
    (generators : list (list str)) (aliases : list str) : str :=
  get ([GENERATION_NOTICE] ++ comments st ++ included_files st ++ helpers ++ [block (fish_header prog prepare used)] ++ fish_wraps wraps
    ++ map block generators ++ fish_aliases prog aliases ++ vim_modeline st (s "fish")).

(** zsh.py 269-299; [func], [wrapper]: what [generate_wrapper] answers (zsh_wrapper.py), [zstyles]:
    284-287 *)
Definition zsh_script (st : settings) (helpers functions zstyles : list str) (func : str) (wrapper : option str) (names : list str) : str :=
  get ((if st_zsh_compdef st then [s "#compdef " ++ join [SP] names] else []) ++ [GENERATION_NOTICE] ++ comments st ++ included_files st ++ helpers
    ++ functions ++ match zstyles with [] => [] | _ => [block zstyles] end ++ part wrapper
    ++ [if st_zsh_compdef st then func ++ s " ""$@""" else s "compdef " ++ func ++ s " " ++ join [SP] names]
    ++ vim_modeline st (s "zsh")).
