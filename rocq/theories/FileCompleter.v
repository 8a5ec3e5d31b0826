(** * Model of the completion of files and directories: bash_complete.py 301-346 and the helper
    [file_filter] (bash_helpers.py 730-742); fish_complete.py 172-242 and the helper [filedir]
    (fish_helpers.py 520-580); zsh_complete.py 393-433, zsh_utils.py 161-179 and the helper
    [path_files_relative] (zsh_helpers.py 509-512). *)
From Verif Require Import Base PyStr Shell Pattern BashUtils FishFiles.
Open Scope list_scope.

(** The options.  Validation makes sure that none of the texts is empty (scheme_validator.py 262-293);
    [[]]: no [extensions], no [ignore_globs]. *)
Record file_options := FileOptions {
  f_directory : option str; f_extensions : list str; f_fuzzy : bool; f_ignore : list str }.

(** ** Bash *)

(** Lines of the code: a call; a call in another directory; a call of [file_filter]. *)
Inductive bash_line := Call (args : list str) | CallIn (directory : str) (args : list str) | Filter (patterns : list str).

(** bash_complete.py 326-329; [filedir]: the function of bash-completion *)
Definition bash_file_args (filedir : str) (o : file_options) : list str :=
  [filedir] ++ match f_extensions o with [] => [] | exts => [make_file_extension_pattern exts (f_fuzzy o)] end.
(** bash_complete.py 331-346 *)
Definition bash_file (filedir : str) (o : file_options) : list bash_line :=
  let args := bash_file_args filedir o in
  [match f_directory o with Some d => CallIn d args | None => Call args end]
  ++ match f_ignore o with [] => [] | globs => [Filter globs] end.
(** bash_complete.py 301-312 *)
Definition bash_directory (filedir : str) (directory : option str) : list bash_line :=
  [match directory with Some d => CallIn d [filedir; s "-d"] | None => Call [filedir; s "-d"] end].

(** The text of a line; [filter]: the name of [file_filter].  In [bash_directory] the arguments are not
    quoted; they need no quotes. *)
Definition show_line (filter : str) (l : bash_line) : str :=
  match l with
  | Call args => join_quoted args [SP]
  | CallIn d args =>
      s "builtin pushd " ++ quote d ++ s " &>/dev/null && {" ++ [LF]
      ++ s "  " ++ join_quoted args [SP] ++ [LF] ++ s "  builtin popd >/dev/null" ++ [LF] ++ s "}"
  | Filter patterns => filter ++ [SP] ++ join_quoted patterns [SP]
  end.
Definition bash_file_text (filedir filter : str) (o : file_options) : str :=
  join [LF] (map (show_line filter) (bash_file filedir o)).

(** [${x##*/}] *)
Definition without_directory (x : str) : str := last (split_c SLASH x) [].
(** bash_helpers.py 730-742; [matches]: [[[ word == $pattern ]]] *)
Fixpoint any_pattern (matches : str -> str -> bool) (word : str) (patterns : list str) : bool :=
  match patterns with
  | [] => false
  | p :: rest => if matches p word then true else any_pattern matches word rest            (* 736-737 *)
  end.
Fixpoint file_filter (matches : str -> str -> bool) (patterns reply : list str) : list str :=
  match reply with
  | [] => []
  | r :: rest =>
      if any_pattern matches (without_directory r) patterns then file_filter matches patterns rest
      else r :: file_filter matches patterns rest                                           (* 740 *)
  end.

(** Running a line.  [enter here dir]: where [pushd] leads, if it succeeds; [lists here args]: what the
    function of bash-completion adds to the replies.  The state: the working directory, the replies. *)
Record shell_state := ShellState { here : str; reply : list str }.
Section Bash.
Variable enter : str -> str -> option str.
Variable lists : str -> list str -> list str.
Variable matches : str -> str -> bool.
Definition run_line (st : shell_state) (l : bash_line) : shell_state :=
  match l with
  | Call args => ShellState (here st) (reply st ++ lists (here st) args)
  | CallIn d args =>
      match enter (here st) d with
      | None => st
      | Some there => ShellState (here st) (reply st ++ lists there args)                   (* popd *)
      end
  | Filter patterns => ShellState (here st) (file_filter matches patterns (reply st))
  end.
Definition run_lines (code : list bash_line) (st : shell_state) : shell_state := fold_left run_line code st.
End Bash.

(** ** Fish *)

(** fish_complete.py 196-201 *)
Definition fish_ignore_args (globs : list str) : res (list str) :=
  match globs with [] => Ok [] | _ => do arg <- ignore_regex globs; Ok [s "-i"; arg] end.
(** fish_complete.py 187-201; the arguments of [filedir] *)
Definition fish_file_args (o : file_options) : res (list str) :=
  do ignore <- fish_ignore_args (f_ignore o);
  Ok (match f_directory o with Some d => [s "-C"; d] | None => [] end
      ++ match f_extensions o with [] => [] | exts => [s "-r"; get_extension_regex exts (f_fuzzy o)] end
      ++ ignore).
(** fish_complete.py 220-242; [filedir]: the name of the helper; [inside]: whether the completer is inside
    of a list or a prefix *)
Definition fish_directory_args (filedir : str) (inside : bool) (directory : option str) : list str :=
  match directory with
  | Some d => [filedir; s "-D"; s "-C"; d]
  | None => if inside then [filedir; s "-D"] else [s "__fish_complete_directories"]
  end.

(** The flags of [filedir] as [argparse] sets them (fish_helpers.py 534-541).  [-d] is not used by the
    program. *)
Record filedir_flags := Flags { fl_directories : bool; fl_cd : option str; fl_regex : option str; fl_ignore : option str }.
Fixpoint filedir_parse (fuel : nat) (fl : filedir_flags) (args : list str) : option filedir_flags :=
  match fuel with
  | O => None
  | S fuel' =>
    match args with
    | [] => Some fl
    | a :: rest =>
        if str_eqb a (s "-D") then filedir_parse fuel' (Flags true (fl_cd fl) (fl_regex fl) (fl_ignore fl)) rest
        else match rest with
             | [] => None
             | v :: rest' =>
                 if str_eqb a (s "-C") then filedir_parse fuel' (Flags (fl_directories fl) (Some v) (fl_regex fl) (fl_ignore fl)) rest'
                 else if str_eqb a (s "-r") then filedir_parse fuel' (Flags (fl_directories fl) (fl_cd fl) (Some v) (fl_ignore fl)) rest'
                 else if str_eqb a (s "-i") then filedir_parse fuel' (Flags (fl_directories fl) (fl_cd fl) (fl_regex fl) (Some v)) rest'
                 else None
             end
    end
  end.

(** fish_helpers.py 543-580.  [enter]: [pushd]; [lists here]: what [complete -C"'' $comp"] prints;
    [found]: whether a regular expression is found in a text.  In line 557, [set -g] leaves the status of
    [set -q] in line 555 as it is (it is an assignment), and that is 1: the description stays empty.
    [printf] without further arguments prints one empty line.  Simplification: [string match -rg] prints a
    path twice, for the group and the one inside of it. *)
Section Fish.
Variable enter : str -> str -> option str.
Variable lists : str -> list str.
Variable found : str -> str -> bool.
Definition keep (regex : option str) (select : str -> str -> bool) (files : list str) : list str :=
  match regex with Some r => filter (select r) files | None => files end.
Definition filedir (here : str) (fl : filedir_flags) : list str :=
  let listed := match fl_cd fl with
                | Some d => option_map lists (enter here d)                                 (* 547-550 *)
                | None => Some (lists here)                                                 (* 552 *)
                end in
  match listed with
  | None => []                                                                              (* || return 1 *)
  | Some [] => []                                                                           (* 561 *)
  | Some files =>
      let files := if fl_directories fl then filter (ends_with [SLASH]) files else files in (* 562-564 *)
      let files := keep (fl_regex fl) (fun r => found (select_regex r)) files in            (* 565-570 *)
      let files := keep (fl_ignore fl) (fun r p => negb (found (remove_regex r) p)) files in   (* 571-576 *)
      match files with
      | [] => [[]]
      | _ => map (fun f => f ++ [TAB]) files                                                (* 578 *)
      end
  end.
End Fish.

(** ** Zsh *)

(** zsh_utils.py 161-179 *)
Definition zsh_extension_pattern (extensions : list str) (fuzzy : bool) : str :=
  match extensions with
  | [x] => s "*.(#i)" ++ x
  | _ => s "*.(#i)(" ++ join (s "|") extensions ++ s ")"
  end ++ (if fuzzy then s "*" else []).
(** zsh_complete.py 422-424 *)
Definition zsh_ignore_args (globs : list str) : res (list str) :=
  match globs with
  | [] => Ok []
  | _ => do patterns <- map_res bash_glob_to_zsh_glob globs; Ok [s "-F"; s "(" ++ join [SP] patterns ++ s ")"]
  end.
(** zsh_complete.py 407-433; [relative]: the name of [path_files_relative] *)
Definition zsh_file_args (relative : str) (o : file_options) : res (list str) :=
  do ignore <- zsh_ignore_args (f_ignore o);
  let args := match f_extensions o with [] => [] | exts => [s "-g"; zsh_extension_pattern exts (f_fuzzy o)] end ++ ignore in
  Ok match f_directory o with
     | None => s "_files" :: args
     | Some d => if starts_with [SLASH] d then [s "_files"; s "-W"; d] ++ args else [relative; d] ++ args
     end.
(** zsh_complete.py 393-405 *)
Definition zsh_directory_args (relative : str) (directory : option str) : list str :=
  match directory with
  | None => [s "_directories"]
  | Some d => if starts_with [SLASH] d then [s "_directories"; s "-W"; d] else [relative; d; s "-/"]
  end.
(** zsh_helpers.py 509-512: the command that [path_files_relative] runs; [pwd]: [$PWD] *)
Definition path_files_relative (pwd : str) (args : list str) : list str :=
  match args with
  | d :: rest => [s "_path_files"; s "-W"; pwd ++ [SLASH] ++ d] ++ rest
  | [] => [s "_path_files"; s "-W"; pwd ++ [SLASH]]
  end.
