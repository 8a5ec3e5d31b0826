(** * Model of the helpers for keys and values that a command prints, in zsh: zsh_helpers.py 401-422
    ([key_value_pair_exec]) and 424-451 ([key_value_list_exec]).

    [exec]: the name of the helper [exec] in the generated script; [func]: the command; [output]: what it
    prints without arguments. *)
From Verif Require Import Base Exec KeyValueRun.
Open Scope list_scope.

(** 408-411, 432-435 *)
Definition escape_desc (desc : str) : str :=
  replace_c RBRK [BS; RBRK] (replace_c LBRK [BS; LBRK] (replace_c COLON [BS; COLON] (replace_c BS [BS; BS] desc))).
(** [{exec '$func $key'}] *)
Definition exec_action (exec func key : str) : str := s "{" ++ exec ++ s " '" ++ func ++ s " " ++ key ++ s "'}".
Definition but_last (n : nat) (x : str) : str := firstn (List.length x - n) x.

(** 413-418; the arguments of [_values] behind [''] *)
Definition pair_exec_arg (exec func line : str) : str :=
  let (key, desc) := read_two line in
  let desc := escape_desc desc in
  if ends_with (s "=") key then
    let key := but_last 1 key in key ++ s "[" ++ desc ++ s "]:::" ++ exec_action exec func key
  else key ++ s "[" ++ desc ++ s "]".
Definition zsh_key_value_pair_exec (exec : str) (sep func output : str) : list str :=
  [s "_values"; s "-S"; sep; []] ++ map (pair_exec_arg exec func) (read_lines output).

(** 437-447 *)
Definition list_exec_arg (exec func line : str) : str :=
  let '(key, desc, excludes) := read_three line in
  let desc := escape_desc desc in
  let excludes := match excludes with [] => [] | _ => s "(" ++ excludes ++ s ")" end in
  if ends_with (s "=") key then
    let key := but_last 1 key in excludes ++ key ++ s "[" ++ desc ++ s "]: :" ++ exec_action exec func key
  else if ends_with (s "=?") key then
    let key := but_last 2 key in excludes ++ key ++ s "[" ++ desc ++ s "]:: :" ++ exec_action exec func key
  else excludes ++ key ++ s "[" ++ desc ++ s "]".
Definition zsh_key_value_list_exec (exec : str) (sep1 sep2 func output : str) : list str :=
  [s "_values"; s "-s"; sep1; s "-S"; sep2; []] ++ map (list_exec_arg exec func) (read_lines output).
