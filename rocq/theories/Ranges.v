(** * Model of the completion of ranges: bash_complete.py 117-136 ([BashCompletionCompgen]), 364-368;
    zsh_complete.py 190-214 ([ZshCompleteRange]); fish_complete.py 62-81 ([FishCompletionCommand]),
    523-527. *)
From Verif Require Import Base Value PyStr Shell.
Open Scope list_scope.

(** [str(v)] of an integer or a boolean, the only values that are accepted here *)
Definition int_str (v : value) : str :=
  match v with
  | VInt z => show_Z z
  | VBool true => s "True"
  | VBool false => s "False"
  | _ => []
  end.
(** [step == 1]; [True == 1] in Python *)
Definition is_one (v : value) : bool :=
  match v with VInt z => (z =? 1)%Z | VBool b => b | _ => false end.

(** the text in braces of bash_complete.py 365-368 and zsh_complete.py 200-203 *)
Definition braces (start stop step : value) : str :=
  if is_one step then s "{" ++ int_str start ++ s ".." ++ int_str stop ++ s "}"
  else s "{" ++ int_str start ++ s ".." ++ int_str stop ++ s ".." ++ int_str step ++ s "}".

(** bash_complete.py 125-127, 364-368 *)
Definition bash_range (append : bool) (start stop step : value) : str :=
  s "COMPREPLY" ++ (if append then s "+" else []) ++ s "=($(compgen -W '" ++ braces start stop step ++ s "' -- ""$cur""))".

(** zsh_complete.py 199-203 *)
Definition zsh_range_action (start stop step : value) : str := s "'(" ++ braces start stop step ++ s ")'".
(** zsh_complete.py 205-211: the code of the function *)
Definition zsh_range_code (start stop step : value) : str :=
  let code := if is_one step then s "command seq " ++ int_str start ++ s " " ++ int_str stop
              else s "command seq " ++ int_str start ++ s " " ++ int_str step ++ s " " ++ int_str stop in
  s "compadd -- $(" ++ code ++ s ")".

(** fish_complete.py 523-527: the command *)
Definition fish_range_command (start stop step : value) : list str :=
  if is_one step then [s "seq"; int_str start; int_str stop]
  else [s "seq"; int_str start; int_str step; int_str stop].
(** fish_complete.py 69-74: the code, and the argument of [complete -f -a] *)
Definition fish_range_code (start stop step : value) : str := join_quoted (fish_range_command start stop step) [SP].
Definition fish_range_arg (start stop step : value) : str := s "(" ++ fish_range_code start stop step ++ s ")".
