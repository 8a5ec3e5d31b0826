(** * Model of the completion of commands: bash_complete.py 277-299 ([command]), 117-136;
    zsh_complete.py 147-187 ([ZshCompleteCommand]); fish_complete.py 368-409
    ([FishCompleteCommand]). *)
From Verif Require Import Base Value Shell DictSource.
Open Scope list_scope.

(** the options *)
Record path_options := PathOptions { path : option str; path_append : option str; path_prepend : option str }.
(** [opts.get(...)] of the arguments of the completer, bash_complete.py 283-286, zsh_complete.py 157-160,
    fish_complete.py 379-382.  Validation makes sure that the values are texts. *)
Definition text_of (v : option value) : option str := match v with Some (VStr x) => Some x | _ => None end.
Definition path_options_of (args : list value) : path_options :=
  match args with
  | [VDict d] => PathOptions (text_of (vget (s "path") d)) (text_of (vget (s "path_append") d)) (text_of (vget (s "path_prepend") d))
  | _ => PathOptions None None None
  end.
(** [if x:] *)
Definition given (x : option str) : option str := match x with Some (_ :: _) => x | _ => None end.

(** bash_complete.py 289-297, zsh_complete.py 162-171 *)
Definition posix_path_code (o : path_options) : option str :=
  match given (path o), given (path_append o), given (path_prepend o) with
  | Some p, _, _ => Some (s "local -x PATH=" ++ quote p)
  | None, Some a, Some p => Some (s "local -x PATH=" ++ quote p ++ s ":""$PATH"":" ++ quote a)
  | None, Some a, None => Some (s "local -x PATH=""$PATH"":" ++ quote a)
  | None, None, Some p => Some (s "local -x PATH=" ++ quote p ++ s ":""$PATH""")
  | None, None, None => None
  end.
(** bash_complete.py 299, 124-133 *)
Definition bash_command (append : bool) (o : path_options) : str :=
  (match posix_path_code o with Some code => code ++ [LF] | None => [] end)
  ++ s "COMPREPLY" ++ (if append then s "+" else []) ++ s "=($(compgen -A command -- ""$cur""))".
(** zsh_complete.py 173-187: the code of the function; None: [_command_names] itself *)
Definition zsh_command (o : path_options) : option str :=
  match posix_path_code o with Some code => Some (code ++ [LF] ++ s "_command_names") | None => None end.

(** fish_complete.py 384-385 *)
Definition mkpath (p : str) : str := join_quoted (split_c COLON p) [SP].
(** fish_complete.py 387-399 *)
Definition fish_path_code (o : path_options) : option str :=
  match given (path o), given (path_append o), given (path_prepend o) with
  | Some p, _, _ => Some (s "set -lx PATH " ++ mkpath p)
  | None, Some a, Some p => Some (s "set -lx PATH " ++ mkpath p ++ s " $PATH " ++ mkpath a)
  | None, Some a, None => Some (s "set -lx -a PATH " ++ mkpath a)
  | None, None, Some p => Some (s "set -lx PATH " ++ mkpath p ++ s " $PATH")
  | None, None, None => None
  end.
Definition fish_command (o : path_options) : str :=
  match fish_path_code o with
  | Some code => code ++ [LF] ++ s "__fish_complete_command"
  | None => s "__fish_complete_command"
  end.
