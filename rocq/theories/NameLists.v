(** * Model of the helpers for locales, character sets and time zones: bash_helpers.py 770-783,
    zsh_helpers.py 504-507, fish_helpers.py 1050-1056. *)
From Verif Require Import Base PyStr Exec SystemLists UidList.
Open Scope list_scope.

(** bash_helpers.py 770-776: [output] is what [locale -a] or [locale -m] prints *)
Definition bash_names (output cur : str) : list str := compgen_words [output] cur.
(** zsh_helpers.py 504-507: the array that is given to [_describe] *)
Definition zsh_names (output : str) : list str := array_words output.

(** bash_helpers.py 778-783, fish_helpers.py 1050-1056: the lines that are printed.  [timedatectl]: whether
    [timedatectl list-timezones] succeeds, and its output; [found]: what [find /usr/share/zoneinfo -type f] prints *)
Definition timezone_list (timedatectl : bool * str) (found : str) : list str :=
  let (success, output) := timedatectl in
  read_lines output ++
  if success then []
  else filter (fun line => negb (starts_with (s "posix") line || starts_with (s "right") line))
         (map (replace_s (s "/usr/share/zoneinfo/") []) (read_lines found)).
