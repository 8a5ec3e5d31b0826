(** * Model of the helpers for user and group numbers in Zsh: zsh_helpers.py 494-502. *)
From Verif Require Import Base Exec.
Open Scope list_scope.

(** [awk -F:] with [{printf "%s:%s\n", $3, $1}]; [output] is what [getent] prints.  A field that is not
    there is empty. *)
Definition awk_numbers (output : str) : str :=
  flat_map (fun line => let fields := split_c COLON line in nth 2 fields [] ++ [COLON] ++ nth 0 fields [] ++ [LF]) (read_lines output).
(** [$( ... )] in an array of Zsh: words are separated by blanks, tabulators and newlines. *)
Definition array_words (x : str) : list str :=
  filter (fun w => match w with [] => false | _ => true end)
    (concat (map (split_c SP) (concat (map (split_c TAB) (split_c LF x))))).
(** zsh_helpers.py 494-497 (users), 499-502 (groups): the array that is given to [_describe] *)
Definition number_items (output : str) : list str := array_words (awk_numbers output).
