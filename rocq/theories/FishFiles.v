(** * Model of the file filters of crazy_complete/fish_complete.py and fish_helpers.py. *)
From Verif Require Import Base Pattern BashUtils.
Open Scope list_scope.

(** fish_complete.py 153-163: the expression for one extension *)
Definition extension_regex (extension : str) : str :=
  flat_map (fun c =>
    if is_alpha c then s "[" ++ [lower_c c; upper_c c] ++ s "]"
    else if memc c [DOT; PLUS] then [BS; c]
    else [c]) extension.
(** fish_complete.py 150-170, [_get_extension_regex] *)
Definition get_extension_regex (extensions : list str) (fuzzy : bool) : str :=
  join (s "|") (map (fun extension =>
    s "(.*\." ++ (extension_regex extension ++ if fuzzy then s ".*" else []) ++ s ")") extensions).

(** [map(f, list)] with exceptions *)
Fixpoint map_res {A B} (f : A -> res B) (l : list A) : res (list B) :=
  match l with
  | [] => Ok []
  | a :: l' => do b <- f a; do r <- map_res f l'; Ok (b :: r)
  end.
(** fish_complete.py 198-200: the argument of [-i] *)
Definition ignore_regex (ignore_globs : list str) : res str :=
  do patterns <- map_res bash_glob_to_regex ignore_globs;
  Ok (join (s "|") (map (fun p => s "(" ++ p ++ s ")") patterns)).

(** fish_helpers.py 568: the expression that selects files, ["(.*/\$)|($_flag_regex[1])\$"] *)
Definition select_regex (flag_regex : str) : str := s "(.*/$)|(" ++ flag_regex ++ s ")$".
(** fish_helpers.py 574: the expression that removes files, ["(^|.*/)($_flag_ignore[1])\$"] *)
Definition remove_regex (flag_ignore : str) : str := s "(^|.*/)(" ++ flag_ignore ++ s ")$".
