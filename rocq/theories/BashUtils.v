(** * Model of crazy_complete/bash_utils.py. *)
From Verif Require Import Base Shell StrUtils Cli.
Open Scope list_scope.

(** [string.lstrip('-')] *)
Definition lstrip_dashes (x : str) : str := lstrip_p (N.eqb DASH) x.

(** bash_utils.py 9-23, on the option strings of the option. *)
Definition make_option_variable_name (strings : list str) (prefix : str) : res str :=
  match get_long_option_strings strings with
  | x :: _ => Ok (prefix ++ make_identifier (lstrip_dashes x))
  | [] =>
      match get_old_option_strings strings with
      | x :: _ => Ok (prefix ++ make_identifier (lstrip_dashes x))
      | [] =>
          match get_short_option_strings strings with
          | (_ :: c :: _) :: _ => Ok (prefix ++ [c])
          | _ :: _ => Err IndexError
          | [] => Err AssertionError
          end
      end
  end.

(** bash_utils.py 26-50.  The name that [make_variable] computes is stored in [option.capture] and
    computed only once; it depends on nothing but the option and the prefix, so that the model
    computes it again.  The set [variables] is left out: it has no effect on the names. *)
Definition capture_variable (prefix : str) (o : opt) : res str :=
  match o_capture o with
  | Some v => Ok v
  | None => make_option_variable_name (o_strings o) prefix
  end.
(** bash.py 41 *)
Definition opt_variable (o : opt) : res str := capture_variable (s "OPT_") o.

(** bash_utils.py 56-60 *)
Definition for_long_without_arg (option_strings : list str) : str := join (s "|") option_strings.
(** bash_utils.py 62-66 *)
Definition for_long_with_arg (option_strings : list str) : str :=
  join (s "|") (map (fun o => o ++ s "=*") option_strings).
(** bash_utils.py 68-72; short option strings have two characters, so that [o[1]] exists. *)
Definition for_short (option_strings : list str) : str :=
  join (s "|") (map (fun o => firstn 1 (skipn 1 o)) option_strings).
(** bash_utils.py 74-81 *)
Definition for_old_without_arg (option_strings : list str) : str :=
  if Nat.leb (List.length option_strings) 2 then join (s "|") option_strings
  else s "-@(" ++ join (s "|") (map lstrip_dashes option_strings) ++ s ")".

(** Python's [isalpha].  Simplification: ASCII letters only. *)
Definition is_alpha (c : N) : bool := is_lower c || is_upper c.
(** bash_utils.py 97-104 *)
Definition extension_pattern (extension : str) : str :=
  flat_map (fun c => if is_alpha c then s "[" ++ [lower_c c; upper_c c] ++ s "]" else [c]) extension.
(** bash_utils.py 84-111 *)
Definition make_file_extension_pattern (extensions : list str) (fuzzy : bool) : str :=
  let patterns := map extension_pattern extensions in
  if negb fuzzy then s "@(" ++ join (s "|") patterns ++ s ")"
  else s "@(" ++ join (s "|") patterns ++ s ")*".
