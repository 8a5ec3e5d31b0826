(** * Model of crazy_complete/zsh_wrapper.py: completing a wrapped command in zsh.

    Simplifications: the text of the function is fixed but for the patterns and names put into it, and is
    modelled by what zsh does with it (patterns and regular expressions are texts, read by
    SpecZshPattern.v). The call of the program's own completion function before (line 13) is taken not to
    change [words] and [CURRENT]. *)
From Verif Require Import Base PyStr StrUtils Algo Value Cli BashUtils SpecZshPattern.
Open Scope list_scope.

(** the argument [arg_type] *)
Inductive arg_type := TNone | TArg | TOptional.

(** zsh_wrapper.py 73-95 *)
Definition make_long_opts_pattern (opts : list str) (t : arg_type) : str :=
  match opts with
  | [] => []
  | _ =>
      let '(long, old) := partition opts is_long_option_string in
      let old := map lstrip_dashes old in
      let long := map lstrip_dashes long in
      let r :=
        match long, old with
        | _ :: _, _ :: _ => s "-(" ++ join [PIPE] old ++ s "|-(" ++ join [PIPE] long ++ s "))"
        | _ :: _, [] => s "--(" ++ join [PIPE] long ++ s ")"
        | [], _ :: _ => s "-(" ++ join [PIPE] old ++ s ")"
        | [], [] => []
        end in
      r ++ match t with TArg => s "=*" | TOptional => s "(|=*)" | TNone => [] end
  end.
(** zsh_wrapper.py 98-102 *)
Definition make_short_opts_flag_regex (flag_opts : str) : str :=
  match flag_opts with [] => [] | _ => s "^-[" ++ flag_opts ++ s "]+$" end.
(** zsh_wrapper.py 105-119 *)
Definition make_short_opts_arg_regex (flag_opts arg_opts : str) (t : arg_type) : str :=
  match arg_opts with
  | [] => []
  | _ =>
      let r := match flag_opts with
               | [] => s "-[" ++ arg_opts ++ s "]"
               | _ => s "-[" ++ flag_opts ++ s "]*[" ++ arg_opts ++ s "]"
               end in
      s "^" ++ (r ++ match t with TArg => s ".+" | TOptional => s ".*" | TNone => [] end) ++ s "$"
  end.

(** zsh_wrapper.py 132-156: the strings of the options of one kind; [o[1]] of the short ones *)
Definition is_flag (o : opt) : bool := negb (has_required_arg o) && negb (has_optional_arg o).
Definition long_opts (kind : opt -> bool) (options : list opt) : list str :=
  flat_map (fun o => if kind o then get_long_option_strings (o_strings o) ++ get_old_option_strings (o_strings o) else []) options.
Definition short_opts (kind : opt -> bool) (options : list opt) : str :=
  flat_map (fun o => if kind o then flat_map (fun x => firstn 1 (skipn 1 x)) (get_short_option_strings (o_strings o)) else []) options.

(** zsh_wrapper.py 20-50, 158-211: what is deleted because of one word: nothing, the word, the word and
    the next one. The clauses of empty lists are removed by the preprocessor. *)
Inductive deletion := Keep | One | Two.
Definition classify (options : list opt) (w : str) : deletion :=
  let long_arg := long_opts has_required_arg options in
  let long_optional := long_opts has_optional_arg options in
  let long_flag := long_opts is_flag options in
  let short_arg := short_opts has_required_arg options in
  let short_optional := short_opts has_optional_arg options in
  let short_flag := short_opts is_flag options in
  if nonempty long_arg && globs (make_long_opts_pattern long_arg TArg) w then One
  else if nonempty long_arg && globs (make_long_opts_pattern long_arg TNone) w then Two
  else if nonempty long_optional && globs (make_long_opts_pattern long_optional TOptional) w then One
  else if nonempty long_flag && globs (make_long_opts_pattern long_flag TNone) w then One
  else if nonempty short_arg && matches (make_short_opts_arg_regex short_flag short_arg TNone) w then Two
  else if nonempty short_arg && matches (make_short_opts_arg_regex short_flag short_arg TArg) w then One
  else if nonempty short_optional && matches (make_short_opts_arg_regex short_flag short_optional TOptional) w then One
  else if nonempty short_flag && matches (make_short_opts_flag_regex short_flag) w then One
  else Keep.

(** zsh_wrapper.py 17-51: the array [delete]; [i] is the index of the first of the words *)
Fixpoint deleted (options : list opt) (words : list str) (i : nat) : list nat :=
  match words with
  | [] => []
  | w :: words' =>
      match classify options w with
      | Keep => deleted options words' (S i)
      | One => i :: deleted options words' (S i)
      | Two => i :: S i :: match words' with [] => [] | _ :: words'' => deleted options words'' (S (S i)) end
      end
  end.
(** zsh_wrapper.py 59-63; the search in the joined text is a search in the array *)
Fixpoint remaining (delete : list nat) (words : list str) (i : nat) : list str :=
  match words with
  | [] => []
  | w :: words' => (if existsb (Nat.eqb i) delete then [] else [w]) ++ remaining delete words' (S i)
  end.
(** zsh_wrapper.py 53-68: the words and [CURRENT] as the other command's completion sees them *)
Definition wrapped (options : list opt) (wraps : str) (words : list str) (current : nat) : list str * nat :=
  let delete := deleted options words 1 in
  (wraps :: tl (remaining delete words 1), current - List.length (filter (fun d => Nat.ltb d current) delete)).
