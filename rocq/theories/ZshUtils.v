(** * Model of crazy_complete/zsh_utils.py: the specifications for [_arguments]. *)
From Verif Require Import Base PyStr Algo Shell ShellParser Cli.
Open Scope list_scope.

(** zsh_utils.py 15-18 *)
Definition escape_colon (x : str) : str := replace_c COLON [BS; COLON] x.

(** zsh_utils.py 21-24 *)
Definition escape_square_brackets (x : str) : str :=
  replace_c RBRK [BS; RBRK] (replace_c LBRK [BS; LBRK] x).

(** zsh_utils.py 36-49: the loop; the string stream is the rest of its string, and every step
    takes at least one character, so that the length of the text bounds the loop. *)
Fixpoint escape_colon_loop (fuel : nat) (x : str) : res str :=
  match fuel with
  | O => Err OutOfFuel
  | S fuel =>
      match x with
      | [] => Ok []
      | c :: x' =>
          if N.eqb c SQ then
            do (sub, r) <- single_quote_loop x';
            do t <- escape_colon_loop fuel r;
            Ok ([SQ] ++ replace_c COLON [BS; COLON] sub ++ [SQ] ++ t)
          else if N.eqb c DQ then
            do (sub, r) <- double_quote_loop x';
            do t <- escape_colon_loop fuel r;
            Ok ([DQ] ++ replace_c COLON [BS; BS; COLON] sub ++ [DQ] ++ t)
          else if N.eqb c COLON then
            do t <- escape_colon_loop fuel x'; Ok ([BS; BS; COLON] ++ t)
          else do t <- escape_colon_loop fuel x'; Ok (c :: t)
      end
  end.

(** zsh_utils.py 27-49 *)
Definition escape_colon_in_quoted_string (x : str) : res str :=
  if negb (memc COLON x) then Ok x else escape_colon_loop (S (List.length x)) x.

(** [len(o) == 2] *)
Definition two_chars (x : str) : bool := Nat.eqb (List.length x) 2.

(** zsh_utils.py 102-112: the option strings with the mark that says where the argument is.  For
    [long_opt_arg_sep == INHERIT] the code leaves [opts] unset (UnboundLocalError). *)
Definition marked_option_strings (option_strings : list str) (complete optional_arg : bool) (sep : argsep)
    : res (list str) :=
  if complete && optional_arg then
    Ok (map (fun o => if two_chars o then o ++ s "-" else o ++ s "=-") option_strings)
  else if complete then
    match sep with
    | SepBoth => Ok (map (fun o => if two_chars o then o ++ s "+" else o ++ s "=") option_strings)
    | SepEquals => Ok (map (fun o => if two_chars o then o ++ s "+" else o ++ s "=-") option_strings)
    | SepSpace => Ok (map (fun o => if two_chars o then o ++ s "+" else o) option_strings)
    | SepInherit => Err AttributeError
    end
  else Ok option_strings.

(** zsh_utils.py 84-99: the options that cannot be used together with this one *)
Definition not_options (option_strings conflicting_options : list str) (repeatable final : bool) : list str :=
  if final then [s "- *"]
  else map escape_colon (sort_strs conflicting_options)
       ++ (if repeatable then [] else map escape_colon (sort_strs option_strings)).

(** zsh_utils.py 52-131; [complete] tells if there is a completer, and [action] is only used in
    that case. *)
Definition make_option_spec (option_strings conflicting_options : list str) (description : option str)
    (complete optional_arg repeatable hidden final : bool) (metavar : option str) (action : str) (sep : argsep)
    : res str :=
  let nots := not_options option_strings conflicting_options repeatable final in
  do opts <- marked_option_strings option_strings complete optional_arg sep;
  do arg <- (if complete then
               do a <- escape_colon_in_quoted_string action;
               Ok (s ":" ++ quote (escape_colon (match metavar with Some m => m | None => s " " end))
                   ++ s ":" ++ a)
             else Ok []);
  Ok ((if hidden then s "'!'" else [])
      ++ (if nonempty nots then quote (s "(" ++ join [SP] (uniq str_eqb nots) ++ s ")") else [])
      ++ (if repeatable then s "'*'" else [])
      ++ (match opts with [o] => o | _ => s "{" ++ join [COMMA] opts ++ s "}" end)
      ++ (match description with
          | Some d => quote (s "[" ++ escape_colon (escape_square_brackets d) ++ s "]")
          | None => []
          end)
      ++ arg).

(** zsh_utils.py 134-160 *)
Definition make_positional_spec (number : Z) (repeatable : bool) (description action : str) : res str :=
  let num_spec := if repeatable then s "'*'" else show_Z number in
  let desc_spec := quote (escape_colon description) in
  if str_eqb action (s "_normal") then Ok (num_spec ++ s "::" ++ desc_spec ++ s ":" ++ action)
  else do a <- escape_colon_in_quoted_string action; Ok (num_spec ++ s ":" ++ desc_spec ++ s ":" ++ a).
