(** * Model of the completer [prefix]: bash_helpers.py 600-688, zsh_helpers.py 378-386, fish_helpers.py
    512-518, 648-658; bash_complete.py 476-480, zsh_complete.py 561-565, fish_complete.py 611-616.

    The function that completes what is behind the prefix is a parameter.  Loops over the positions of a
    string are loops over its characters. *)
From Verif Require Import Base StrUtils SpecShell BashWords.
Open Scope list_scope.

(** ** Bash *)

(** bash_helpers.py 600-625: [get_last_break_position]; [None]: -1.  [breaks]: the characters of
    COMP_WORDBREAKS; simplification: each of them stands for itself in [[$COMP_WORDBREAKS]]. *)
Fixpoint break_loop (breaks : str) (l : loop) (i : nat) (pos : option nat) (x : str) : option nat :=
  match x with
  | [] => pos
  | c :: x' =>
      match l with
      | Outer =>
          if N.eqb c DQ then break_loop breaks Double (S i) pos x'
          else if N.eqb c SQ then break_loop breaks Single (S i) pos x'
          else if N.eqb c BS then match x' with [] => pos | _ :: x'' => break_loop breaks Outer (S (S i)) pos x'' end
          else if memc c breaks then break_loop breaks Outer (S i) (Some i) x'
          else break_loop breaks Outer (S i) pos x'
      | Double =>
          if N.eqb c BS then match x' with [] => pos | _ :: x'' => break_loop breaks Double (S (S i)) pos x'' end
          else if N.eqb c DQ then break_loop breaks Outer (S i) pos x'
          else break_loop breaks Double (S i) pos x'
      | Single => if N.eqb c SQ then break_loop breaks Outer (S i) pos x' else break_loop breaks Single (S i) pos x'
      end
  end.
Definition last_break_position (breaks x : str) : option nat := break_loop breaks Outer 0 None x.

(** bash_helpers.py 657-678: the inner loop of [strip_prefix_keep_quoting]: the next character ([None]:
    [sc] is empty), the state, and what is left.  At a backslash at the end, [sc] is empty. *)
Fixpoint next (l : loop) (x : str) : option (N * loop * str) :=
  match x with
  | [] => None
  | c :: x' =>
      match l with
      | Outer =>
          if N.eqb c DQ then next Double x'
          else if N.eqb c SQ then next Single x'
          else if N.eqb c BS then match x' with [] => None | d :: x'' => Some (d, Outer, x'') end
          else Some (c, Outer, x')
      | Single => if N.eqb c SQ then next Outer x' else Some (c, Single, x')
      | Double =>
          if N.eqb c DQ then next Outer x'
          else if N.eqb c BS then match x' with [] => None | d :: x'' => Some (d, Double, x'') end
          else Some (c, Double, x')
      end
  end.
(** The outer loop (653-681), [None]: a character differs *)
Fixpoint strip_loop (p : str) (l : loop) (x : str) : option (loop * str) :=
  match p with
  | [] => Some (l, x)
  | c :: p' =>
      match next l x with
      | Some (d, l', x') => if N.eqb c d then strip_loop p' l' x' else None
      | None => None
      end
  end.
(** Bash's [echo] prints nothing but a newline, or not even this, if it gets an option. *)
Definition echo (x : str) : str :=
  match x with
  | c :: d :: r => if N.eqb c DASH && forallb (fun e => memc e (s "neE")) (d :: r) then [] else x
  | _ => x
  end.
(** 649-688: what is printed, without the newline at the end *)
Definition strip_prefix_keep_quoting (p x : str) : str :=
  match strip_loop p Outer x with
  | None => echo x
  | Some (Outer, r) => r
  | Some (Single, r) => SQ :: r
  | Some (Double, r) => DQ :: r
  end.
(** [$(...)]: newlines at the end are removed *)
Definition command_substitution (x : str) : str := rstrip_p (N.eqb LF) x.
(** [compgen -W words -- cur]; [None]: expansions in the words *)
Definition compgen_W (words cur : str) : option (list str) := option_map (filter (starts_with cur)) (posix_words words).
(** 627-647: COMPREPLY.  [func]: what the function puts there, from [cur] *)
Definition bash_prefix (breaks prefix : str) (func : str -> list str) (cur : str) : option (list str) :=
  let stripped := command_substitution (strip_prefix_keep_quoting prefix cur) in
  if str_eqb stripped cur then compgen_W prefix cur
  else let reply := func stripped in
       Some match last_break_position breaks cur with
            | None => map (app prefix) reply
            | Some _ => reply
            end.

(** ** Zsh: 378-386.  [x], [i]: PREFIX and IPREFIX; [func]: the matches that are added, with those set;
    the answer is a list of matches, with the IPREFIX they were added with. *)
Definition zsh_prefix (prefix : str) (func : str -> str -> list (str * str)) (x i : str) : list (str * str) :=
  if starts_with prefix x then func (skipn (List.length prefix) x) (i ++ prefix) else [(i, prefix)].

(** ** Fish: 512-518, 648-658.  [arg]: the argument that is completed; [strip]: the prefix in
    [__fish_stripprefix] if that is set (by this completer); [func]: the lines that are printed, with
    this variable.  Escaped for regular expressions, a text matches itself. *)
Definition completing_arg (arg : str) (strip : option str) : str :=
  match strip with
  | Some p => if starts_with p arg then skipn (List.length p) arg else arg
  | None => arg
  end.
Definition fish_prefix (arg prefix : str) (func : option str -> list str) (strip : option str) : list str :=
  if contains prefix (completing_arg arg strip) then
    match func (Some prefix) with
    | [] => [[]]                          (* [printf] without arguments prints a newline *)
    | lines => map (app prefix) lines
    end
  else [prefix].
