(** * Model of crazy_complete/bash_parser.py, bash_parser_v2.py and bash_parser_subcommand_code.py.

    The generators are modelled function by function; instead of the text of a Bash script they
    build its variable parts: the clauses of the [case] commands, with the text of the patterns.
    The fixed parts, the templates [_PARSER_CODE], are modelled by what Bash does when it runs
    them ([run1], [run2]): a word is compared with the text of a pattern by [case_matchb].

    Simplifications:
    - the text around the clauses (indentation, [case .. esac]) is left out;
    - the log of all assignments, in their order, stands for the arrays ([event]);
    - a clause whose text is no pattern never matches (Bash would reject the whole script);
    - names of commands are appended to [$cmd] as they are (in double quotes, Bash would expand
      [$] and backquotes in them);
    - no variable has the name of one of the local variables of the template;
    - there is at least one word at and after the cursor, possibly the empty one. *)
From Verif Require Import Base Dict Shell StrUtils Abbrev Cli PyStr BashPatterns BashUtils SpecGlob GlobMatch.
Open Scope list_scope.

(** bash_parser.py 52, bash_parser_v2.py 110 *)
Definition OPT_ISSET : str := s "_OPT_ISSET_".

(** ** Sub-commands *)

(** bash_parser_subcommand_code.py 14-18 *)
Definition get_subcommand_path (ps : list cmd) (c : cmd) : str :=
  join (s ":") (s "root" :: map c_prog (tl (get_parents ps c true))).

(** [list.remove] *)
Fixpoint remove_str (x : str) (l : list str) : list str :=
  match l with
  | [] => []
  | y :: l' => if str_eqb x y then l' else y :: remove_str x l'
  end.

Fixpoint map_res {A B} (f : A -> res B) (l : list A) : res (list B) :=
  match l with
  | [] => Ok []
  | x :: l' => do y <- f x; do r <- map_res f l'; Ok (y :: r)
  end.

(** bash_parser_subcommand_code.py 66-85: the clauses that replace a name by the name of the
    command; any other word is appended as it is.  Names of siblings differ
    ([add_commandline_object]), so that the keys of the dictionary do. *)
Definition make_switch_case (c : cmd) : res (list (str * str)) :=
  do l <- map_res (fun sub =>
            do names <- get_all_command_variations sub (Some c);
            Ok (c_prog sub, remove_str (c_prog sub) names)) (subs c);
  Ok (map (fun '(name, aliases) => (make_pattern aliases, name))
          (filter (fun '(_, aliases) => nonempty aliases) l)).

(** bash_parser_subcommand_code.py 21-63: for every command with sub-commands the pattern for
    [$cmd|${#POSITIONALS[@]}] and the clauses for the name; cli.py 560-571 for the number. *)
Definition make_subcommand_switch_code (root : cmd) : res (list (str * list (str * str))) :=
  map_res (fun '(ps, c) =>
      do clauses <- make_switch_case c;
      Ok (quote (get_subcommand_path ps c ++ s "|" ++ show_Z (positional_index ps (subcommands_number c) + 1)%Z),
          clauses))
    (filter (fun '(_, c) => is_some (c_subcommands c)) (visit_commandlines [] root)).

(** The code above when it is run. *)
Definition run_switch (code : list (str * list (str * str))) (cmd : str) (positionals : nat) (arg : str) : str :=
  match find (fun '(label, _) => case_matchb label (cmd ++ s "|" ++ show_nat positionals)) code with
  | None => cmd
  | Some (_, clauses) =>
      match find (fun '(pattern, _) => case_matchb pattern arg) clauses with
      | Some (_, name) => cmd ++ s ":" ++ name
      | None => cmd ++ s ":" ++ arg
      end
  end.

(** ** The log of a run *)
Inductive event :=
| Append (variable value : str)      (* variable+=(value) *)
| Positional (word : str)            (* POSITIONALS+=(word) *)
| EndOfOptions.                      (* END_OF_OPTIONS=1 *)

(** utils.py 133-155: a generator that returns the words themselves *)
Definition many_abbreviations (a : option (list (str * (list str * nat)))) (words : list str) : res (list str) :=
  match a with None => Ok words | Some d => get_many_abbreviations d words end.

(** ** Version 1 *)

(** What a clause does. *)
Inductive action :=
| SetFlag            (* variable+=(_OPT_ISSET_) *)
| TakeBehindEquals   (* variable+=("${arg#*=}") *)
| TakeNext           (* variable+=("${words_dequoted[++argi]}") *)
| TakeRestOrFlag     (* $trailing_chars, if there are any, else _OPT_ISSET_ *)
| TakeRestOrNext.    (* $trailing_chars, if there are any, else the next word *)
(** pattern, variable, action *)
Definition clause : Type := str * (str * action).

(** bash_parser.py 107-130 *)
Definition make_long_option_case (long_options : list str) (o : opt) (variable : str) : list clause :=
  if has_optional_arg o then
    [(for_long_without_arg long_options, (variable, SetFlag));
     (for_long_with_arg long_options, (variable, TakeBehindEquals))]
  else if has_required_arg o then
    [(for_long_without_arg long_options, (variable, TakeNext));
     (for_long_with_arg long_options, (variable, TakeBehindEquals))]
  else
    [(for_long_without_arg long_options, (variable, SetFlag))].

(** bash_parser.py 133-154 *)
Definition make_short_option_case (short_options : list str) (o : opt) (variable : str) : list clause :=
  if has_optional_arg o then [(for_short short_options, (variable, TakeRestOrFlag))]
  else if has_required_arg o then [(for_short short_options, (variable, TakeRestOrNext))]
  else [(for_short short_options, (variable, SetFlag))].

(** bash_parser.py 170-186: one round of the loop *)
Definition option_cases (a : option (list (str * (list str * nat)))) (o : opt) : res (list clause * list clause) :=
  let short_options := get_short_option_strings (o_strings o) in
  do long_options <- many_abbreviations a (get_long_option_strings (o_strings o));
  do old_options <- many_abbreviations a (get_old_option_strings (o_strings o));
  let long_options := long_options ++ old_options in
  do variable <- opt_variable o;
  Ok (if nonempty long_options then make_long_option_case long_options o variable else [],
      if nonempty short_options then make_short_option_case short_options o variable else []).

(** bash_parser.py 157-188 *)
Definition generate_option_cases (ps : list cmd) (c : cmd) : res (list clause * list clause) :=
  do a <- get_option_abbreviator ps c;
  do l <- map_res (option_cases a) (get_options ps c false false);
  Ok (flat_map fst l, flat_map snd l).

(** The options of one command: the pattern for [$cmd] and the clauses. *)
Definition block : Type := str * list clause.
Record script1 := MkScript1 {
  s1_long : list block;
  s1_short : list block;
  s1_switch : list (str * list (str * str)) }.

(** True, or the non-empty text INHERIT *)
Definition inherits (c : cmd) : bool := negb (xbool_eqb (c_inherit c) XFalse).

(** bash_parser.py 56-83 *)
Definition generate1 (root : cmd) : res script1 :=
  let commandlines := rev (visit_commandlines [] root) in
  do switch <- make_subcommand_switch_code root;
  do cases <- map_res (fun '(ps, c) =>
      do cases <- generate_option_cases ps c;
      Ok (get_subcommand_path ps c ++ (if inherits c then s "*" else []), cases)) commandlines;
  Ok (MkScript1
    (filter (fun b => nonempty (snd b)) (map (fun '(command, (long, short)) => (command, long)) cases))
    (filter (fun b => nonempty (snd b)) (map (fun '(command, (long, short)) => (command, short)) cases))
    switch).

(** [case "$word" in pattern) ..]: what the first clause that matches does *)
Definition first_clause {A} (clauses : list (str * A)) (word : str) : option A :=
  match find (fun cl => case_matchb (fst cl) word) clauses with
  | Some (_, a) => Some a
  | None => None
  end.

(** bash_parser.py 66-73: the clauses for long options of one command after the other; every
    clause ends with [continue]. *)
Fixpoint run_long (blocks : list block) (cmd arg : str) : option (str * action) :=
  match blocks with
  | [] => None
  | (command, clauses) :: blocks' =>
      if case_matchb command cmd then
        match first_clause clauses arg with
        | Some a => Some a
        | None => run_long blocks' cmd arg
        end
      else run_long blocks' cmd arg
  end.

(** What happens behind a word or a character: go on, go on with the next word of the command
    line, or put the next word into the variable and go on with the one behind it. *)
Inductive flow := Stay | Leave | LeaveWithNext (variable : str).

(** bash_parser.py 75-83, 133-154: the clauses for one character; [SetFlag] does not leave the
    loop, so that the clauses of the next command are tried, too. *)
Fixpoint run_char (blocks : list block) (cmd : str) (char trailing_chars : str) : list event * flow :=
  match blocks with
  | [] => ([], Stay)
  | (command, clauses) :: blocks' =>
      match (if case_matchb command cmd then first_clause clauses char else None) with
      | Some (v, TakeRestOrFlag) =>
          ([Append v (if nonempty trailing_chars then trailing_chars else OPT_ISSET)], Leave)
      | Some (v, TakeRestOrNext) =>
          if nonempty trailing_chars then ([Append v trailing_chars], Leave) else ([], LeaveWithNext v)
      | Some (v, _) =>
          let '(es, f) := run_char blocks' cmd char trailing_chars in
          (Append v OPT_ISSET :: es, f)
      | None => run_char blocks' cmd char trailing_chars
      end
  end.
(** bash_parser.py 32-36: the loop over the characters *)
Fixpoint run_chars (blocks : list block) (cmd : str) (chars : str) : list event * flow :=
  match chars with
  | [] => ([], Stay)
  | c :: chars' =>
      let '(es, f) := run_char blocks cmd [c] chars' in
      match f with
      | Stay => let '(es', f') := run_chars blocks cmd chars' in (es ++ es', f')
      | _ => (es, f)
      end
  end.

(** The pattern [-?*] of the templates: a dash and at least one character *)
Definition dashed (w : str) : bool :=
  match w with c :: _ :: _ => N.eqb c DASH | _ => false end.
(** ["${arg#*=}"], ["${arg%%=*}"] *)
Fixpoint behind_equals (w : str) : str :=
  match w with [] => [] | c :: w' => if N.eqb c EQ then w' else behind_equals w' end.
Fixpoint before_equals (w : str) : str :=
  match w with [] => [] | c :: w' => if N.eqb c EQ then [] else c :: before_equals w' end.
Definition has_equals (w : str) : bool := memc EQ w.

(** bash_parser.py 44-49 (and bash_parser_v2.py 102-107): the last loop, when the first one has
    ended at the cursor. *)
Definition at_cursor (after : list str) : list event :=
  let w := hd [] after in if dashed w then [] else [Positional w].

(** bash_parser.py 16-50.  [before]: the words from [argi] up to the cursor, [after]: the word at
    the cursor and those behind it; [positionals] is [${#POSITIONALS[@]}]. *)
Fixpoint loop1 (script : script1) (cmd : str) (positionals : nat) (before after : list str) : list event :=
  match before with
  | [] => at_cursor after
  | arg :: rest =>
      let next := fun v =>
        match rest with
        | [] => [Append v (hd [] after)]      (* argi is behind the cursor now: both loops end *)
        | x :: rest' => Append v x :: loop1 script cmd positionals rest' after
        end in
      if str_eqb arg (s "--") then EndOfOptions :: map Positional (rest ++ after)
      else if dashed arg then
        match run_long (s1_long script) cmd arg with
        | Some (v, TakeNext) => next v
        | Some (v, TakeBehindEquals) => Append v (behind_equals arg) :: loop1 script cmd positionals rest after
        | Some (v, _) => Append v OPT_ISSET :: loop1 script cmd positionals rest after
        | None =>
            let '(es, f) := run_chars (s1_short script) cmd (tl arg) in
            es ++ match f with
                  | LeaveWithNext v => next v
                  | _ => loop1 script cmd positionals rest after
                  end
        end
      else
        Positional arg ::
        loop1 script (run_switch (s1_switch script) cmd (S positionals) arg) (S positionals) rest after
  end.
Definition run1 (script : script1) (before after : list str) : list event :=
  loop1 script (s "root") 0 before after.

(** ** Version 2 *)

(** utils.py 193-254, as far as it is used: which kinds of options and arguments there are. *)
Record option_types := MkTypes {
  t_short : bool; t_long : bool; t_old : bool; t_short_optional : bool; t_positionals : bool }.
Definition get_defined_option_types (root : cmd) : option_types :=
  let commands := map snd (visit_commandlines [] root) in
  let options := flat_map c_options commands in
  MkTypes
    (existsb (fun o => nonempty (get_short_option_strings (o_strings o))) options)
    (existsb (fun o => nonempty (get_long_option_strings (o_strings o))) options)
    (existsb (fun o => nonempty (get_old_option_strings (o_strings o))) options)
    (existsb (fun o => nonempty (get_short_option_strings (o_strings o)) && negb (has_required_arg o)
                       && has_optional_arg o) options)
    (existsb (fun c => nonempty (c_positionals c) || nonempty (subs c)) commands).

(** The values of [ARGS]: ['?'], [1] and [0] *)
Inductive args := ArgsOptional | ArgsOne | ArgsZero.
(** option strings, variable, args *)
Definition case2 : Type := list str * (str * args).

(** bash_parser_v2.py 211-228: one round of the loop *)
Definition option_case2 (a : option (list (str * (list str * nat)))) (o : opt) : res case2 :=
  let short_options := get_short_option_strings (o_strings o) in
  do long_options <- many_abbreviations a (get_long_option_strings (o_strings o));
  do old_options <- many_abbreviations a (get_old_option_strings (o_strings o));
  do variable <- opt_variable o;
  Ok (short_options ++ long_options ++ old_options,
      (variable, if has_optional_arg o then ArgsOptional else if has_required_arg o then ArgsOne else ArgsZero)).

(** bash_parser_v2.py 200-230 *)
Definition generate_option_cases2 (ps : list cmd) (c : cmd) : res (list case2) :=
  do a <- get_option_abbreviator ps c;
  map_res (option_case2 a) (get_options ps c false false).

(** bash_parser_v2.py 154-162 *)
Definition make_option_switch_code (option_cases : list case2) : list (str * (str * args)) :=
  map (fun '(strings, a) => (make_pattern strings, a)) option_cases.

(** The pattern for [$1], if it is checked, and the clauses. *)
Definition block2 : Type := option str * list (str * (str * args)).
(** bash_parser_v2.py 132-151 *)
Definition make_cmd_plus_option_switch_code (omit_cmd_check : bool) (ps : list cmd) (c : cmd)
    : res (option block2) :=
  do option_cases <- generate_option_cases2 ps c;
  if negb (nonempty option_cases) then Ok None
  else if omit_cmd_check then Ok (Some (None, make_option_switch_code option_cases))
  else
    let command := quote (get_subcommand_path ps c) in
    let command := if inherits c then command ++ s "*" else command in
    Ok (Some (Some command, make_option_switch_code option_cases)).

(** bash_parser_v2.py 113-129 *)
Definition make_find_option_code (root : cmd) : res (list block2) :=
  let cmdlines := rev (visit_commandlines [] root) in
  do code <- map_res (fun '(ps, c) =>
      make_cmd_plus_option_switch_code (Nat.eqb (List.length cmdlines) 1) ps c) cmdlines;
  Ok (flat_map (fun b => match b with Some b => [b] | None => [] end) code).

Record script2 := MkScript2 {
  s2_find : list block2;
  s2_switch : list (str * list (str * str));
  s2_types : option_types }.

(** bash_parser_v2.py 165-197 *)
Definition generate2 (root : cmd) : res script2 :=
  do find_option_code <- make_find_option_code root;
  do switch <- make_subcommand_switch_code root;
  Ok (MkScript2 find_option_code switch (get_defined_option_types root)).

(** The function [__find_option] *)
Fixpoint find_option (blocks : list block2) (cmd word : str) : option (str * args) :=
  match blocks with
  | [] => None
  | (command, clauses) :: blocks' =>
      if match command with Some command => case_matchb command cmd | None => true end then
        match first_clause clauses word with
        | Some a => Some a
        | None => find_option blocks' cmd word
        end
      else find_option blocks' cmd word
  end.

(** bash_parser_v2.py 70-91: the loop over the characters *)
Fixpoint run_chars2 (short_optionals : bool) (blocks : list block2) (cmd : str) (chars : str) : list event * flow :=
  match chars with
  | [] => ([], Stay)
  | c :: chars' =>
      match find_option blocks cmd [DASH; c] with
      | Some (v, ArgsOne) =>
          if nonempty chars' then ([Append v chars'], Leave) else ([], LeaveWithNext v)
      | Some (v, a) =>
          if short_optionals && match a with ArgsOptional => true | _ => false end
          then ([Append v (if nonempty chars' then chars' else OPT_ISSET)], Leave)
          else let '(es, f) := run_chars2 short_optionals blocks cmd chars' in (Append v OPT_ISSET :: es, f)
      | None => run_chars2 short_optionals blocks cmd chars'
      end
  end.

(** bash_parser_v2.py 19-108; the [#ifdef]s are conditions here. *)
Fixpoint loop2 (script : script2) (cmd : str) (positionals : nat) (before after : list str) : list event :=
  let t := s2_types script in
  match before with
  | [] => if t_positionals t then at_cursor after else []
  | arg :: rest =>
      let next := fun v =>
        match rest with
        | [] => [Append v (hd [] after)]
        | x :: rest' => Append v x :: loop2 script cmd positionals rest' after
        end in
      let go_on := loop2 script cmd positionals rest after in
      let whole := fun '(v, a) =>
        match a with ArgsOne => next v | _ => Append v OPT_ISSET :: go_on end in
      let characters :=
        if t_short t then
          let '(es, f) := run_chars2 (t_short_optional t) (s2_find script) cmd (tl arg) in
          es ++ match f with LeaveWithNext v => next v | _ => go_on end
        else go_on in
      if str_eqb arg (s "--") then
        EndOfOptions :: (if t_positionals t then map Positional (rest ++ after) else [])
      else if starts_with (s "--") arg then
        if negb (t_long t) then go_on
        else if has_equals arg then
          match find_option (s2_find script) cmd (before_equals arg) with
          | Some (v, _) => Append v (behind_equals arg) :: go_on
          | None => go_on
          end
        else
          match find_option (s2_find script) cmd arg with
          | Some va => whole va
          | None => go_on
          end
      else if dashed arg then
        if t_old t then
          match (if has_equals arg then find_option (s2_find script) cmd (before_equals arg) else None) with
          | Some (v, _) => Append v (behind_equals arg) :: go_on
          | None =>
              match find_option (s2_find script) cmd arg with
              | Some va => whole va
              | None => characters
              end
          end
        else characters
      else if t_positionals t then
        Positional arg ::
        loop2 script (run_switch (s2_switch script) cmd (S positionals) arg) (S positionals) rest after
      else go_on
  end.
Definition run2 (script : script2) (before after : list str) : list event :=
  loop2 script (s "root") 0 before after.
