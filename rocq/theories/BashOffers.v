(** * Model of crazy_complete/bash.py, bash_option_completion.py, bash_option_strings_completion.py and
    bash_positionals_completion.py.

    The generators are modelled function by function; as in BashParser.v they build the variable
    parts of the script (patterns, conditions, lists of words) and the fixed parts are modelled by
    what Bash does when it runs them.

    Simplifications:
    - the code that completes an argument comes from bash_complete.py; it is a parameter ([code],
      [pcode], [choices_code]), and the result tells which code runs for which text;
    - conditions of [when] and the conditions on options are texts that are evaluated as command
      lists ([sh_eval]); [truth] tells which commands succeed;
    - the conditions [(( ${#POSITIONALS[@]} .. ))] are compared as numbers;
    - the functions of commands have different names, so that a call runs the function of the
      command; [__complete_option] is defined anew before it is used;
    - texts with expansions are not evaluated in [compgen -W]: nothing is offered for them;
    - indentation and blank lines are left out. *)
From Verif Require Import Base Value Dict Algo Shell StrUtils Abbrev Cli PyStr When SpecShell SpecWhen BashPatterns
  BashUtils SpecGlob GlobMatch BashParser Helpers.
Open Scope list_scope.

(** What the script knows when it runs: the command line as bash-completion splits it
    ([words]: COMP_WORDS; [cur], [prev]) and what the parser has found. *)
Record situation := MkSituation {
  st_cur : str;
  st_prev : str;
  st_words : list str;
  st_positionals : list str;      (* POSITIONALS *)
  st_end : bool }.                (* END_OF_OPTIONS *)

Inductive offer :=
| Words (l : list str)                     (* COMPREPLY+=(..) *)
| Run (code cur prefix : str)              (* the completion code with this $cur; prefix_compreply *)
| CommandOffset (n : nat).                 (* _command_offset n *)

(** What a function has done and whether it returns 0. *)
Definition outcome : Type := list offer * bool.

Section Generate.
Variable ere : str -> bool.
(** the names of array_contains, array_contains_nocase and array_match *)
Variables array_contains array_contains_nocase array_match : str.
(** bash.py 44-51 on options and on positionals; bash_positionals_completion.py 26-27 *)
Variable code : opt -> str.
Variable pcode : pos -> str.
Variable choices_code : list str -> str.
Variable truth : str -> bool.

(** bash_when.py 85-88, 106-110: the variables of the options that a test names *)
Definition option_variables (c : cmd) (options : list str) : res (list str) :=
  do os <- get_options_by_option_strings c options; map_res opt_variable os.
Definition when_env (c : cmd) : benv :=
  {| b_array_contains := array_contains; b_array_contains_nocase := array_contains_nocase;
     b_array_match := array_match; b_vars := option_variables c |}.
(** bash_when.py 118-123 *)
Definition generate_when_conditions (c : cmd) (when : str) : res str := bash_when ere (when_env c) when.

(** a command list as the condition of [if] or before [&&] *)
Definition succeeds (text : str) : bool := match sh_eval truth text with Some b => b | None => false end.

(** ** Option strings *)

(** bash_option_strings_completion.py 18-38 *)
Definition option_strings (o : opt) : list str :=
  let add_equal_sign :=
    has_optional_arg o ||
    (has_required_arg o && match o_sep o with SepBoth | SepEquals => true | _ => false end) in
  get_short_option_strings (o_strings o) ++
  if add_equal_sign then
    map (fun x => x ++ s "=") (get_long_option_strings (o_strings o)) ++
    map (fun x => x ++ s "=") (get_old_option_strings (o_strings o))
  else get_long_option_strings (o_strings o) ++ get_old_option_strings (o_strings o).
Definition make_option_strings (os : list opt) : str := join_quoted (flat_map option_strings os) [SP].

(** bash_option_strings_completion.py 15 *)
Record string_option := MkStringOption {
  so_option : opt;
  so_conditions : list str;
  so_when : option str }.

(** bash_option_strings_completion.py 41-49 *)
Definition all_of (conditions : list str) : str := s "(( " ++ join (s " && ") conditions ++ s " ))".
Definition get_option_full_condition (so : string_option) : str :=
  match so_conditions so, so_when so with
  | [], None => []
  | [], Some w => w
  | conditions, None => all_of conditions
  | conditions, Some [] => all_of conditions
  | conditions, Some w => all_of conditions ++ s " && " ++ w
  end.

(** bash_option_strings_completion.py 52-62: conditions and the words that are added *)
Definition generate_option_strings_completion (options : list string_option) : list (str * str) :=
  map (fun '(condition, opts) => (condition, make_option_strings (map so_option opts)))
    (group_by str_eqb options get_option_full_condition).

(** bash_option_strings_completion.py 89, 98, 101 *)
Definition condition_not_given (o : opt) : res str :=
  do v <- opt_variable o; Ok (s "! ${#" ++ v ++ s "[@]}").
(** bash_option_strings_completion.py 91-115: one round of the loop *)
Definition string_option_of (c : cmd) (final_conditions : list str) (o : opt) : res string_option :=
  do exclusive <- get_conflicting_options (c_options c) o;
  do conditions <- map_res condition_not_given exclusive;
  do own <- match o_repeatable o with
            | XFalse => do x <- condition_not_given o; Ok [x]
            | _ => Ok []
            end;
  let conditions := fold_left (fun l x => remove_str x l) final_conditions (conditions ++ own) in
  let conditions := uniq str_eqb (sort_strs conditions) in
  do when <- match o_when o with
             | None => Ok None
             | Some e => do w <- generate_when_conditions c e; Ok (Some w)
             end;
  Ok (MkStringOption o conditions when).

(** final conditions, and conditions with words *)
Definition strings_script : Type := list str * list (str * str).
(** bash_option_strings_completion.py 77-125 *)
Definition generate_option_strings (ps : list cmd) (c : cmd) : res (option strings_script) :=
  if negb (nonempty (get_options ps c false false)) then Ok None
  else
    do final_conditions <- map_res condition_not_given (get_final_options ps c);
    do options <- map_res (string_option_of c final_conditions) (filter (fun o => negb (o_hidden o)) (c_options c));
    Ok (Some (final_conditions, generate_option_strings_completion options)).

(** The words of [opts=(..)]; [compgen -W "${opts[*]}" -- "$cur"] *)
Definition array_words (text : str) : list str := match posix_words text with Some l => l | None => [] end.
Definition compgen (opts : list str) (cur : str) : list str :=
  match posix_words (join [SP] opts) with
  | Some l => filter (starts_with cur) l
  | None => []
  end.
(** bash_option_strings_completion.py 65-74, 117-123 *)
Definition run_option_strings (script : strings_script) (cur : str) : list str :=
  let '(final_conditions, lines) := script in
  let opts :=
    if negb (nonempty final_conditions) || succeeds (all_of final_conditions) then
      flat_map (fun '(condition, words) =>
        if negb (nonempty condition) || succeeds condition then array_words words else []) lines
    else [] in
  compgen opts cur.

(** ** Arguments of options *)

(** bash_option_completion.py 28-38 *)
Definition get_all_option_strings (a : option (list (str * (list str * nat)))) (o : opt) : res (list str) :=
  do long <- many_abbreviations a (get_long_option_strings (o_strings o));
  do old <- many_abbreviations a (get_old_option_strings (o_strings o));
  Ok (get_short_option_strings (o_strings o) ++ long ++ old).

(** One clause: the pattern, a condition, the completion code. *)
Definition arg_clause : Type := str * (option str * str).
(** bash_option_completion.py 67-79, 143-157 *)
Definition clauses_without_when (a : option (list (str * (list str * nat)))) (options : list opt) : res (list arg_clause) :=
  map_res (fun '(complete, os) =>
      do strings <- map_res (get_all_option_strings a) os;
      Ok (make_pattern (concat strings), (None, complete)))
    (group_by str_eqb options code).
(** bash_option_completion.py 81-98 *)
Definition clauses_with_when (a : option (list (str * (list str * nat)))) (c : cmd) (options : list opt) : res (list arg_clause) :=
  map_res (fun o =>
      do strings <- get_all_option_strings a o;
      do cond <- match o_when o with Some e => generate_when_conditions c e | None => Ok [] end;
      Ok (make_pattern strings, (Some cond, code o))) options.
Definition has_when (o : opt) : bool := otruthy (o_when o).
(** bash_option_completion.py 62-65 *)
Definition add_options (a : option (list (str * (list str * nat)))) (c : cmd) (options : list opt) : res (list arg_clause) :=
  let '(with_when, without_when) := partition options has_when in
  do x <- clauses_with_when a c with_when;
  do y <- clauses_without_when a without_when;
  Ok (x ++ y).

(** The function [__complete_option] in its two forms: the clauses for options whose argument is
    required, and for those with an optional argument if there are any. *)
Inductive master :=
| Plain (required : list arg_clause) (optional : option (list arg_clause))       (* ..NoWhen *)
| WithWhen (required : list arg_clause) (optional : option (list arg_clause)).
(** bash_option_completion.py 47-60, 120-141, 176-182 *)
Definition get_master (a : option (list (str * (list str * nat)))) (c : cmd) (options : list opt) : res master :=
  let optional_arg := filter has_optional_arg options in
  let required_arg := filter has_required_arg options in
  let part (f : list opt -> res (list arg_clause)) :=
    do r <- f required_arg;
    do o <- if nonempty optional_arg then do o <- f optional_arg; Ok (Some o) else Ok None;
    Ok (r, o) in
  if existsb has_when options then
    do (r, o) <- part (add_options a c); Ok (WithWhen r o)
  else
    do (r, o) <- part (clauses_without_when a); Ok (Plain r o).
(** bash_option_completion.py 103, 162 *)
Definition master_empty (m : master) : bool :=
  match m with Plain r o | WithWhen r o => negb (nonempty r || is_some o) end.

(** The [case] commands of the form with conditions: every clause ends with [return 0]. *)
Definition run_clauses (clauses : list arg_clause) (option_ : str) : option str :=
  match find (fun cl => case_matchb (fst cl) option_ &&
                        match fst (snd cl) with Some cond => succeeds cond | None => true end) clauses with
  | Some (_, (_, complete)) => Some complete
  | None => None
  end.
(** A call of [__complete_option]: the code that has run and the status.  In the form without
    conditions there is no [case] command for the required arguments if there are no such
    options; then [ret] is still 0 behind it. *)
Definition run_master (m : master) (option_ : str) (with_optional : bool) : list str * bool :=
  let ran o := match o with Some x => ([x], true) | None => ([], false) end in
  match m with
  | WithWhen required optional =>
      match run_clauses required option_ with
      | Some x => ([x], true)
      | None =>
          match optional with
          | Some clauses => if with_optional then ran (run_clauses clauses option_) else ([], false)
          | None => ([], false)
          end
      end
  | Plain required optional =>
      let '(r, ok) := if nonempty required then ran (run_clauses required option_) else ([], true) in
      match optional with
      | None => (r, ok)
      | Some clauses =>
          if ok then (r, true)
          else if negb with_optional then (r, false)
          else
            (* ret=0, and no case command if there are no clauses *)
            if nonempty clauses then ran (run_clauses clauses option_) else (r, true)
      end
  end.

(** bash_option_completion.py 185-246 *)
Record info := MkInfo {
  i_short_required : bool; i_short_optional : bool;
  i_long_required : bool; i_long_optional : bool;
  i_old_required : bool; i_old_optional : bool;
  i_old_option_strings : str;
  i_short_no_args : str;
  i_short_required_args : str;
  i_short_optional_args : str }.
Definition short_chars (o : opt) : str := concat (map lstrip_dashes (get_short_option_strings (o_strings o))).
Definition get_info (a : option (list (str * (list str * nat)))) (ps : list cmd) (c : cmd) (options : list opt) : res info :=
  let some get p := existsb (fun o => nonempty (get (o_strings o)) && p o) options in
  let required o := negb (has_optional_arg o) && has_required_arg o in
  let all_options := get_options ps c (inherits c) false in
  do old <- many_abbreviations a (flat_map (fun o => get_old_option_strings (o_strings o)) all_options);
  let chars p := flat_map short_chars (filter p all_options) in
  Ok (MkInfo
    (some get_short_option_strings required) (some get_short_option_strings has_optional_arg)
    (some get_long_option_strings required) (some get_long_option_strings has_optional_arg)
    (some get_old_option_strings required) (some get_old_option_strings has_optional_arg)
    (for_old_without_arg old)
    (chars (fun o => negb (has_required_arg o) && negb (has_optional_arg o) && negb (is_some (o_complete o))))
    (chars has_required_arg)
    (chars (fun o => negb (has_required_arg o) && has_optional_arg o))).
Definition no_args_pattern (i : info) : str :=
  if nonempty (i_short_no_args i) then s "*([" ++ i_short_no_args i ++ s "])" else [].

(** [__complete_option "$option" "$value" MODE && return 0] *)
Definition call (m : master) (option_ value prefix : str) (with_optional : bool) : outcome :=
  let '(codes, ok) := run_master m option_ with_optional in
  (map (fun x => Run x value prefix) codes, ok).
(** one command after the other, until one returns *)
Definition then_ (a b : outcome) : outcome :=
  if snd a then a else (fst a ++ fst b, snd b).
Definition nothing : outcome := ([], false).

(** ["-${word: -1}"]; Bash expands [${word: -1}] of the empty word to nothing *)
Definition last_char (word : str) : str := DASH :: match rev word with c :: _ => [c] | [] => [] end.

(** bash_option_completion.py 249-268 *)
Definition run_prev (i : info) (m : master) (st : situation) : outcome :=
  let prev := st_prev st in
  let whole := call m prev (st_cur st) [] false in
  let last := call m (last_char prev) (st_cur st) [] false in
  let pattern := s "-" ++ no_args_pattern i ++ s "[" ++ i_short_required_args i ++ s "]" in
  if starts_with (s "--") prev then if i_long_required i then whole else nothing
  else if i_old_required i && i_short_required i then
    if starts_with (s "-") prev then then_ whole last        (* ;& *)
    else if case_matchb pattern prev then last else nothing
  else if i_old_required i then if starts_with (s "-") prev then whole else nothing
  else if i_short_required i then if case_matchb pattern prev then last else nothing
  else nothing.

(** bash_option_completion.py 293-301: the loop; [pre] is the part of the word before position [i] *)
Fixpoint run_cur_chars (m : master) (pre rest : str) : outcome :=
  match rest with
  | [] => nothing
  | c :: rest' => then_ (call m [DASH; c] rest' (pre ++ [c]) true) (run_cur_chars m (pre ++ [c]) rest')
  end.
(** bash_option_completion.py 271-312; the clauses that are stripped at the end do nothing *)
Definition run_cur (i : info) (m : master) (st : situation) : outcome :=
  let cur := st_cur st in
  let attached := call m (before_equals cur) (behind_equals cur) [] true in
  let short := i_short_required i || i_short_optional i in
  let characters := if short then run_cur_chars m (firstn 1 cur) (skipn 1 cur) else nothing in
  let pattern := s "-" ++ no_args_pattern i ++ s "[" ++ i_short_required_args i ++ i_short_optional_args i ++ s "]*" in
  if starts_with (s "--") cur && has_equals (skipn 2 cur) then
    if i_long_required i || i_long_optional i then attached else nothing
  else if starts_with (s "--") cur then nothing
  else if short && nonempty (i_old_option_strings i) && case_matchb (i_old_option_strings i) cur then nothing
  else if (i_old_required i || i_old_optional i) && starts_with (s "-") cur && has_equals (skipn 1 cur) then
    then_ attached characters                                 (* ;& *)
  else if short && case_matchb pattern cur then characters
  else nothing.

(** bash_option_completion.py 315-327 *)
Definition run_dispatcher (i : info) (m : master) (st : situation) : outcome :=
  let required := i_short_required i || i_long_required i || i_old_required i in
  let optional := i_short_optional i || i_long_optional i || i_old_optional i in
  then_ (if required then run_prev i m st else nothing)
        (if required || optional then run_cur i m st else nothing).

(** bash_option_completion.py 330-349; the replacement of the modes in the text only drops an argument
    that the function does not read then *)
Definition generate_option_completion (ps : list cmd) (c : cmd) : res (option (info * master)) :=
  let options := get_options ps c false true in
  do a <- get_option_abbreviator ps c;
  do m <- get_master a c options;
  if master_empty m then Ok None
  else do i <- get_info a ps c options; Ok (Some (i, m)).
Definition run_option_completion (script : option (info * master)) (st : situation) : outcome :=
  match script with Some (i, m) => run_dispatcher i m st | None => nothing end.

(** ** Positional arguments *)

(** a name as the first element of a completer *)
Definition completer_is (complete : list value) (name : str) : bool :=
  match complete with VStr x :: _ => str_eqb x name | _ => false end.
(** bash_positionals_completion.py 18-22, bash.py 96-98 *)
Definition is_command_arg (p : pos) : bool := completer_is (p_complete p) (s "command_arg").

(** The number, and whether more arguments may follow *)
Definition count_test : Type := Z * bool.
(** bash_positionals_completion.py 33-37 *)
Definition positional_test (ps : list cmd) (p : pos) : count_test :=
  ((positional_index ps (p_number p) + 1)%Z, p_repeatable p).
(** tests of which one must hold, another condition, the code *)
Definition positional_block : Type := list count_test * (option str * str).

(** bash_positionals_completion.py 40-58 *)
Definition positionals_with_when (ps : list cmd) (c : cmd) (positionals : list pos) : res (list positional_block) :=
  map_res (fun p =>
      do cond <- match p_when p with
                 | Some ((_ :: _) as e) => do w <- generate_when_conditions c e; Ok (Some w)
                 | _ => Ok None
                 end;
      Ok ([positional_test ps p], (cond, pcode p))) positionals.
(** bash_positionals_completion.py 61-75 *)
Definition positionals_without_when (ps : list cmd) (positionals : list pos) : list positional_block :=
  map (fun '(complete, l) => (map (positional_test ps) l, (None, complete))) (group_by str_eqb positionals pcode).
(** cli.py 879-888: the keys of the dictionary *)
Definition get_choices (c : cmd) : list str :=
  uniq str_eqb (flat_map (fun sub => c_prog sub :: c_aliases sub) (subs c)).
(** bash_positionals_completion.py 25-30 *)
Definition subcommand_positional (ps : list cmd) (c : cmd) : positional_block :=
  ([((positional_index ps (subcommands_number c) + 1)%Z, false)], (None, choices_code (get_choices c))).
(** bash_positionals_completion.py 78-93 *)
Definition generate_positionals (ps : list cmd) (c : cmd) : res (list positional_block) :=
  let positionals := filter (fun p => negb (is_command_arg p)) (c_positionals c) in
  do blocks <- if existsb (fun p => otruthy (p_when p)) (c_positionals c)
               then positionals_with_when ps c positionals
               else Ok (positionals_without_when ps positionals);
  Ok (blocks ++ if is_some (c_subcommands c) then [subcommand_positional ps c] else []).

Definition test_count (count : nat) (t : count_test) : bool :=
  if snd t then (fst t <=? Z.of_nat count)%Z else (Z.of_nat count =? fst t)%Z.
(** the first block whose condition holds runs and returns 0 *)
Definition run_positionals (blocks : list positional_block) (st : situation) : outcome :=
  match find (fun b => existsb (test_count (List.length (st_positionals st))) (fst b) &&
                       match fst (snd b) with Some cond => succeeds cond | None => true end) blocks with
  | Some (_, (_, complete)) => ([Run complete (st_cur st) []], true)
  | None => nothing
  end.

(** ** The arguments of a command *)

(** bash.py 95-115: the number of the argument, if there is one *)
Definition command_arg (ps : list cmd) (c : cmd) : option Z :=
  match find is_command_arg (c_positionals c) with
  | Some p => Some (positional_index ps (p_number p) + 1)%Z
  | None => None
  end.
(** [${POSITIONALS[n]}]: a negative index counts from the end *)
Definition array_at (l : list str) (n : Z) : str :=
  let n := if (n <? 0)%Z then (n + Z.of_nat (List.length l))%Z else n in
  if (n <? 0)%Z then [] else nth (Z.to_nat n) l [].
Fixpoint index_of (x : str) (l : list str) (n : nat) : option nat :=
  match l with
  | [] => None
  | y :: l' => if str_eqb y x then Some n else index_of x l' (S n)
  end.
Definition run_command_arg (number : option Z) (st : situation) : outcome :=
  match number with
  | Some num =>
      if (num <=? Z.of_nat (List.length (st_positionals st)))%Z then
        match index_of (array_at (st_positionals st) (num - 2)) (st_words st) 0 with
        | Some n => ([CommandOffset n], true)
        | None => nothing
        end
      else nothing
  | None => nothing
  end.

(** ** Functions *)

(** utils.py 277-305 *)
Definition is_worth_a_function (c : cmd) : bool :=
  is_some (c_subcommands c) ||
  existsb (fun p =>
    if completer_is (p_complete p) (s "none") then false
    else if completer_is (p_complete p) (s "integer") || completer_is (p_complete p) (s "float")
    then Nat.ltb 1 (List.length (p_complete p))
    else true) (c_positionals c) ||
  existsb (fun o => negb (mems (s "--help") (o_strings o)) && negb (mems (s "--version") (o_strings o))) (c_options c).

(** The parts of the function that do not call another one (bash.py 134-138). *)
Definition run_own (ps : list cmd) (c : cmd) (st : situation) : res outcome :=
  let arg := command_arg ps c in
  do options <- generate_option_completion ps c;
  do strings <- generate_option_strings ps c;
  do positionals <- generate_positionals ps c;
  Ok (then_ (run_command_arg arg st)
     (then_ (run_option_completion options st)
        match strings with
        | Some script =>
            if negb (st_end st) && starts_with (s "-") (st_cur st)
            then ([Words (run_option_strings script (st_cur st))], false)    (* return 1 *)
            else run_positionals positionals st
        | None => run_positionals positionals st
        end)).

(** bash.py 70-93, 117-162: the function of a command.  The clauses for the names of sub-commands
    are compared in their order.  A function for a command that is not worth one is not called. *)
Definition name_pattern (c sub : cmd) : res str :=
  do cmds <- get_all_command_variations sub (Some c);
  Ok (make_pattern (map quote cmds)).
Fixpoint run_function (st : situation) (ps : list cmd) (c : cmd) : res outcome :=
  let 'Cmd _ _ _ _ _ _ inherit _ _ subcommands := c in
  let inherit := negb (xbool_eqb inherit XFalse) in
  do called <-
    match subcommands with
    | None => Ok (nothing, false)
    | Some l =>
        let index := positional_index ps (subcommands_number c) in
        if (index <? Z.of_nat (List.length (st_positionals st)))%Z then
          (fix clauses (l : list cmd) : res (outcome * bool) :=
             match l with
             | [] => Ok (nothing, false)
             | sub :: l' =>
                 do pattern <- name_pattern c sub;
                 if case_matchb pattern (array_at (st_positionals st) index) then
                   if is_worth_a_function sub then
                     do r <- run_function st (c :: ps) sub;
                     Ok (r, negb inherit)                       (* && return 0 [|| return 1] *)
                   else if inherit then Ok (nothing, false)
                   else Ok (([], true), true)
                 else clauses l'
             end) l
        else Ok (nothing, false)
    end;
  let '(r, returns) := called in
  if returns then Ok r
  else do own <- run_own ps c st; Ok (then_ r own).
End Generate.

(** ** Names of functions *)

Section Names.
Variable prefix : str.       (* of the names of functions: helpers.py 116-118 *)
(** bash.py 121-123, 159: the functions of a script; generation.py 168-176 *)
Definition defined_functions (root : cmd) : list str :=
  map (fun '(ps, c) => make_completion_funcname prefix ps c [])
    (filter (fun '(_, c) => is_worth_a_function c) (visit_commandlines [] root)).
(** bash.py 78-86: the functions that the one of a command calls *)
Definition called_functions (ps : list cmd) (c : cmd) : list str :=
  map (fun sub => make_completion_funcname prefix (c :: ps) sub []) (filter is_worth_a_function (subs c)).
(** bash.py 165-171, 222, 231-233: the function that completes the program, without [wraps] *)
Definition registered_function (root : cmd) : str := make_completion_funcname prefix [] root [].
End Names.
