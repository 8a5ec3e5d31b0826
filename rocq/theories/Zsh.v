(** * Model of crazy_complete/zsh.py 44-248: the completion function of a command line.

    The texts of the actions are parameters (zsh_complete.py): what is assumed is that they are
    quoted, as all of [get_action_string] are (zsh_complete.py 46-55, 74-78, 106-110, 199-203,
    336-337; names of functions need no quotes). *)
From Verif Require Import Base Dict PyStr Value StrUtils Shell Cli When Helpers ZshUtils SpecParser.
Open Scope list_scope.

(** zsh.py 22: the condition and the text; the option is not used *)
Record zarg := ZArg { zg_when : option str; zg_spec : str }.

(** cli.py 170-222: the options with the command line that has them; [get_options] is the list
    without the command lines. *)
Definition options_with_owner (ps : list cmd) (c : cmd) (with_parent_options : bool) : list (cmd * opt) :=
  let commandlines := if with_parent_options then get_parents ps c true else [c] in
  let d := fold_left (fun d c' => fold_left (fun d o => getter_add d o c') (c_options c') d) (rev commandlines) [] in
  flat_map (fun e => map (fun o => (fst (snd e), o)) (snd (snd e))) d.

(** cli.py 804-814 *)
Definition get_conflicting_option_strings (c : cmd) (o : opt) : res (list str) :=
  do r <- get_conflicting_options (c_options c) o; Ok (flat_map o_strings r).

Section Actions.
Variable option_action : place -> opt -> str.
Variable positional_action : place -> pos -> str.
Variable command_action : place -> str.

(** The command lines from the root down to the parent, with their ancestors. *)
Fixpoint parent_places (ps : list cmd) : list place :=
  match ps with [] => [] | p :: r => parent_places r ++ [(r, p)] end.

(** zsh.py 63-85; [o_repeatable] counts as true unless False *)
Definition complete_option (here : place) (owner : cmd) (o : opt) : res zarg :=
  do conflicting <- get_conflicting_option_strings owner o;
  do spec <- make_option_spec (o_strings o) conflicting (o_help o) (otruthy (o_complete o)) (o_optional_arg o)
    (negb (xbool_eqb (o_repeatable o) XFalse)) (o_hidden o) (o_final o) (o_metavar o) (quote (option_action here o)) (o_sep o);
  Ok (ZArg (o_when o) spec).

(** zsh.py 87-98; [n] is the counter before; [p] has sub-commands *)
Definition complete_subcommands (n : nat) (p : place) : res zarg :=
  do spec <- make_positional_spec (positional_index (fst p) (subcommands_number (snd p)) + 1) false
    (s "command" ++ show_nat (S n)) (quote (command_action p));
  Ok (ZArg None spec).

(** zsh.py 100-108 *)
Definition positional_text (q : pos) : str :=
  match p_help q with
  | Some (c :: h) => c :: h
  | _ => match p_metavar q with Some (c :: m) => c :: m | _ => s " " end
  end.
Definition complete_positional (p : place) (q : pos) : res zarg :=
  do spec <- make_positional_spec (positional_index (fst p) (p_number q) + 1) (p_repeatable q) (positional_text q)
    (quote (positional_action p q));
  Ok (ZArg (p_when q) spec).

(** zsh.py 179-191: the positional arguments and the sub-commands of one command line after the
    other *)
Fixpoint complete_arguments (n : nat) (l : list place) : res (list zarg) :=
  match l with
  | [] => Ok []
  | p :: l' =>
      do own <- map_res (complete_positional p) (c_positionals (snd p));
      do sub <- (if is_some (c_subcommands (snd p)) then do a <- complete_subcommands n p; Ok [a] else Ok []);
      do r <- complete_arguments (if is_some (c_subcommands (snd p)) then S n else n) l';
      Ok (own ++ sub ++ r)
  end.

(** zsh.py 168-194 *)
Definition function_args (ps : list cmd) (c : cmd) : res (list zarg) :=
  do options <- map_res (fun x => complete_option (ps, c) (fst x) (snd x))
    (options_with_owner ps c (negb (xbool_eqb (c_inherit c) XFalse)));
  do arguments <- complete_arguments 0 (parent_places ps ++ [(ps, c)]);
  Ok (options ++ arguments ++ match c_wraps c with Some (_ :: _) => [ZArg None (s "'::*'")] | _ => [] end).

(** The code of zsh.py 168-230 in parts: the text in the array and, for each argument that has a
    condition, the condition and the text that is added to the array. *)
Record zcode := ZCode { zc_array : str; zc_conditional : list (str * str) }.

(** zsh.py 199-220; a condition that is not None is parsed even if it is empty *)
Definition without_when (args : list zarg) : list zarg := filter (fun a => negb (is_some (zg_when a))) args.
Definition array_text (args : list zarg) : str :=
  match without_when args with
  | [] => []
  | l => LF :: flat_map (fun a => s "  " ++ zg_spec a ++ [LF]) l
  end.
Fixpoint conditional (ere : str -> bool) (e : zenv) (args : list zarg) : res (list (str * str)) :=
  match args with
  | [] => Ok []
  | a :: args' =>
      match zg_when a with
      | None => conditional ere e args'
      | Some w => do k <- zsh_when ere e w; do r <- conditional ere e args'; Ok ((k, zg_spec a) :: r)
      end
  end.
(** zsh.py 168-230; None: no code *)
Definition option_parsing (ere : str -> bool) (e : zenv) (ps : list cmd) (c : cmd) : res (option zcode) :=
  do args <- function_args ps c;
  match args with
  | [] => Ok None
  | _ => do k <- conditional ere e args; Ok (Some (ZCode (array_text args) k))
  end.
(** zsh.py 208-230 *)
Definition option_parsing_text (option_stacking : bool) (k : zcode) : str :=
  s "local -a args=(" ++ zc_array k ++ s ")" ++ [LF]
  ++ flat_map (fun x => fst x ++ s " &&\" ++ [LF] ++ s "  args+=(" ++ snd x ++ s ")" ++ [LF]) (zc_conditional k)
  ++ (if option_stacking then s "_arguments -S -s -w ""${args[@]}""" else s "_arguments -S ""${args[@]}""").
End Actions.

(** zsh.py 151-166: the number of the positional argument that selects the sub-command, the names
    (as they are matched) and the functions *)
Definition subcommand_calls (prefix : str) (ps : list cmd) (c : cmd) : res (option (Z * list (list str * str))) :=
  match c_subcommands c with
  | None => Ok None
  | Some l =>
      do calls <- map_res (fun sub =>
          do names <- get_all_command_variations sub (Some c);
          Ok (names, make_completion_funcname prefix (c :: ps) sub [])) l;
      Ok (Some (positional_index ps (subcommands_number c) + 1, calls)%Z)
  end.
(** zsh.py 155-166 *)
Definition subcommand_call_text (query : str) (x : Z * list (list str * str)) : str :=
  s "case ""$(" ++ query ++ s " get_positional " ++ show_Z (fst x) ++ s ")"" in" ++ [LF]
  ++ flat_map (fun k => s "  " ++ join [PIPE] (map quote (fst k)) ++ s ") " ++ snd k ++ s "; return $?;;" ++ [LF]) (snd x)
  ++ s "esac".
(** zsh.py 110-131 *)
Definition init_text (query : str) (ps : list cmd) (c : cmd) : str :=
  s "local opts=" ++ quote (get_query_option_strings ps c true) ++ [LF]
  ++ s "local HAVING_OPTIONS=() OPTION_VALUES=() POSITIONALS=() INCOMPLETE_OPTION=''" ++ [LF]
  ++ query ++ s " init ""$opts"" ""${words[@]}""".
(** zsh.py 133-149 *)
Definition captures (c : cmd) : list (str * list str) :=
  flat_map (fun o => match o_capture o with Some (x :: v) => [(x :: v, o_strings o)] | _ => [] end) (c_options c).
Definition option_capture_text (query : str) (l : list (str * list str)) : str :=
  match l with
  | [] => []
  | _ => s "local " ++ join [SP] (map (fun x => fst x ++ s "=()") l)
         ++ flat_map (fun x => [LF] ++ s "IFS=$""\n"" " ++ fst x ++ s "=($(" ++ query ++ s " get_option " ++ join_quoted (snd x) [SP] ++ s "))") l
  end.
