(** * Model of crazy_complete/fish_utils.py, of the conditions of fish_conditions.py and of the
    completion definitions of fish.py.

    Simplifications:
    - the completers (fish_complete.py) are a parameter: a function from the completer and its
      arguments to the arguments for [complete];
    - [InternalError] is [AssertionError];
    - helper functions are referred to by the variables that hold their names, as in the script;
      which of them are marked as used is not modelled here (see Helpers.v). *)
From Verif Require Import Base Value Algo StrUtils Shell When Cli.
Open Scope list_scope.

(** ** The complete command *)

(** fish_utils.py 10-86 *)
Inductive fstring := FString (string : str) (raw : bool).
Definition f_escape (x : fstring) : str := let 'FString x raw := x in if raw then x else quote x.

(** fish_utils.py 89-105 *)
Record complete_command := MkComplete {
  cc_command : option fstring;
  cc_description : option fstring;
  cc_conditions : list fstring;
  cc_arguments : option fstring;
  cc_short : list fstring;
  cc_long : list fstring;
  cc_old : list fstring;
  cc_flags : list str }.
Definition empty_command : complete_command := MkComplete None None [] None [] [] [] [].

(** fish_utils.py 107-142; the leading dashes of option strings are removed *)
Definition bare (o : str) : fstring := FString (lstrip_p (N.eqb DASH) o) false.
Definition set_command (x : fstring) (c : complete_command) : complete_command :=
  let 'MkComplete _ d cs a sh lo ol f := c in MkComplete (Some x) d cs a sh lo ol f.
Definition set_description (x : str) (c : complete_command) : complete_command :=
  let 'MkComplete co _ cs a sh lo ol f := c in MkComplete co (Some (FString x false)) cs a sh lo ol f.
Definition set_conditions (x : list fstring) (c : complete_command) : complete_command :=
  let 'MkComplete co d _ a sh lo ol f := c in MkComplete co d x a sh lo ol f.
Definition set_arguments (x : str) (c : complete_command) : complete_command :=
  let 'MkComplete co d cs _ sh lo ol f := c in MkComplete co d cs (Some (FString x false)) sh lo ol f.
Definition add_short_options (os : list str) (c : complete_command) : complete_command :=
  let 'MkComplete co d cs a sh lo ol f := c in MkComplete co d cs a (sh ++ map bare os) lo ol f.
Definition add_long_options (os : list str) (c : complete_command) : complete_command :=
  let 'MkComplete co d cs a sh lo ol f := c in MkComplete co d cs a sh (lo ++ map bare os) ol f.
Definition add_old_options (os : list str) (c : complete_command) : complete_command :=
  let 'MkComplete co d cs a sh lo ol f := c in MkComplete co d cs a sh lo (ol ++ map bare os) f.
(** a set of flags: a list without duplicates *)
Definition set_add (x : str) (l : list str) : list str := if mems x l then l else l ++ [x].
Definition set_discard (x : str) (l : list str) : list str := filter (fun y => negb (str_eqb y x)) l.
Definition add_flag (x : str) (c : complete_command) : complete_command :=
  let 'MkComplete co d cs a sh lo ol f := c in MkComplete co d cs a sh lo ol (set_add x f).

(** fish_utils.py 144-161 *)
Fixpoint parse_args (args : list str) (c : complete_command) : res complete_command :=
  match args with
  | [] => Ok c
  | a :: args' =>
      if str_eqb a (s "-f") then parse_args args' (add_flag (s "f") c)
      else if str_eqb a (s "-F") then parse_args args' (add_flag (s "F") c)
      else if str_eqb a (s "-a") then
        match args' with
        | x :: args'' => parse_args args'' (set_arguments x c)
        | [] => Err AssertionError
        end
      else Err AssertionError
  end.

(** fish_utils.py 163-207 *)
Definition flags_of (f : list str) : list str :=
  let f := if mems (s "r") f && mems (s "f") f then set_add (s "x") f else f in
  if mems (s "x") f then set_discard (s "f") (set_discard (s "r") f) else f.
Definition with_option (o : str) (x : fstring) : list str := [o; f_escape x].
Definition get (c : complete_command) : str :=
  let flags := flags_of (cc_flags c) in
  join [SP]
    ([s "complete"]
     ++ match cc_command c with Some x => with_option (s "-c") x | None => [] end
     ++ flat_map (with_option (s "-n")) (cc_conditions c)
     ++ flat_map (with_option (s "-s")) (cc_short c)
     ++ flat_map (with_option (s "-l")) (cc_long c)
     ++ flat_map (with_option (s "-o")) (cc_old c)
     ++ match cc_description c with Some x => with_option (s "-d") x | None => [] end
     ++ match flags with [] => [] | _ => [s "-" ++ concat (sort_strs flags)] end
     ++ match cc_arguments c with Some x => with_option (s "-a") x | None => [] end).

(** ** Variables for conditions *)

(** fish_utils.py 210-234: the values with their variables, in order; the counter *)
Record vars := MkVars { v_name : str; v_values : list (str * str); v_counter : nat }.
Definition new_vars (name : str) : vars := MkVars name [] 0.
(** Python [%03d] *)
Definition pad3 (n : nat) : str :=
  let d := z_str (Z.of_nat n) in repeat 48%N (3 - List.length d) ++ d.
Fixpoint lookup (x : str) (l : list (str * str)) : option str :=
  match l with [] => None | (k, v) :: l' => if str_eqb k x then Some v else lookup x l' end.
Definition vars_add (m : vars) (value : str) : vars * str :=
  match lookup value (v_values m) with
  | Some v => (m, DOLLAR :: v)
  | None =>
      let v := v_name m ++ pad3 (v_counter m) in
      (MkVars (v_name m) (v_values m ++ [(value, v)]) (S (v_counter m)), DOLLAR :: v)
  end.
Fixpoint vars_adds (m : vars) (values : list str) : vars * list str :=
  match values with
  | [] => (m, [])
  | x :: values' =>
      let (m, v) := vars_add m x in
      let (m, vs) := vars_adds m values' in (m, v :: vs)
  end.
Definition get_lines (m : vars) : list str :=
  map (fun '(value, variable) => s "set -l " ++ variable ++ s " " ++ value) (v_values m).

(** ** Conditions *)

(** fish_conditions.py 43-200 *)
Inductive fcond :=
| FNot (c : fcond)
| FHasOption (options : list str)
| FHasHiddenOption (options : list str)
| FPositionalNum (operator : str) (number : Z)
| FPositionalContains (number : Z) (values : list str).
Fixpoint cond_code (c : fcond) : str :=
  match c with
  | FNot c => s "not " ++ cond_code c
  | FHasOption options => make_condition_command (s "$has_option") options
  | FHasHiddenOption options => make_condition_command (s "$has_option") (s "WITH_INCOMPLETE" :: options)
  | FPositionalNum operator number =>
      make_condition_command (s "$num_of_positionals") [test_operator operator; z_str number]
  | FPositionalContains number values =>
      make_condition_command (s "$positional_contains") (z_str number :: values)
  end.
(** fish_conditions.py 236-256 *)
Definition is_contains (c : fcond) : bool := match c with FPositionalContains _ _ => true | _ => false end.
Definition is_num (c : fcond) : bool := match c with FPositionalNum _ _ => true | _ => false end.
Definition is_has (c : fcond) : bool := match c with FHasOption _ | FHasHiddenOption _ => true | _ => false end.
Definition optimized_conditions (l : list fcond) : list fcond :=
  filter is_num l ++ filter is_contains l ++ filter is_has l
  ++ filter (fun c => negb (is_num c || is_contains c || is_has c)) l.
Definition in_double (x : str) : str := DQ :: x ++ [DQ].
(** fish_conditions.py 258-281 *)
Definition get_conditions (l : list fcond) (w : option (list wtok)) : list str :=
  map (fun c => in_double (cond_code c)) (optimized_conditions l)
  ++ match w with Some (t :: ts) => [in_double (fish_tokens (t :: ts))] | _ => [] end.

(** ** Completion definitions *)

(** fish.py 22-58 *)
Record definition := MkDef {
  d_short : list str;
  d_long : list str;
  d_old : list str;
  d_positional : option Z;
  d_description : option str;
  d_requires_argument : bool;
  d_keep_order : bool;
  d_args : list str;
  d_conditions : list fcond;
  d_when : option (list wtok) }.

(** fish.py 60-91 *)
Definition get_complete_cmd (option_stacking : bool) (d : definition) : res complete_command :=
  let c := set_command (FString (s "$prog") true) empty_command in
  let c := add_old_options (d_old d) c in
  let c := add_long_options (d_long d) c in
  let c := if option_stacking then add_short_options (d_short d) c else add_old_options (d_short d) c in
  let c := match d_description d with Some x => set_description x c | None => c end in
  let c := if d_requires_argument d then add_flag (s "r") c else c in
  let c := if d_keep_order d then add_flag (s "k") c else c in
  do c <- parse_args (d_args d) c;
  Ok (set_conditions (cc_conditions c ++ map (fun x => FString x true) (get_conditions (d_conditions d) (d_when d))) c).

(** fish.py 143-155 *)
Definition command_line (c : complete_command) (conditions : list str) : str :=
  get (set_conditions (FString (s "$P") true :: map (fun x => FString x true) conditions) c).
Definition condition_text (x : fstring) : str := let 'FString x _ := x in x.
Fixpoint generator_lines (inline : bool) (m : vars) (cmds : list complete_command) : vars * list str :=
  match cmds with
  | [] => (m, [])
  | c :: cmds' =>
      let conditions := map condition_text (cc_conditions c) in
      let (m, conditions) := if inline then (m, conditions) else vars_adds m conditions in
      let (m, lines) := generator_lines inline m cmds' in
      (m, command_line c conditions :: lines)
  end.
(** fish.py 326-331: the block of one command (without the comment) *)
Definition generator_block (inline : bool) (cmds : list complete_command) : list str :=
  let (m, lines) := generator_lines inline (new_vars (s "C")) cmds in get_lines m ++ lines.

(** ** The definitions of one command line *)

Section Generator.
(** external grep, see When.v *)
Variable ere : str -> bool.
(** fish_complete.py *)
Variable completer : list value -> list str.

(** generation.py 97-123 *)
Definition when_parsed (w : option str) : res (option (list wtok)) :=
  match w with
  | Some (c :: x) => do ts <- parse_when ere (c :: x); Ok (Some ts)
  | _ => Ok None
  end.

(** cli.py 560-569: the number of a positional that has ancestors [ps] *)
Definition positional_num (ps : list cmd) (number : Z) : Z := (positional_index ps number + 1)%Z.

(** fish.py 94-106: [ps] are the ancestors of [c], nearest first.  The root has no condition. *)
Fixpoint positional_contains (ps : list cmd) (c : cmd) : res (list fcond) :=
  match ps with
  | [] => Ok []
  | p :: ps' =>
      do conditions <- positional_contains ps' p;
      do cmds <- get_all_command_variations c (Some p);
      Ok (conditions ++ [FPositionalContains (positional_num ps' (subcommands_number p)) cmds])
  end.

Definition truthy_complete (c : option (list value)) : list value :=
  match c with Some (v :: l) => v :: l | _ => [VStr (s "none")] end.
(** true in Python: [True], and the text [INHERIT] *)
Definition xtrue (x : xbool) : bool := negb (xbool_eqb x XFalse).

(** fish.py 187-228 *)
Definition complete_option (ps : list cmd) (c : cmd) (o : opt) : res definition :=
  do conflicting <- get_conflicting_options (c_options c) o;
  let not_has := flat_map o_strings (get_final_options ps c)
                 ++ flat_map o_strings conflicting
                 ++ (if xtrue (o_repeatable o) then [] else o_strings o) in
  do contains <- positional_contains ps c;
  do w <- when_parsed (o_when o);
  let conditions :=
    match not_has with [] => [] | _ => [FNot (FHasOption (uniq str_eqb not_has))] end
    ++ (if o_hidden o then [FHasHiddenOption (o_strings o)] else [])
    ++ (if negb (xtrue (c_inherit c)) && is_some (c_subcommands c)
        then [FPositionalNum (s "==") (positional_num ps (subcommands_number c) - 1)] else [])
    ++ contains in
  Ok (MkDef (get_short_option_strings (o_strings o)) (get_long_option_strings (o_strings o))
        (get_old_option_strings (o_strings o)) None (o_help o) (has_required_arg o) (o_nosort o)
        (completer (truthy_complete (o_complete o))) conditions w).

(** fish.py 230-255 *)
Definition complete_positional (ps : list cmd) (c : cmd) (p : pos) : res definition :=
  do contains <- positional_contains ps c;
  do w <- when_parsed (p_when p);
  let num := positional_num ps (p_number p) in
  Ok (MkDef [] [] [] (Some num) (p_help p) true (p_nosort p) (completer (truthy_complete (Some (p_complete p))))
        (contains ++ [FPositionalNum (if p_repeatable p then s ">=" else s "==") (num - 1)]) w).

(** fish.py 257-273 *)
Definition complete_subcommands (ps : list cmd) (c : cmd) : res definition :=
  do contains <- positional_contains ps c;
  let choices := get_choices (subs c) true in
  Ok (MkDef [] [] [] None (Some (s "Commands")) false false
        (completer [VStr (s "choices"); VDict (map (fun '(k, v) => (VStr k, match v with Some h => VStr h | None => VNone end)) choices)])
        (FPositionalNum (s "==") (positional_num ps (subcommands_number c) - 1) :: contains) None).

(** fish.py 135-140, 165-172: the numbers of the positionals with the completer [command_arg],
    in the order in which they are applied to the options of [c]: those of its sub-commands
    first.  Options with that completer are not modelled (they raise an error). *)
Definition is_command_arg (l : list value) : bool :=
  match l with VStr x :: _ => str_eqb x (s "command_arg") | _ => false end.
Fixpoint command_arg_numbers (ps : list cmd) (c : cmd) : list Z :=
  let 'Cmd _ _ _ _ _ _ _ _ positionals subcommands := c in
  match subcommands with
  | None => []
  | Some l => (fix go l := match l with [] => [] | sub :: l' => command_arg_numbers (c :: ps) sub ++ go l' end) l
  end
  ++ map (fun p => positional_num ps (p_number p)) (filter (fun p => is_command_arg (p_complete p)) positionals).
Definition fix_command_arg (numbers : list Z) (d : definition) : definition :=
  let 'MkDef sh lo ol p de ra ko args conditions w := d in
  match sh ++ lo ++ ol with
  | [] => d
  | _ => MkDef sh lo ol p de ra ko args (conditions ++ map (fun n => FNot (FPositionalNum (s ">=") (n - 1))) numbers) w
  end.

(** fish.py 112-143: the definitions of one command *)
Fixpoint map_res {A B} (f : A -> res B) (l : list A) : res (list B) :=
  match l with [] => Ok [] | x :: l' => do y <- f x; do ys <- map_res f l'; Ok (y :: ys) end.
Definition definitions (ps : list cmd) (c : cmd) : res (list definition) :=
  do options <- map_res (complete_option ps c) (get_options ps c false false);
  do positionals <- map_res (complete_positional ps c) (c_positionals c);
  do subcommands <- (if is_some (c_subcommands c) then do d <- complete_subcommands ps c; Ok [d] else Ok []);
  Ok (map (fix_command_arg (command_arg_numbers ps c)) (options ++ positionals ++ subcommands)).
End Generator.
