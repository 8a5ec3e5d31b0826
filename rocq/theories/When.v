(** * Model of crazy_complete/when.py, zsh_when.py, bash_when.py and of the condition part of
    fish_conditions.py.

    Simplifications:
    - [str.lower] and [int] are modelled for ASCII;
    - [is_valid_extended_regex] runs grep: it is a parameter ([ere]);
    - the names of the helper functions and of the variables that capture option values come
      from other modules: they are parameters ([zenv], [benv]);
    - text of error messages is shortened. *)
From Coq Require Import DecimalZ DecimalPos.
From Verif Require Import Base StrUtils Shell ShellParser.

(** ** Integers as text *)

(** Python [str(n)] *)
Fixpoint uint_str (d : Decimal.uint) : str :=
  match d with
  | Decimal.Nil => []
  | Decimal.D0 d => 48%N :: uint_str d
  | Decimal.D1 d => 49%N :: uint_str d
  | Decimal.D2 d => 50%N :: uint_str d
  | Decimal.D3 d => 51%N :: uint_str d
  | Decimal.D4 d => 52%N :: uint_str d
  | Decimal.D5 d => 53%N :: uint_str d
  | Decimal.D6 d => 54%N :: uint_str d
  | Decimal.D7 d => 55%N :: uint_str d
  | Decimal.D8 d => 56%N :: uint_str d
  | Decimal.D9 d => 57%N :: uint_str d
  end.
Definition z_str (z : Z) : str :=
  match Z.to_int z with
  | Decimal.Pos d => uint_str d
  | Decimal.Neg d => DASH :: uint_str d
  end.

(** Python [int(string)]: digits, single underscores between digits.  [prev] says that the
    character before was a digit. *)
Fixpoint int_digits (prev : bool) (acc : Z) (x : str) : option Z :=
  match x with
  | [] => if prev then Some acc else None
  | c :: x' =>
      if is_digit c then int_digits true (acc * 10 + Z.of_N (c - 48))%Z x'
      else if N.eqb c UND && prev then int_digits false acc x'
      else None
  end.
Definition py_int (x : str) : option Z :=
  match strip_p is_space x with
  | c :: x' =>
      if N.eqb c DASH then option_map Z.opp (int_digits false 0 x')
      else if N.eqb c PLUS then int_digits false 0 x'
      else int_digits false 0 (c :: x')
  | [] => None
  end.

(** ** Tests *)

(** when.py 15-178 *)
Inductive wobj :=
| OptionIs (options values : list str) (ignore_case any : bool)
| OptionMatch (options : list str) (regex : str) (ignore_case any : bool)
| HasOption (options : list str)
| PositionalCount (operator : str) (number : Z)
| PositionalContains (ignore_case : bool) (number : Z) (values : list str).

(** when.py 24-35, 69-80: the leading flags *)
Fixpoint strip_flags (ignore_case any : bool) (args : list str) : bool * bool * list str :=
  match args with
  | [] => (ignore_case, any, [])
  | a :: args' =>
      if str_eqb (lower a) (s "nocase") then strip_flags true any args'
      else if str_eqb (lower a) (s "any") then strip_flags ignore_case true args'
      else (ignore_case, any, args)
  end.

(** when.py 37-44, 82-93: what is before and what is behind the first [--] *)
Fixpoint split_dashes (args : list str) : list str * list str :=
  match args with
  | [] => ([], [])
  | a :: args' =>
      if str_eqb a (s "--") then ([], args')
      else let (o, v) := split_dashes args' in (a :: o, v)
  end.

(** when.py 18-57 *)
Definition mk_option_is (args : list str) : res wobj :=
  let '(ic, any, args) := strip_flags false false args in
  let (options, values) := split_dashes args in
  if negb (forallb is_valid_option_string options)
    then Err (CrazyError (s "option_is: Invalid value"))
  else match options with
  | [] => Err (CrazyError (s "option_is: Missing argument: options"))
  | _ => match values with
         | [] => Err (CrazyError (s "option_is: Missing argument: values"))
         | _ => Ok (OptionIs options values ic any)
         end
  end.

(** when.py 63-110.  The error about a second regex is raised in the loop, before the options
    are checked. *)
Definition mk_option_match (ere : str -> bool) (args : list str) : res wobj :=
  let '(ic, any, args) := strip_flags false false args in
  let (options, rest) := split_dashes args in
  match rest with
  | _ :: _ :: _ => Err (CrazyError (s "option_match: Too many arguments"))
  | _ =>
      if negb (forallb is_valid_option_string options)
        then Err (CrazyError (s "option_match: Invalid value"))
      else match options with
      | [] => Err (CrazyError (s "option_match: Missing argument: options"))
      | _ =>
          match rest with
          | (c :: regex) :: _ =>
              if ere (c :: regex) then Ok (OptionMatch options (c :: regex) ic any)
              else Err (CrazyError (s "option_match: Not an extended regex"))
          | _ => Err (CrazyError (s "option_match: Missing argument: regex"))
          end
      end
  end.

(** when.py 116-121 *)
Definition mk_has_option (args : list str) : res wobj :=
  match args with
  | [] => Err (CrazyError (s "has_option: Missing argument: options"))
  | _ => Ok (HasOption args)
  end.

(** when.py 127 *)
Definition operators : list str := [s "=="; s "!="; s "<="; s ">="; s "<"; s ">"].

(** when.py 129-152 *)
Definition mk_positional_count (args : list str) : res wobj :=
  match args with
  | _ :: _ :: _ :: _ => Err (CrazyError (s "positional_count: Too many arguments"))
  | [] => Err (CrazyError (s "positional_count: Missing argument: operator"))
  | op :: rest =>
      if negb (mems op operators) then Err (CrazyError (s "positional_count: operator"))
      else match rest with
      | [] => Err (CrazyError (s "positional_count: Missing argument: number"))
      | n :: _ => match py_int n with
                  | Some z => Ok (PositionalCount op z)
                  | None => Err (CrazyError (s "positional_count: number: Invalid value"))
                  end
      end
  end.

(** when.py 158-178 *)
Definition mk_positional_contains (args : list str) : res wobj :=
  let '(ic, args) := match args with
                     | a :: args' => if str_eqb a (s "-i") then (true, args') else (false, args)
                     | [] => (false, args)
                     end in
  match args with
  | [] => Err (CrazyError (s "positional_contains: Missing argument: number"))
  | n :: values =>
      match py_int n with
      | None => Err (CrazyError (s "positional_contains: number: Invalid value"))
      | Some z => match values with
                  | [] => Err (CrazyError (s "positional_contains: Missing argument: values"))
                  | _ => Ok (PositionalContains ic z values)
                  end
      end
  end.

(** when.py 189-201; [token.args] of a command is never empty, an empty one would be a
    [ValueError] *)
Definition mk_test (ere : str -> bool) (args : list str) : res wobj :=
  match args with
  | [] => Err (ValueError (s "not enough values to unpack"))
  | cmd :: args =>
      if str_eqb cmd (s "option_is") then mk_option_is args
      else if str_eqb cmd (s "option_match") then mk_option_match ere args
      else if str_eqb cmd (s "has_option") then mk_has_option args
      else if str_eqb cmd (s "positional_count") then mk_positional_count args
      else if str_eqb cmd (s "positional_contains") then mk_positional_contains args
      else Err (CrazyError (s "Invalid command"))
  end.

(** Tokens of a condition, when.py 181-205 *)
Inductive wtok := WAnd | WOr | WNot | WOpen | WClose | WObj (o : wobj).

Fixpoint replace_commands (ere : str -> bool) (tokens : list ctok) : res (list wtok) :=
  match tokens with
  | [] => Ok []
  | t :: ts =>
      do w <- match t with
              | CAnd => Ok WAnd
              | COr => Ok WOr
              | CNot => Ok WNot
              | COpen => Ok WOpen
              | CClose => Ok WClose
              | CCmd args => do o <- mk_test ere args; Ok (WObj o)
              end;
      do r <- replace_commands ere ts;
      Ok (w :: r)
  end.

(** when.py 208-216 *)
Definition is_wor (t : wtok) : bool := match t with WOr => true | _ => false end.
Definition needs_braces (tokens : list wtok) : bool :=
  (2 <? length tokens) && existsb is_wor tokens.

(** when.py 219-227 *)
Definition parse_when (ere : str -> bool) (x : str) : res (list wtok) :=
  match parse x with
  | Err (ValueError m) => Err (CrazyError m)
  | Err e => Err e
  | Ok tokens => replace_commands ere tokens
  end.

(** ** Zsh *)

(** The names [use_function] returned for the helpers. *)
Record zenv := { z_query : str; z_option_match : str; z_array_contains : str }.

Definition sp_join (l : list str) : str := join [SP] l.
Definition opt_word (b : bool) (w : str) : list str := if b then [w] else [].

(** zsh_when.py 49-61 *)
Definition zsh_option_is (e : zenv) (options values : list str) (ic any : bool) : str :=
  join_quoted ([z_query e; s "option_is"] ++ opt_word ic (s "-i") ++ opt_word any (s "-a") ++
               [s "--"] ++ options ++ [s "--"] ++ values) [SP].
(** zsh_when.py 64-77 *)
Definition zsh_option_match (e : zenv) (options : list str) (regex : str) (ic any : bool) : str :=
  join_quoted ([z_option_match e] ++ opt_word ic (s "-i") ++ opt_word any (s "-a") ++
               [s "--"] ++ options ++ [s "--"] ++ [regex]) [SP].
(** zsh_when.py 80-83 *)
Definition zsh_has_option (e : zenv) (options : list str) : str :=
  join_quoted ([z_query e; s "has_option"] ++ options) [SP].
(** zsh_when.py 86-87, bash_when.py 94-95 *)
Definition gen_positional_count (operator : str) (number : Z) : str :=
  s "(( ${#POSITIONALS[@]} " ++ operator ++ [SP] ++ z_str number ++ s " ))".
(** zsh_when.py 90-97 *)
Definition zsh_positional_contains (e : zenv) (ic : bool) (number : Z) (values : list str) : str :=
  let values := join_quoted values [SP] in
  if ic
  then z_array_contains e ++ s " ""${(L)POSITIONALS[" ++ z_str number ++ s "]}"" " ++ lower values
  else z_array_contains e ++ s " ""${POSITIONALS[" ++ z_str number ++ s "]}"" " ++ values.

Definition zsh_test (e : zenv) (o : wobj) : str :=
  match o with
  | OptionIs options values ic any => zsh_option_is e options values ic any
  | OptionMatch options regex ic any => zsh_option_match e options regex ic any
  | HasOption options => zsh_has_option e options
  | PositionalCount op n => gen_positional_count op n
  | PositionalContains ic n values => zsh_positional_contains e ic n values
  end.

(** zsh_when.py 17-41, bash_when.py 27-49: one word for each token *)
Definition gen_token (test : wobj -> str) (t : wtok) : str :=
  match t with
  | WAnd => s "&&"
  | WOr => s "||"
  | WNot => s "!"
  | WOpen => s "{"
  | WClose => s ";}"
  | WObj o => test o
  end.

(** zsh_when.py 43-46, bash_when.py 51-54 *)
Definition gen_tokens (test : wobj -> str) (ts : list wtok) : str :=
  let r := sp_join (map (gen_token test) ts) in
  if needs_braces ts then s "{ " ++ r ++ s "; }" else r.

(** zsh_when.py 100-104 *)
Definition zsh_when (ere : str -> bool) (e : zenv) (x : str) : res str :=
  do ts <- parse_when ere x; Ok (gen_tokens (zsh_test e) ts).

(** ** Bash *)

(** Names of helpers, and the variable that captures the values of each of the options called
    by the given option strings (bash_when.py 88, 109: [get_options_by_option_strings] and
    [capture_variable]). *)
Record benv := {
  b_array_contains : str; b_array_contains_nocase : str; b_array_match : str;
  b_vars : list str -> res (list str) }.

(** bash_when.py 106-115 *)
Definition bash_variables (e : benv) (options : list str) (any : bool) : res (list str) :=
  do vs <- b_vars e options;
  Ok (map (fun v => if any then s """${" ++ v ++ s "[@]}""" else s """${" ++ v ++ s "[@]: -1:1}""") vs).

(** bash_when.py 56-73 *)
Definition bash_option_is_conditions (func : str) (variables values : list str) : list str :=
  map (fun v => func ++ [SP] ++ quote v ++ [SP] ++ sp_join variables) values.
Definition bash_option_is (e : benv) (options values : list str) (ic any : bool) : res str :=
  do variables <- bash_variables e options any;
  let func := if ic then b_array_contains_nocase e else b_array_contains e in
  let conditions := bash_option_is_conditions func variables values in
  match conditions with
  | [c] => Ok c
  | _ => Ok (s "{ " ++ join (s " || ") conditions ++ s "; }")
  end.
(** bash_when.py 75-83 *)
Definition bash_option_match (e : benv) (options : list str) (regex : str) (ic any : bool)
    : res str :=
  do variables <- bash_variables e options any;
  Ok (b_array_match e ++ (if ic then s " -i -- " else s " -- ") ++ quote regex ++ [SP] ++
      sp_join variables).
(** bash_when.py 85-92 *)
Definition bash_has_option (e : benv) (options : list str) : res str :=
  do vs <- b_vars e options;
  Ok (s "(( " ++ join (s " + ") (map (fun v => s "${#" ++ v ++ s "[@]}") vs) ++ s " ))").
(** bash_when.py 97-104 *)
Definition bash_positional_contains (e : benv) (ic : bool) (number : Z) (values : list str) : str :=
  let values := join_quoted values [SP] in
  if ic
  then b_array_contains e ++ s " ""${POSITIONALS[" ++ z_str (number - 1) ++ s "],,}"" " ++ lower values
  else b_array_contains e ++ s " ""${POSITIONALS[" ++ z_str (number - 1) ++ s "]}"" " ++ values.

Definition bash_test (e : benv) (o : wobj) : res str :=
  match o with
  | OptionIs options values ic any => bash_option_is e options values ic any
  | OptionMatch options regex ic any => bash_option_match e options regex ic any
  | HasOption options => bash_has_option e options
  | PositionalCount op n => Ok (gen_positional_count op n)
  | PositionalContains ic n values => Ok (bash_positional_contains e ic n values)
  end.

(** bash_when.py 22-54 *)
Fixpoint bash_tokens (e : benv) (ts : list wtok) : res (list str) :=
  match ts with
  | [] => Ok []
  | t :: ts' =>
      do x <- match t with
              | WObj o => bash_test e o
              | _ => Ok (gen_token (fun _ => []) t)
              end;
      do r <- bash_tokens e ts';
      Ok (x :: r)
  end.

(** bash_when.py 118-123 *)
Definition bash_when (ere : str -> bool) (e : benv) (x : str) : res str :=
  do ts <- parse_when ere x;
  do r <- bash_tokens e ts;
  Ok (if needs_braces ts then s "{ " ++ sp_join r ++ s "; }" else sp_join r).

(** ** Fish *)

(** fish_conditions.py 15-18 *)
Definition escape_in_double (x : str) : str :=
  concat (map (fun c => if memc c [DQ; DOLLAR; BTICK; BS] then [BS; c] else [c]) x).

(** fish_conditions.py 21-40 *)
Definition make_condition_command (prefix : str) (args : list str) : str :=
  prefix ++ [SP] ++ sp_join (map (fun a => escape_in_double (quote a)) args).

(** fish_conditions.py 152-159 *)
Definition test_operator (op : str) : str :=
  if str_eqb op (s "==") then s "-eq"
  else if str_eqb op (s "!=") then s "-ne"
  else if str_eqb op (s "<=") then s "-le"
  else if str_eqb op (s ">=") then s "-ge"
  else if str_eqb op (s "<") then s "-lt"
  else s "-gt".

(** fish_conditions.py 56-68, 86-147, 149-200: the code of one test, and 202-228 *)
Definition fish_test (o : wobj) : str :=
  match o with
  | OptionIs options values ic any =>
      make_condition_command (s "$option_is")
        (opt_word ic (s "-i") ++ opt_word any (s "-a") ++ [s "--"] ++ options ++ [s "--"] ++ values)
  | OptionMatch options regex ic any =>
      make_condition_command (s "$option_match")
        (opt_word ic (s "-i") ++ opt_word any (s "-a") ++ [s "--"] ++ options ++ [s "--"] ++ [regex])
  | HasOption options => make_condition_command (s "$has_option") options
  | PositionalCount op n =>
      make_condition_command (s "$num_of_positionals") [test_operator op; z_str n]
  | PositionalContains ic n values =>
      make_condition_command (s "$positional_contains")
        (opt_word ic (s "-i") ++ [z_str n] ++ values)
  end.

(** fish_conditions.py 269-281 *)
Definition fish_token (t : wtok) : str :=
  match t with
  | WAnd => s "&&"
  | WOr => s "||"
  | WNot => s "!"
  | WOpen => s "begin"
  | WClose => s ";end"
  | WObj o => fish_test o
  end.
Definition fish_tokens (ts : list wtok) : str := sp_join (map fish_token ts).
