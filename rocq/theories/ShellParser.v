(** * Model of crazy_complete/string_stream.py and crazy_complete/shell_parser.py.

    A [StringStream] is modelled by the not yet consumed rest of its string
    ([self.s[self.i:]]); [get]/[advance] drop characters from the front. *)
From Verif Require Import Base.

(** string_stream.py 53-62: the loop of [parse_shell_single_quote] after the opening quote.
    Returns the content and the rest behind the closing quote. *)
Fixpoint single_quote_loop (x : str) : res (str * str) :=
  match x with
  | [] => Err (ValueError (s "Unclosed single quote"))
  | c :: x' =>
      if N.eqb c SQ then Ok ([], x')
      else do (v, r) <- single_quote_loop x'; Ok (c :: v, r)
  end.

(** string_stream.py 72-88: the loop of [parse_shell_double_quote]. *)
Fixpoint double_quote_loop (x : str) : res (str * str) :=
  match x with
  | [] => Err (ValueError (s "Unclosed double quote"))
  | c :: x' =>
      if N.eqb c BS then
        match x' with
        | [] => Err (ValueError (s "Missing character after backslash"))
        | d :: x'' => do (v, r) <- double_quote_loop x''; Ok (d :: v, r)
        end
      else if N.eqb c DQ then Ok ([], x')
      else do (v, r) <- double_quote_loop x'; Ok (c :: v, r)
  end.

(** string_stream.py 45-62 / 64-88 with [in_quotes=False]: [assert self.get() == quote]. *)
Definition parse_single_quote (x : str) : res (str * str) :=
  match x with
  | [] => Err IndexError
  | c :: x' => if N.eqb c SQ then single_quote_loop x' else Err AssertionError
  end.
Definition parse_double_quote (x : str) : res (str * str) :=
  match x with
  | [] => Err IndexError
  | c :: x' => if N.eqb c DQ then double_quote_loop x' else Err AssertionError
  end.

(** Lexer tokens: operators are Python strings, literals are [Literal] objects
    (shell_parser.py 12-22), so a quoted operator is never mistaken for an operator. *)
Inductive tok :=
| TAnd | TOr | TNot | TOpen | TClose
| TLit (x : str).

(** shell_parser.py 77-93.  [fuel] bounds the loop; [literal] is what was read so far. *)
Fixpoint parse_literal (fuel : nat) (literal : str) (x : str) : res (str * str) :=
  match fuel with
  | O => Err OutOfFuel
  | S fuel =>
      match x with
      | [] => Ok (literal, x)
      | c :: x' =>
          if N.eqb c DQ then
            do (v, r) <- parse_double_quote x; parse_literal fuel (literal ++ v) r
          else if N.eqb c SQ then
            do (v, r) <- parse_single_quote x; parse_literal fuel (literal ++ v) r
          else if is_space c || memc c [AMP; PIPE; BANG; LPAR; RPAR] then Ok (literal, x)
          else parse_literal fuel (literal ++ [c]) x'
      end
  end.

(** shell_parser.py 49-75.  [None] at the end of the input; white space is skipped by the
    recursive call. *)
Fixpoint parse_token (x : str) : res (option (tok * str)) :=
  match x with
  | [] => Ok None
  | c :: x' =>
      if N.eqb c BANG then Ok (Some (TNot, x'))
      else if N.eqb c LPAR then Ok (Some (TOpen, x'))
      else if N.eqb c RPAR then Ok (Some (TClose, x'))
      else if is_space c then parse_token x'
      else if N.eqb c AMP then
        match x' with
        | d :: x'' => if N.eqb d AMP then Ok (Some (TAnd, x''))
                      else Err (ValueError (s "Single `&` found"))
        | [] => Err (ValueError (s "Single `&` found"))
        end
      else if N.eqb c PIPE then
        match x' with
        | d :: x'' => if N.eqb d PIPE then Ok (Some (TOr, x''))
                      else Err (ValueError (s "Single `|` found"))
        | [] => Err (ValueError (s "Single `|` found"))
        end
      else do (v, r) <- parse_literal (S (List.length x)) [] x; Ok (Some (TLit v, r))
  end.

(** shell_parser.py 38-47 *)
Fixpoint lex_loop (fuel : nat) (x : str) : res (list tok) :=
  match fuel with
  | O => Err OutOfFuel
  | S fuel =>
      do o <- parse_token x;
      match o with
      | None => Ok []
      | Some (t, r) => do ts <- lex_loop fuel r; Ok (t :: ts)
      end
  end.
Definition lex (x : str) : res (list tok) := lex_loop (S (List.length x)) x.

(** Tokens after grouping: operators and commands (shell_parser.py 25-32). *)
Inductive ctok :=
| CAnd | COr | CNot | COpen | CClose
| CCmd (args : list str).

(** shell_parser.py 106-121; [cur] is [current.args]. *)
Definition flush (cur : list str) (r : list ctok) : list ctok :=
  match cur with [] => r | _ => CCmd cur :: r end.

Fixpoint make_commands_loop (cur : list str) (ts : list tok) : list ctok :=
  match ts with
  | [] => flush cur []
  | TLit x :: ts' => make_commands_loop (cur ++ [x]) ts'
  | TAnd :: ts' => flush cur (CAnd :: make_commands_loop [] ts')
  | TOr :: ts' => flush cur (COr :: make_commands_loop [] ts')
  | TNot :: ts' => flush cur (CNot :: make_commands_loop [] ts')
  | TOpen :: ts' => flush cur (COpen :: make_commands_loop [] ts')
  | TClose :: ts' => flush cur (CClose :: make_commands_loop [] ts')
  end.
Definition make_commands (ts : list tok) : list ctok := make_commands_loop [] ts.

(** [last in (None, '(', '&&', '||', '!')] *)
Definition expects_operand (last : option ctok) : bool :=
  match last with
  | None | Some COpen | Some CAnd | Some COr | Some CNot => true
  | _ => false
  end.

(** shell_parser.py 124-155.  [p] is [parentheses] (an integer). *)
Fixpoint check_syntax_loop (last : option ctok) (p : Z) (ts : list ctok) : res unit :=
  match ts with
  | [] =>
      if (0 <? p)%Z then Err (ValueError (s "Unclosed `(`"))
      else match last with
           | None => Err (ValueError (s "No command found"))
           | Some _ => Ok tt
           end
  | t :: ts' =>
      match t with
      | COpen =>
          if negb (expects_operand last) then Err (ValueError (s "Unexpected `(`"))
          else check_syntax_loop (Some t) (p + 1)%Z ts'
      | CClose =>
          if ((p - 1 <? 0)%Z || expects_operand last) then Err (ValueError (s "Unexpected `)`"))
          else check_syntax_loop (Some t) (p - 1)%Z ts'
      | CAnd =>
          if expects_operand last then Err (ValueError (s "Unexpected `&&`"))
          else check_syntax_loop (Some t) p ts'
      | COr =>
          if expects_operand last then Err (ValueError (s "Unexpected `||`"))
          else check_syntax_loop (Some t) p ts'
      | CNot =>
          if negb (expects_operand last) then Err (ValueError (s "Unexpected `!`"))
          else check_syntax_loop (Some t) p ts'
      | CCmd _ => check_syntax_loop (Some t) p ts'
      end
  end.
Definition check_syntax (ts : list ctok) : res unit := check_syntax_loop None 0%Z ts.

(** shell_parser.py 158-164 *)
Definition parse (x : str) : res (list ctok) :=
  do ts <- lex x;
  let cs := make_commands ts in
  do _ <- check_syntax cs;
  Ok cs.
