(** * Specification: boolean conditions, and how a shell evaluates command lists.

    Written from the POSIX shell grammar (XCU 2.10.2: and_or, pipeline, brace_group) and the
    bash manual ((( ... )) is a command); independent of the code under test. *)
From Verif Require Import Base StrUtils Shell ShellParser When.

(** ** Conditions *)

(** Conditions over tests of type [A].  As in a shell [&&] and [||] have the same precedence
    and associate to the left. *)
Inductive term {A : Type} :=
| Test (a : A)
| Negation (t : term)
| Group (l : conds)
with conds {A : Type} :=
| One (t : term)
| And (l : conds) (t : term)
| Or (l : conds) (t : term).
Arguments term : clear implicits.
Arguments conds : clear implicits.

Section Meaning.
Context {A : Type} (truth : A -> bool).
Fixpoint term_true (t : term A) : bool :=
  match t with
  | Test a => truth a
  | Negation t => negb (term_true t)
  | Group l => conds_true l
  end
with conds_true (l : conds A) : bool :=
  match l with
  | One t => term_true t
  | And l t => conds_true l && term_true t
  | Or l t => conds_true l || term_true t
  end.
End Meaning.

(** How a condition is written, as a list of symbols. *)
Inductive sym {A : Type} := SAnd | SOr | SNot | SOpen | SClose | STest (a : A).
Arguments sym : clear implicits.

Section Written.
Context {A : Type}.
Fixpoint term_syms (t : term A) : list (sym A) :=
  match t with
  | Test a => [STest a]
  | Negation t => SNot :: term_syms t
  | Group l => SOpen :: conds_syms l ++ [SClose]
  end
with conds_syms (l : conds A) : list (sym A) :=
  match l with
  | One t => term_syms t
  | And l t => conds_syms l ++ SAnd :: term_syms t
  | Or l t => conds_syms l ++ SOr :: term_syms t
  end.
End Written.

(** The same condition with every test read by [f]. *)
Section Reading.
Context {A B : Type} (f : A -> B).
Fixpoint term_map (t : term A) : term B :=
  match t with
  | Test a => Test (f a)
  | Negation t => Negation (term_map t)
  | Group l => Group (conds_map l)
  end
with conds_map (l : conds A) : conds B :=
  match l with
  | One t => One (term_map t)
  | And l t => And (conds_map l) (term_map t)
  | Or l t => Or (conds_map l) (term_map t)
  end.
End Reading.

(** ** Shell command lists *)

(** The pieces of a command list: operators, reserved words, and commands given by their text. *)
Inductive piece := PAnd | POr | PNot | PLBrace | PSemi | PRBrace | PCmd (text : str).

(** Lexer modes: between pieces; after one [&] or [|]; after a reserved word; in a simple command
    ([q]: quoting state; [t]: text so far); after one opening parenthesis; in [(( ... ))],
    the latter also after one closing parenthesis. *)
Inductive quoting := QNone | QSingle | QDouble | QDoubleEsc.
Inductive lmode :=
| LStart | LAmp | LPipe | LWord (p : piece)
| LCmd (q : quoting) (t : str)
| LParen | LArith (t : str) | LArithClose (t : str).

(** The text of a simple command does not include the blanks behind it. *)
Definition command_text (t : str) : piece := PCmd (rstrip_p (N.eqb SP) t).

(** Unquoted characters that start something other than a plain word (expansions, redirections,
    subshells, comments): not part of the language evaluated here. *)
Definition other_syntax (c : N) : bool :=
  memc c [LPAR; RPAR; LT; GT; DOLLAR; BTICK; BS; HASH; LF; STAR; QM; LBRK; TILDE].

Fixpoint sh_lex (m : lmode) (x : str) : option (list piece) :=
  match x with
  | [] =>
      match m with
      | LStart => Some []
      | LWord p => Some [p]
      | LCmd QNone t => Some [command_text t]
      | _ => None
      end
  | c :: x' =>
      match m with
      | LStart =>
          if N.eqb c SP then sh_lex LStart x'
          else if N.eqb c AMP then sh_lex LAmp x'
          else if N.eqb c PIPE then sh_lex LPipe x'
          else if N.eqb c SEMI then option_map (cons PSemi) (sh_lex LStart x')
          else if N.eqb c LBRC then sh_lex (LWord PLBrace) x'
          else if N.eqb c RBRC then sh_lex (LWord PRBrace) x'
          else if N.eqb c BANG then sh_lex (LWord PNot) x'
          else if N.eqb c LPAR then sh_lex LParen x'
          else if N.eqb c SQ then sh_lex (LCmd QSingle [c]) x'
          else if N.eqb c DQ then sh_lex (LCmd QDouble [c]) x'
          else if other_syntax c then None
          else sh_lex (LCmd QNone [c]) x'
      | LAmp => if N.eqb c AMP then option_map (cons PAnd) (sh_lex LStart x') else None
      | LPipe => if N.eqb c PIPE then option_map (cons POr) (sh_lex LStart x') else None
      | LWord p =>
          if N.eqb c SP then option_map (cons p) (sh_lex LStart x')
          else if N.eqb c SEMI then option_map (fun r => p :: PSemi :: r) (sh_lex LStart x')
          else None
      | LCmd QNone t =>
          if N.eqb c AMP then option_map (cons (command_text t)) (sh_lex LAmp x')
          else if N.eqb c PIPE then option_map (cons (command_text t)) (sh_lex LPipe x')
          else if N.eqb c SEMI
            then option_map (fun r => command_text t :: PSemi :: r) (sh_lex LStart x')
          else if N.eqb c SQ then sh_lex (LCmd QSingle (t ++ [c])) x'
          else if N.eqb c DQ then sh_lex (LCmd QDouble (t ++ [c])) x'
          else if other_syntax c then None
          else sh_lex (LCmd QNone (t ++ [c])) x'
      | LCmd QSingle t =>
          sh_lex (LCmd (if N.eqb c SQ then QNone else QSingle) (t ++ [c])) x'
      | LCmd QDouble t =>
          sh_lex (LCmd (if N.eqb c DQ then QNone else if N.eqb c BS then QDoubleEsc else QDouble)
                       (t ++ [c])) x'
      | LCmd QDoubleEsc t => sh_lex (LCmd QDouble (t ++ [c])) x'
      | LParen => if N.eqb c LPAR then sh_lex (LArith []) x' else None
      | LArith t =>
          if N.eqb c RPAR then sh_lex (LArithClose t) x'
          else if N.eqb c LPAR then None
          else sh_lex (LArith (t ++ [c])) x'
      | LArithClose t =>
          if N.eqb c RPAR
          then option_map (cons (PCmd (s "((" ++ t ++ s "))"))) (sh_lex LStart x')
          else None
      end
  end.

(** Evaluation from left to right.  [f] tells what becomes of the truth of the next pipeline;
    [stack] holds the same for the enclosing brace groups. *)
Inductive emode := Expect (f : bool -> bool) | Have (v : bool) | HaveSemi (v : bool).

Section Evaluate.
Variable truth : str -> bool.   (* which commands succeed *)

Fixpoint sh_run (m : emode) (stack : list (bool -> bool)) (ps : list piece) : option bool :=
  match ps with
  | [] => match m, stack with Have v, [] => Some v | _, _ => None end
  | p :: ps' =>
      match m, p with
      | Expect f, PNot => sh_run (Expect (fun v => f (negb v))) stack ps'
      | Expect f, PLBrace => sh_run (Expect (fun v => v)) (f :: stack) ps'
      | Expect f, PCmd t => sh_run (Have (f (truth t))) stack ps'
      | Have v, PAnd => sh_run (Expect (fun w => v && w)) stack ps'
      | Have v, POr => sh_run (Expect (fun w => v || w)) stack ps'
      | Have v, PSemi => sh_run (HaveSemi v) stack ps'
      | HaveSemi v, PRBrace =>
          match stack with
          | f :: stack' => sh_run (Have (f v)) stack' ps'
          | [] => None
          end
      | _, _ => None
      end
  end.

(** The exit status of a command list, or [None] if it is not one. *)
Definition sh_eval (x : str) : option bool :=
  match sh_lex LStart x with
  | Some ps => sh_run (Expect (fun v => v)) [] ps
  | None => None
  end.
End Evaluate.

(** ** Conditions as they are written in a definition *)

(** The symbols as tokens of the parsers. *)
Definition ctok_of (y : sym (list str)) : ctok :=
  match y with
  | SAnd => CAnd | SOr => COr | SNot => CNot | SOpen => COpen | SClose => CClose
  | STest args => CCmd args
  end.
Definition wtok_of (y : sym wobj) : wtok :=
  match y with
  | SAnd => WAnd | SOr => WOr | SNot => WNot | SOpen => WOpen | SClose => WClose
  | STest o => WObj o
  end.

(** A condition written with blanks between its symbols; the words of a test are quoted. *)
Definition sym_text (y : sym (list str)) : str :=
  match y with
  | SAnd => s "&&" | SOr => s "||" | SNot => s "!" | SOpen => s "(" | SClose => s ")"
  | STest args => join_quoted args [SP]
  end.
Definition written (cond : conds (list str)) : str :=
  join [SP] (map sym_text (conds_syms cond)).

(** ** When a single test holds *)

(** In zsh a test is one command. *)
Definition zsh_true (truth : str -> bool) (e : zenv) (o : wobj) : bool := truth (zsh_test e o).

(** In bash [option_is] holds if the lookup of one of its values succeeds; any other test is
    one command. *)
Definition bash_true (truth : str -> bool) (e : benv) (o : wobj) : bool :=
  match o with
  | OptionIs options values ic any =>
      match bash_variables e options any with
      | Ok variables =>
          existsb (fun v => truth ((if ic then b_array_contains_nocase e else b_array_contains e)
                                   ++ [SP] ++ quote v ++ [SP] ++ sp_join variables)) values
      | Err _ => false
      end
  | _ => match bash_test e o with Ok t => truth t | Err _ => false end
  end.

(** Names of functions and variables *)
Definition is_name (x : str) : Prop := x <> [] /\ forallb is_word x = true.
Definition good_zenv (e : zenv) : Prop :=
  is_name (z_query e) /\ is_name (z_option_match e) /\ is_name (z_array_contains e).
Definition good_benv (e : benv) : Prop :=
  is_name (b_array_contains e) /\ is_name (b_array_contains_nocase e) /\
  is_name (b_array_match e) /\
  forall options vars, options <> [] -> b_vars e options = Ok vars ->
    vars <> [] /\ forall v, In v vars -> is_name v.

(** ** Complete conditions *)

(** The last symbol is a test or a closing parenthesis, and no test follows a closing
    parenthesis directly. *)
Definition complete (ts : list ctok) : Prop :=
  (exists ts' t, ts = ts' ++ [t] /\ (t = CClose \/ exists args, t = CCmd args)) /\
  ~ exists a args b, ts = a ++ CClose :: CCmd args :: b.

(** Every closing parenthesis closes an open one, and none stays open. *)
Definition opens (ts : list ctok) : nat :=
  length (filter (fun t => match t with COpen => true | _ => false end) ts).
Definition closes (ts : list ctok) : nat :=
  length (filter (fun t => match t with CClose => true | _ => false end) ts).
Definition balanced (ts : list ctok) : Prop :=
  opens ts = closes ts /\ forall before after, ts = before ++ after -> closes before <= opens before.

(** ** How a single test is written *)

(** Flags in front of the options; upper and lower case are the same. *)
Definition is_flag (a : str) : Prop := lower a = s "nocase" \/ lower a = s "any".
Definition has_flag (name : str) (flags : list str) : bool :=
  existsb (fun a => str_eqb (lower a) name) flags.

(** [option_is [nocase] [any] options... -- values...] *)
Definition writes_option_is (args : list str) (o : wobj) : Prop :=
  exists flags options values,
    args = flags ++ options ++ s "--" :: values /\ Forall is_flag flags /\
    options <> [] /\ (forall x, In x options -> is_valid_option_string x = true) /\ values <> [] /\
    o = OptionIs options values (has_flag (s "nocase") flags) (has_flag (s "any") flags).
(** [option_match [nocase] [any] options... -- regex] *)
Definition writes_option_match (ere : str -> bool) (args : list str) (o : wobj) : Prop :=
  exists flags options regex,
    args = flags ++ options ++ [s "--"; regex] /\ Forall is_flag flags /\
    options <> [] /\ (forall x, In x options -> is_valid_option_string x = true) /\
    regex <> [] /\ ere regex = true /\
    o = OptionMatch options regex (has_flag (s "nocase") flags) (has_flag (s "any") flags).
(** [has_option options...] *)
Definition writes_has_option (args : list str) (o : wobj) : Prop :=
  args <> [] /\ o = HasOption args.
(** [positional_count operator number] *)
Definition writes_positional_count (args : list str) (o : wobj) : Prop :=
  exists op n z, args = [op; n] /\ In op [s "=="; s "!="; s "<="; s ">="; s "<"; s ">"] /\
    py_int n = Some z /\ o = PositionalCount op z.
(** [positional_contains [-i] number values...] *)
Definition writes_positional_contains (args : list str) (o : wobj) : Prop :=
  exists (ic : bool) n z values,
    args = (if ic then [s "-i"] else []) ++ n :: values /\ py_int n = Some z /\ values <> [] /\
    o = PositionalContains ic z values.

Definition writes (ere : str -> bool) (args : list str) (o : wobj) : Prop :=
  exists rest,
    args = s "option_is" :: rest /\ writes_option_is rest o \/
    args = s "option_match" :: rest /\ writes_option_match ere rest o \/
    args = s "has_option" :: rest /\ writes_has_option rest o \/
    args = s "positional_count" :: rest /\ writes_positional_count rest o \/
    args = s "positional_contains" :: rest /\ writes_positional_contains rest o.

(** One way to write every test. *)
Definition test_args (o : wobj) : list str :=
  match o with
  | OptionIs options values ic any =>
      s "option_is" :: (if ic then [s "nocase"] else []) ++ (if any then [s "any"] else []) ++
      options ++ s "--" :: values
  | OptionMatch options regex ic any =>
      s "option_match" :: (if ic then [s "nocase"] else []) ++ (if any then [s "any"] else []) ++
      options ++ [s "--"; regex]
  | HasOption options => s "has_option" :: options
  | PositionalCount op n => [s "positional_count"; op; z_str n]
  | PositionalContains ic n values =>
      s "positional_contains" :: (if ic then [s "-i"] else []) ++ z_str n :: values
  end.

(** Tests that can be written at all. *)
Definition sensible (ere : str -> bool) (o : wobj) : Prop :=
  match o with
  | OptionIs options values _ _ =>
      options <> [] /\ values <> [] /\ forall x, In x options -> is_valid_option_string x = true
  | OptionMatch options regex _ _ =>
      options <> [] /\ (forall x, In x options -> is_valid_option_string x = true) /\
      regex <> [] /\ ere regex = true
  | HasOption options => options <> []
  | PositionalCount op _ => In op [s "=="; s "!="; s "<="; s ">="; s "<"; s ">"]
  | PositionalContains _ _ values => values <> []
  end.
