(** * Specification: how shells read words.

    Independent of the code under test: written from POSIX XCU 2.2/2.3 (bash, zsh)
    and from the fish manual ("Quotes").  The readers answer [Some words] only if the text is
    nothing but plain words; any unquoted metacharacter, any expansion (parameter, command, glob,
    tilde, brace, history) and any unterminated quote makes them answer [None]. *)
From Verif Require Import Base.

(** POSIX 2.2 characters that must be quoted to be literal, those that may need quoting,
    and the additional metacharacters of bash and zsh. *)
Definition posix_special (c : N) : bool :=
  memc c [PIPE; AMP; SEMI; LT; GT; LPAR; RPAR; DOLLAR; BTICK; BS; DQ; SQ; SP; TAB; LF;
          STAR; QM; LBRK; RBRK; HASH; TILDE; BANG; LBRC; RBRC; CARET].

(** Where the reader is: outside quotes, in single quotes, in double quotes,
    in double quotes after a backslash. *)
Inductive qmode := Unquoted | InSQ | InDQ | InDQEsc.

(** [w] is the word being read: [None] if no word has been started. *)
Definition push (w : option str) (c : N) : option str :=
  Some (match w with None => [c] | Some v => v ++ [c] end).
Definition start (w : option str) : option str :=
  Some (match w with None => [] | Some v => v end).
Definition emit (w : option str) (r : option (list str)) : option (list str) :=
  match w with None => r | Some v => option_map (cons v) r end.

(** [eqx]: a word that starts with an unquoted [=] is expanded to the path of a command
    (zsh, option EQUALS, on by default). *)
Fixpoint sh_read (eqx : bool) (m : qmode) (w : option str) (x : str) : option (list str) :=
  match x with
  | [] => match m with Unquoted => emit w (Some []) | _ => None end
  | c :: x' =>
      match m with
      | Unquoted =>
          if N.eqb c SQ then sh_read eqx InSQ (start w) x'
          else if N.eqb c DQ then sh_read eqx InDQ (start w) x'
          else if N.eqb c SP || N.eqb c TAB then emit w (sh_read eqx Unquoted None x')
          else if posix_special c then None
          else if eqx && N.eqb c EQ && (match w with None => true | Some _ => false end)
          then None
          else sh_read eqx Unquoted (push w c) x'
      | InSQ =>
          if N.eqb c SQ then sh_read eqx Unquoted w x'
          else sh_read eqx InSQ (push w c) x'
      | InDQ =>
          if N.eqb c DQ then sh_read eqx Unquoted w x'
          else if N.eqb c BS then sh_read eqx InDQEsc w x'
          else if N.eqb c DOLLAR || N.eqb c BTICK then None   (* expansion *)
          else sh_read eqx InDQ (push w c) x'
      | InDQEsc =>
          if N.eqb c LF then sh_read eqx InDQ w x'             (* line continuation *)
          else if memc c [DOLLAR; BTICK; DQ; BS] then sh_read eqx InDQ (push w c) x'
          else sh_read eqx InDQ (push (push w BS) c) x'        (* backslash is literal *)
      end
  end.

(** The words a POSIX-style shell (bash) reads from [x], and those zsh reads. *)
Definition posix_words (x : str) : option (list str) := sh_read false Unquoted None x.
Definition zsh_words (x : str) : option (list str) := sh_read true Unquoted None x.

(** fish: in single quotes a backslash escapes a backslash and a single quote; in double
    quotes it escapes a backslash, a double quote, a dollar and a newline; a backtick has no
    meaning. *)
Inductive fmode := FUnquoted | FInSQ | FInSQEsc | FInDQ | FInDQEsc.

Definition fish_special (c : N) : bool :=
  memc c [PIPE; AMP; SEMI; LT; GT; LPAR; RPAR; DOLLAR; BS; DQ; SQ; SP; TAB; LF;
          STAR; QM; LBRK; RBRK; HASH; TILDE; LBRC; RBRC; CARET].

Fixpoint fish_read (m : fmode) (w : option str) (x : str) : option (list str) :=
  match x with
  | [] => match m with FUnquoted => emit w (Some []) | _ => None end
  | c :: x' =>
      match m with
      | FUnquoted =>
          if N.eqb c SQ then fish_read FInSQ (start w) x'
          else if N.eqb c DQ then fish_read FInDQ (start w) x'
          else if N.eqb c SP || N.eqb c TAB then emit w (fish_read FUnquoted None x')
          else if fish_special c then None
          else fish_read FUnquoted (push w c) x'
      | FInSQ =>
          if N.eqb c SQ then fish_read FUnquoted w x'
          else if N.eqb c BS then fish_read FInSQEsc w x'
          else fish_read FInSQ (push w c) x'
      | FInSQEsc =>
          if memc c [SQ; BS] then fish_read FInSQ (push w c) x'
          else fish_read FInSQ (push (push w BS) c) x'
      | FInDQ =>
          if N.eqb c DQ then fish_read FUnquoted w x'
          else if N.eqb c BS then fish_read FInDQEsc w x'
          else if N.eqb c DOLLAR then None
          else fish_read FInDQ (push w c) x'
      | FInDQEsc =>
          if N.eqb c LF then fish_read FInDQ w x'
          else if memc c [DOLLAR; DQ; BS] then fish_read FInDQ (push w c) x'
          else fish_read FInDQ (push (push w BS) c) x'
      end
  end.
Definition fish_words (x : str) : option (list str) := fish_read FUnquoted None x.
