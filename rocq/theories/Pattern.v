(** * Model of crazy_complete/pattern.py. *)
From Verif Require Import Base ShellParser.
Open Scope list_scope.

(** A token of [GlobLexer]: a Python string, or a [Literal] object (22-55).  A [Literal] is
    never equal to a string. *)
Inductive gtok := GOp (x : str) | GLit (x : str).

(** 179-180; [+(] is listed twice in the source. *)
Definition EXTGLOB_TOKENS : list str := [s "@("; s "*("; s "+("; s "?("; s "!("; s "+("].
Definition EXTGLOB_TOKENS_PRE : str := s "@*+?!+".

(** [self.peek() == '('] *)
Definition next_lpar (x : str) : bool :=
  match x with d :: _ => N.eqb d LPAR | [] => false end.

(** 215-227: the loop that reads a literal, without its first character. *)
Fixpoint lex_literal (x : str) : str * str :=
  match x with
  | [] => ([], [])
  | c :: x' =>
      if memc c EXTGLOB_TOKENS_PRE && next_lpar x' then ([], x)
      else if memc c [STAR; QM; LBRK; RBRK; RPAR; PIPE; DQ; SQ] then ([], x)
      else let '(l, r) := lex_literal x' in (c :: l, r)
  end.

(** 200-227, [_parse_token] after [c = self.get()]; [x] is the rest of the string *)
Definition lex_token (c : N) (x : str) : res (gtok * str) :=
  if memc c EXTGLOB_TOKENS_PRE && next_lpar x then Ok (GOp [c; LPAR], tl x)
  else if memc c [LBRK; RBRK; RPAR; QM; BANG; STAR; PIPE] then Ok (GOp [c], x)
  else if N.eqb c DQ then do (v, r) <- double_quote_loop x; Ok (GLit v, r)
  else if N.eqb c SQ then do (v, r) <- single_quote_loop x; Ok (GLit v, r)
  else let '(l, r) := lex_literal x in Ok (GLit (c :: l), r).

(** 190-198.  The end of the string is the [IndexError] of line 201. *)
Fixpoint lex_loop (fuel : nat) (x : str) : res (list gtok) :=
  match x with
  | [] => Ok []
  | c :: x' =>
      match fuel with
      | O => Err OutOfFuel
      | S fuel =>
          do (t, r) <- lex_token c x';
          do l <- lex_loop fuel r;
          Ok (t :: l)
      end
  end.
Definition lex (x : str) : res (list gtok) := lex_loop (List.length x) x.

(** 10-176: the pattern objects.  [PTok] is a token that [GlobParser] hands through: a [Literal],
    or a plain string, which is no pattern object. *)
Inductive pat :=
| PTok (t : gtok)
| PStar
| PQuestion
| PClass (chars : str) (negated : bool)
| PExt (type_ : N) (alternatives : list (list pat)).

(** [str(token)] *)
Definition tok_str (t : gtok) : str := match t with GOp x => x | GLit x => x end.
(** [token == x] for a string [x] *)
Definition tok_is (x : str) (t : gtok) : bool := match t with GOp y => str_eqb y x | GLit _ => false end.

(** 277-286: the loop of [_parse_char_class] *)
Fixpoint class_loop (chars : str) (negated : bool) (l : list gtok) : res (pat * list gtok) :=
  match l with
  | [] => Err (ValueError (s "Unclosed character class"))
  | t :: l' =>
      if tok_is (s "]") t then Ok (PClass chars negated, l')
      else class_loop (chars ++ tok_str t) negated l'
  end.
(** 261-286 *)
Definition parse_char_class (l : list gtok) : res (pat * list gtok) :=
  match l with
  | [] => Err (ValueError (s "Unclosed character class"))
  | t :: l' =>
      if tok_is (s "!") t then class_loop [] true l'
      else if tok_is (s "]") t then Err (ValueError (s "Empty character class"))
      else class_loop (tok_str t) false l'
  end.

(** 288-322: [_parse_token] and [_parse_ext_glob]; [done] and [cur] are the alternatives. *)
Fixpoint parse_token (fuel : nat) (l : list gtok) {struct fuel} : res (pat * list gtok) :=
  match fuel with
  | O => Err OutOfFuel
  | S fuel =>
      match l with
      | [] => Err IndexError
      | t :: l' =>
          if tok_is (s "[") t then parse_char_class l'
          else if tok_is (s "*") t then Ok (PStar, l')
          else if tok_is (s "?") t then Ok (PQuestion, l')
          else match t with
               | GOp x =>
                   if mems x EXTGLOB_TOKENS then parse_ext_glob fuel (hd 0%N x) [] [] l'
                   else Ok (PTok t, l')
               | GLit _ => Ok (PTok t, l')
               end
      end
  end
with parse_ext_glob (fuel : nat) (type_ : N) (done : list (list pat)) (cur : list pat) (l : list gtok)
    {struct fuel} : res (pat * list gtok) :=
  match fuel with
  | O => Err OutOfFuel
  | S fuel =>
      match l with
      | [] => Err (ValueError (s "Unclosed extglob"))
      | t :: l' =>
          if tok_is (s ")") t then Ok (PExt type_ (done ++ [cur]), l')
          else if tok_is (s "|") t then parse_ext_glob fuel type_ (done ++ [cur]) [] l'
          else do (p, l'') <- parse_token fuel l;
               parse_ext_glob fuel type_ done (cur ++ [p]) l''
      end
  end.

(** 254-259 *)
Fixpoint parse_loop (fuel : nat) (root : list pat) (l : list gtok) : res (list pat) :=
  match l with
  | [] => Ok root
  | _ =>
      match fuel with
      | O => Err OutOfFuel
      | S fuel' =>
          do (p, l') <- parse_token fuel l;
          parse_loop fuel' (root ++ [p]) l'
      end
  end.
Definition parse (l : list gtok) : res (list pat) := parse_loop (2 * List.length l + 2) [] l.

(** 25, 36-42 *)
Definition literal_escape_chars : str := s ".?*+|{}[]()".
Definition literal_to_regex (x : str) : str :=
  fold_left (fun x c => replace_c c [BS; c] x) literal_escape_chars x.
(** 44-55 *)
Definition literal_to_zsh (x : str) : str :=
  flat_map (fun c =>
    if memc c [LBRK; RBRK; QM; STAR; DQ; SP; BS] then [SQ; c; SQ]
    else if N.eqb c SQ then [DQ; c; DQ] else [c]) x.
(** 81, 87-96 *)
Definition class_escape_chars : str := s "^\.[]".
Definition class_to_regex (chars : str) (negated : bool) : str :=
  let chars := fold_left (fun x c => replace_c c [BS; c] x) class_escape_chars chars in
  if negated then s "[^" ++ chars ++ s "]" else s "[" ++ chars ++ s "]".
(** 98-110 *)
Definition class_to_zsh (chars : str) (negated : bool) : str :=
  let chars := flat_map (fun c => if memc c [LBRK; RBRK; BANG] then [SQ; c; SQ] else [c]) chars in
  if negated then s "[!" ++ chars ++ s "]" else s "[" ++ chars ++ s "]".

Section Sequence.
Context (f : pat -> res str).
(** 168-172: [''.join(..)] *)
Fixpoint seq_res (l : list pat) : res str :=
  match l with
  | [] => Ok []
  | p :: l' => do x <- f p; do y <- seq_res l'; Ok (x ++ y)
  end.
(** 121-124, 146-149 *)
Fixpoint alts_res (l : list (list pat)) : res (list str) :=
  match l with
  | [] => Ok []
  | a :: l' => do x <- seq_res a; do r <- alts_res l'; Ok (x :: r)
  end.
End Sequence.

(** 36-42, 61-62, 71-72, 87-96, 120-143.  A plain string has no method [to_regex]. *)
Fixpoint to_regex (p : pat) : res str :=
  match p with
  | PTok (GOp _) => Err AttributeError
  | PTok (GLit x) => Ok (literal_to_regex x)
  | PStar => Ok (s ".*")
  | PQuestion => Ok (s ".")
  | PClass chars negated => Ok (class_to_regex chars negated)
  | PExt type_ alternatives =>
      do r <- alts_res to_regex alternatives;
      let p := s "(" ++ join (s "|") r ++ s ")" in
      if N.eqb type_ AT then Ok p
      else if N.eqb type_ STAR then Ok (p ++ s "*")
      else if N.eqb type_ PLUS then Ok (p ++ s "+")
      else if N.eqb type_ QM then Ok (p ++ s "?")
      else if N.eqb type_ BANG then Err (ValueError (s "Negated glob !(...) not supported in regex"))
      else Err AssertionError
  end.
(** 44-55, 64-65, 74-75, 98-110, 145-159 *)
Fixpoint to_zsh_glob (p : pat) : res str :=
  match p with
  | PTok (GOp _) => Err AttributeError
  | PTok (GLit x) => Ok (literal_to_zsh x)
  | PStar => Ok (s "*")
  | PQuestion => Ok (s "?")
  | PClass chars negated => Ok (class_to_zsh chars negated)
  | PExt type_ alternatives =>
      do r <- alts_res to_zsh_glob alternatives;
      let p := s "(" ++ join (s "|") r ++ s ")" in
      if N.eqb type_ AT then Ok p
      else if memc type_ [STAR; PLUS; QM; BANG]
      then Err (ValueError (s "Extended glob of form not supported in zsh glob"))
      else Err AssertionError
  end.

(** 325-330, 333-338 *)
Definition bash_glob_to_regex (x : str) : res str :=
  do l <- lex x; do p <- parse l; seq_res to_regex p.
Definition bash_glob_to_zsh_glob (x : str) : res str :=
  do l <- lex x; do p <- parse l; seq_res to_zsh_glob p.
