(** * Model of crazy_complete/shell.py (quoting and identifiers). *)
From Verif Require Import Base.

(** shell.py 28: [re.sub('[^a-zA-Z0-9_]', '', string)] *)
Definition drop_nonword (x : str) : str := filter is_word x.

(** shell.py 29: [re.sub('_+', '_', string)]: every maximal run of underscores becomes one. *)
Fixpoint collapse_und (x : str) : str :=
  match x with
  | [] => []
  | c :: x' =>
      match x' with
      | d :: _ => if N.eqb c UND && N.eqb d UND then collapse_und x' else c :: collapse_und x'
      | [] => [c]
      end
  end.

(** shell.py 11-32 *)
Definition make_identifier (x : str) : str :=
  let x := replace_c DASH [UND] x in
  let x := drop_nonword x in
  let x := collapse_und x in
  match x with
  | c :: _ => if is_digit c then UND :: x else x
  | [] => x
  end.

(** shell.py 38: the character class [a-zA-Z0-9_@%+=:,./-] *)
Definition is_safe (c : N) : bool :=
  is_word c || memc c [AT; PERCENT; PLUS; EQ; COLON; COMMA; DOT; SLASH; DASH].

(** shell.py 35-38 *)
Definition needs_quote (x : str) : bool :=
  negb (match x with [] => false | _ => forallb is_safe x end).

(** shell.py 41-73 *)
Definition quote_gen (quote_empty_string : bool) (x : str) : str :=
  if (match x with [] => true | _ => false end) && negb quote_empty_string then []
  else if negb (needs_quote x) then x
  else if negb (memc SQ x) then [SQ] ++ x ++ [SQ]
  else if negb (memc DQ x) then
    let y := replace_c BS [BS; BS] x in
    let y := replace_c DOLLAR [BS; DOLLAR] y in
    let y := replace_c BTICK [BS; BTICK] y in
    [DQ] ++ y ++ [DQ]
  else
    let y := replace_c SQ [SQ; DQ; SQ; DQ; SQ] x in
    [SQ] ++ y ++ [SQ].

(** [quote] with its default argument [quote_empty_string=True]. *)
Definition quote (x : str) : str := quote_gen true x.

(** shell.py 76-79 *)
Definition join_quoted (args : list str) (sep : str) : str := join sep (map quote args).
