(** * Specification: how zsh reads the elements of an array, and how [_arguments] reads them.

    Independent of the code under test: written from zshmisc(1) ("Quoting"), zshexpn(1) ("Brace
    expansion"), from the description of [_arguments] in zshcompsys(1), and, where that leaves
    something open, from the function that reads the arguments of [comparguments]. *)
From Verif Require Import Base Cli.
Open Scope list_scope.

(** ** Words *)

(** A character and whether it is quoted. *)
Definition mark : Type := N * bool.
Inductive zmode := ZPlain | ZEsc | ZSingle | ZDouble | ZDoubleEsc.
Definition zpush (w : option (list mark)) (c : N) (quoted : bool) : option (list mark) :=
  Some (match w with None => [(c, quoted)] | Some v => v ++ [(c, quoted)] end).
Definition zstart (w : option (list mark)) : option (list mark) :=
  Some (match w with None => [] | Some v => v end).
Definition zemit (w : option (list mark)) (r : option (list (list mark))) : option (list (list mark)) :=
  match w with None => r | Some v => option_map (cons v) r end.
(** Without quotes these start an expansion, a pattern or something else that is no word, except for
    braces. *)
Definition zsh_special (c : N) : bool :=
  memc c [PIPE; AMP; SEMI; LT; GT; LPAR; RPAR; DOLLAR; BTICK; STAR; QM; LBRK; RBRK; HASH; TILDE; BANG; CARET].
(** The elements of an array; [None] if something would be expanded (other than braces). *)
Fixpoint zread (m : zmode) (w : option (list mark)) (x : str) : option (list (list mark)) :=
  match x with
  | [] => match m with ZPlain => zemit w (Some []) | _ => None end
  | c :: x' =>
      match m with
      | ZPlain =>
          if N.eqb c SQ then zread ZSingle (zstart w) x'
          else if N.eqb c DQ then zread ZDouble (zstart w) x'
          else if N.eqb c BS then zread ZEsc w x'
          else if memc c [SP; TAB; LF] then zemit w (zread ZPlain None x')
          else if zsh_special c then None
          else if N.eqb c EQ && negb (is_some w) then None
          else zread ZPlain (zpush w c false) x'
      | ZEsc => if N.eqb c LF then zread ZPlain w x' else zread ZPlain (zpush w c true) x'
      | ZSingle => if N.eqb c SQ then zread ZPlain w x' else zread ZSingle (zpush w c true) x'
      | ZDouble =>
          if N.eqb c DQ then zread ZPlain w x'
          else if N.eqb c BS then zread ZDoubleEsc w x'
          else if N.eqb c DOLLAR || N.eqb c BTICK then None
          else zread ZDouble (zpush w c true) x'
      | ZDoubleEsc =>
          if N.eqb c LF then zread ZDouble w x'
          else if memc c [DOLLAR; BTICK; DQ; BS] then zread ZDouble (zpush w c true) x'
          else zread ZDouble (zpush (zpush w BS true) c true) x'
      end
  end.

(** Brace expansion: [a{b,c}d] is [abd acd].  Braces in braces, a second pair of braces in a word,
    and braces without a comma are not needed here. *)
Definition is_mark (c : N) (m : mark) : bool := N.eqb (fst m) c && negb (snd m).
Fixpoint alternatives (x : list mark) : option (list (list mark) * list mark) :=
  match x with
  | [] => None
  | m :: x' =>
      if is_mark LBRC m then None
      else if is_mark RBRC m then Some ([[]], x')
      else match alternatives x' with
           | Some (a :: l, r) => if is_mark COMMA m then Some ([] :: a :: l, r) else Some ((m :: a) :: l, r)
           | _ => None
           end
  end.
Definition has_brace (x : list mark) : bool := existsb (fun m => is_mark LBRC m || is_mark RBRC m) x.
Fixpoint expand_braces (before : list mark) (x : list mark) : option (list str) :=
  match x with
  | [] => Some [map fst before]
  | m :: x' =>
      if is_mark LBRC m then
        match alternatives x' with
        | Some (a :: b :: l, r) =>
            if has_brace r then None
            else Some (map (fun a => map fst (before ++ a ++ r)) (a :: b :: l))
        | _ => None
        end
      else if is_mark RBRC m then None
      else expand_braces (before ++ [m]) x'
  end.
Fixpoint expand_all (l : list (list mark)) : option (list str) :=
  match l with
  | [] => Some []
  | w :: l' =>
      match expand_braces [] w, expand_all l' with
      | Some a, Some b => Some (a ++ b)
      | _, _ => None
      end
  end.
(** The elements of the array [( x )]. *)
Definition zsh_array (x : str) : option (list str) :=
  match zread ZPlain None x with Some l => expand_all l | None => None end.

(** ** Specifications for [_arguments] *)

(** Where the argument of an option is: in the next word ([-o]), behind the option in the same word
    ([-o-]), in either place ([-o+]), in the next word or behind an equals sign ([-o=]), only behind
    an equals sign ([-o=-]). *)
Inductive place_of_arg := InNextWord | Joined | JoinedOrNext | EqualsOrNext | WithEquals.
(** one argument; an optional one; all the following words (up to one that matches a pattern) *)
Inductive how_many := Required | MayBeMissing | Following (until : str).
Record zoption := ZOption {
  z_hidden : bool;                               (* [!]: not offered *)
  z_excludes : list str;                         (* not offered together with this one *)
  z_many : bool;                                 (* [*]: may be given more than once *)
  z_name : str;
  z_place : place_of_arg;
  z_description : option str;
  z_args : list (how_many * str * str) }.        (* message and action *)
Record zargument := ZArgument {
  za_number : option nat;                        (* [None]: all the other arguments *)
  za_optional : bool;
  za_message : str;
  za_action : str }.
Inductive zspec := SpecOption (o : zoption) | SpecArgument (a : zargument).

(** The text up to the first place where [stop] holds; a character behind a backslash is taken as it
    is. *)
Fixpoint upto (stop : str -> bool) (x : str) : str * str :=
  match x with
  | [] => ([], [])
  | c :: x' =>
      if stop x then ([], x)
      else match x' with
           | d :: x'' =>
               if N.eqb c BS then let (a, r) := upto stop x'' in (c :: d :: a, r)
               else let (a, r) := upto stop x' in (c :: a, r)
           | [] => ([c], [])
           end
  end.
Definition starts (chars : str) (x : str) : bool := match x with c :: _ => memc c chars | [] => false end.
Definition at_end_or (chars : str) (x : str) : bool := match x with c :: _ => memc c chars | [] => true end.
(** the end of the name of an option: a colon, a bracket, or a mark in front of those *)
Definition name_ends (x : str) : bool :=
  match x with
  | c :: x' =>
      memc c [COLON; LBRK] || memc c [DASH; PLUS] && at_end_or [COLON; LBRK] x'
      || N.eqb c EQ && at_end_or [COLON; LBRK; DASH] x'
  | [] => true
  end.
(** Backslashes in front of [chars] are removed. *)
Fixpoint unescape (chars : str) (x : str) : str :=
  match x with
  | c :: x' => if N.eqb c BS && starts chars x' then unescape chars x' else c :: unescape chars x'
  | [] => []
  end.

(** [(a b c)]: the words, and the rest behind the parenthesis *)
Fixpoint read_words (w : str) (x : str) : option (list str * str) :=
  let done := if nonempty w then [w] else [] in
  match x with
  | [] => None
  | c :: x' =>
      if N.eqb c RPAR then Some (done, x')
      else if N.eqb c SP then option_map (fun '(l, r) => (done ++ l, r)) (read_words [] x')
      else read_words (w ++ [c]) x'
  end.

(** [message:action]; [only]: nothing else follows, colons belong to the action *)
Definition read_message (only : bool) (x : str) : str * str * str :=
  let (m, r) := upto (starts [COLON]) x in
  match r with
  | [] => (unescape [COLON] m, [], [])
  | _ :: r' =>
      if only then (unescape [COLON] m, unescape [COLON] r', [])
      else let (a, r'') := upto (starts [COLON]) r' in (unescape [COLON] m, unescape [COLON] a, r'')
  end.
(** the arguments of an option *)
Fixpoint read_args (fuel : nat) (x : str) : option (list (how_many * str * str)) :=
  match fuel with
  | O => None
  | S fuel =>
      match x with
      | [] => Some []
      | c :: x1 =>
          if negb (N.eqb c COLON) then None
          else
            if starts [STAR] x1 then
              let (pat, r) := upto (starts [COLON]) (tl x1) in
              match r with
              | [] => None
              | _ :: r' =>
                  let r1 := if starts [COLON] r' then tl r' else r' in
                  let r2 := if starts [COLON] r' && starts [COLON] r1 then tl r1 else r1 in
                  let '(m, a, _) := read_message true r2 in Some [(Following pat, m, a)]
              end
            else
              let '(h, x2) := if starts [COLON] x1 then (MayBeMissing, tl x1) else (Required, x1) in
              let '(m, a, r) := read_message false x2 in
              option_map (cons (h, m, a)) (read_args fuel r)
      end
  end.

Fixpoint read_number (n : nat) (x : str) : nat * str :=
  match x with
  | c :: x' => if is_digit c then read_number (10 * n + N.to_nat (c - 48)) x' else (n, x)
  | [] => (n, x)
  end.

(** The parts of an option: one or two dashes, the mark, the description in brackets. *)
Definition read_dashes (x : str) : str * str :=
  if starts [DASH] x && starts [DASH] (tl x) then (firstn 2 x, skipn 2 x) else (firstn 1 x, skipn 1 x).
Definition read_mark (x : str) : place_of_arg * str :=
  if starts [DASH] x then (Joined, tl x)
  else if starts [PLUS] x then (JoinedOrNext, tl x)
  else if starts [EQ] x then if starts [DASH] (tl x) then (WithEquals, skipn 2 x) else (EqualsOrNext, tl x)
  else (InNextWord, x).
Definition read_description (x : str) : option (option str * str) :=
  if starts [LBRK] x then
    let (d, r) := upto (starts [RBRK]) (tl x) in
    if starts [RBRK] r then Some (Some (unescape [COLON; LBRK; RBRK] d), tl r) else None
  else Some (None, x).
(** An option; [None] if it is invalid.  Not needed here: [-+o] and [+-o], which stand for two options. *)
Definition read_option (hidden : bool) (excludes : list str) (many : bool) (x : str) : option zspec :=
  let (dashes, x1) := read_dashes x in
  if at_end_or [] x1 || str_eqb dashes [DASH] && starts [PLUS] x1 && negb (at_end_or [COLON; LBRK; EQ; DASH; PLUS] (tl x1)) then None
  else
    let (name, x2) := upto name_ends x1 in
    let (place, x3) := read_mark x2 in
    match read_description x3 with
    | None => None
    | Some (d, x4) =>
        option_map (fun args => SpecOption (ZOption hidden excludes many (unescape [COLON] (dashes ++ name)) place d args))
          (read_args (S (S (List.length x4))) x4)
    end.
Definition read_argument (number : option nat) (x : str) : option zspec :=
  if starts [COLON] x then
    let missing := starts [COLON] (tl x) in
    let '(m, a, _) := read_message true (if missing then skipn 2 x else tl x) in
    Some (SpecArgument (ZArgument number missing m a))
  else None.
(** One element.  Not needed here: sets, and arguments without a number. *)
Definition read_spec (x : str) : option zspec :=
  let (hidden, x1) := if starts [BANG] x then (true, tl x) else (false, x) in
  match (if starts [LPAR] x1 then read_words [] (tl x1) else Some ([], x1)) with
  | None => None
  | Some (excludes, x2) =>
      if starts [DASH; PLUS] x2 then read_option hidden excludes false x2
      else if starts [STAR] x2 then
        if starts [DASH; PLUS] (tl x2) then read_option hidden excludes true (tl x2) else read_argument None (tl x2)
      else if match x2 with c :: _ => is_digit c | [] => false end then
        let (n, r) := read_number 0 x2 in read_argument (Some n) r
      else None
  end.

(** ** Texts that can be written down *)

(** Every backslash in [x] is followed by a character that is neither a backslash nor one of [chars]. *)
Fixpoint tame (chars : str) (x : str) : bool :=
  match x with
  | c :: x' => (if N.eqb c BS then negb (at_end_or (BS :: chars) x') else true) && tame chars x'
  | [] => true
  end.
(** Option strings that zsh does not expand and that [_arguments] reads as they are. *)
Definition plain_option_string (x : str) : Prop :=
  (exists c y, x = DASH :: c :: y /\ c <> PLUS /\ x <> [DASH; DASH]) /\
  (forall c, In c x -> zsh_special c = false /\ memc c [SQ; DQ; BS; SP; TAB; LF; LBRC; RBRC; COMMA; COLON; EQ] = false) /\
  last x 0%N <> DASH /\ last x 0%N <> PLUS.
(** Descriptions of options, and the names of their arguments. *)
Definition plain_description (d : option str) : Prop :=
  match d with Some d => tame [COLON; LBRK; RBRK] d = true | None => True end.
Definition plain_metavar (m : option str) : Prop :=
  match m with Some m => m <> [] /\ hd 0%N m <> STAR /\ tame [COLON] m = true | None => True end.

(** Actions: those without a colon; with a colon, backslashes in front of colons or backslashes are
    excluded, and single quotes together with other special characters unless there are double quotes. *)
Definition plain_action (a : str) : Prop := ~ In COLON a \/ tame [COLON] a = true.
Definition simple_action (a : str) : Prop :=
  ~ In COLON a \/ ~ In SQ a \/ In DQ a \/ (~ In BS a /\ ~ In DOLLAR a /\ ~ In BTICK a).

(** ** What the specification of an option is to say *)

(** How the argument may be given: joined to the option, behind an equals sign, in the next word. *)
Definition forms (p : place_of_arg) : bool * bool * bool :=
  match p with
  | InNextWord => (false, false, true)
  | Joined => (true, false, false)
  | JoinedOrNext => (true, false, true)
  | EqualsOrNext => (false, true, true)
  | WithEquals => (false, true, false)
  end.
(** Short options take it joined, other ones behind an equals sign unless it has to be separate; the
    next word is never an optional argument. *)
Definition expected_forms (o : opt) (x : str) : bool * bool * bool :=
  if Nat.eqb (List.length x) 2 then (true, false, negb (o_optional_arg o))
  else if o_optional_arg o then (false, true, false)
  else match o_sep o with
       | SepBoth => (false, true, true)
       | SepEquals => (false, true, false)
       | _ => (false, false, true)
       end.

Record describes_option (o : opt) (conflicting : list str) (action : str) (x : str) (z : zoption) : Prop := {
  do_name : z_name z = x;
  do_hidden : z_hidden z = o_hidden o;
  do_description : z_description z = o_help o;
  do_many : z_many z = true <-> o_repeatable o <> XFalse;
  do_argument : z_args z = if otruthy (o_complete o)
                           then [(Required, match o_metavar o with Some m => m | None => s " " end, action)] else [];
  do_place : if otruthy (o_complete o) then forms (z_place z) = expected_forms o x else z_place z = InNextWord;
  (** A final option excludes all the options ([-]) and the other arguments. *)
  do_excludes : forall y, In y (z_excludes z) <->
    if o_final o then y = s "-" \/ y = s "*"
    else In y conflicting \/ (o_repeatable o = XFalse /\ In y (o_strings o)) }.
