(** * Model of crazy_complete/help_parser.py.

    A stream is the text that has not been read yet: every function of the source moves the
    position forward only, or works on a copy. *)
From Verif Require Import Base.
Open Scope list_scope.

(** 11, 14 *)
Definition OPTION_BREAK_CHARS : str := [SP; TAB; LF; COMMA; PIPE; EQ; LBRK].
Definition OPTION_DELIMITER_CHARS : str := [COMMA; PIPE].

(** 16-18 *)
Record option_with_metavar := MkOption { o_option : str; o_metavar : option str; o_optional : bool }.
Inductive item :=
| Unparsed (text : str)
| OptionsWithDescription (options : list option_with_metavar) (description : option str).

(** [stream.peek() in chars]; [None] at the end of the stream is in no list *)
Definition peek_in (chars : str) (x : str) : bool :=
  match x with c :: _ => memc c chars | [] => false end.
(** 52-54 *)
Definition stream_is_space (x : str) : bool := peek_in [SP; TAB] x.

(** 76-84 *)
Fixpoint eat_line (x : str) : str * str :=
  match x with
  | [] => ([], [])
  | c :: x' => if N.eqb c LF then ([c], x') else let '(l, r) := eat_line x' in (c :: l, r)
  end.
(** 87-92 *)
Fixpoint eat_space (x : str) : str * str :=
  match x with
  | [] => ([], [])
  | c :: x' => if memc c [SP; TAB] then let '(l, r) := eat_space x' in (c :: l, r) else ([], x)
  end.

(** 112-113: the loop of [parse_option_string] *)
Fixpoint option_chars (x : str) : str * str :=
  match x with
  | [] => ([], [])
  | c :: x' =>
      if memc c OPTION_BREAK_CHARS then ([], x)
      else let '(l, r) := option_chars x' in (c :: l, r)
  end.
(** 95-119 *)
Definition parse_option_string (x : str) : option (str * str) :=
  let p := snd (eat_space x) in
  if negb (peek_in [DASH] p) then None
  else
    let '(option, r) := option_chars p in
    if mems option [s "-"; s "--"] then None
    else Some (option, r).

(** 132, 159: what ends the bracket or the string that starts with this character *)
Definition closing (c : N) : option N :=
  if N.eqb c LT then Some GT
  else if N.eqb c LBRK then Some RBRK
  else if N.eqb c LPAR then Some RPAR
  else if N.eqb c LBRC then Some RBRC
  else if memc c [DQ; SQ] then Some c
  else None.
(** 172-201.  [inside]: the loops of [parse_bracket] (138-144) and [parse_quoted_string]
    (163-169), with the character that ends them. *)
Fixpoint parse_metavar_ (inside : option N) (x : str) : str * str :=
  match x with
  | [] => ([], [])
  | c :: x' =>
      match inside with
      | Some d =>
          let '(l, r) := parse_metavar_ (if N.eqb c d then None else Some d) x' in (c :: l, r)
      | None =>
          if memc c [SP; TAB; LF] then ([], x)
          else match closing c with
               | Some d => let '(l, r) := parse_metavar_ (Some d) x' in (c :: l, r)
               | None =>
                   if memc c OPTION_DELIMITER_CHARS then ([], x)
                   else let '(l, r) := parse_metavar_ None x' in (c :: l, r)
               end
      end
  end.
Definition parse_metavar : str -> str * str := parse_metavar_ None.

(** 204-223 *)
Definition parse_trailing_description_line (x : str) : option (str * str) :=
  if negb (stream_is_space x) then None
  else
    let '(space, p) := eat_space x in
    if peek_in [DASH] p && Nat.ltb (List.length space) 10 then None
    else Some (eat_line p).

(** 230-235: the loop of [parse_description]; every line it goes on with is not empty *)
Fixpoint trailing_lines (fuel : nat) (content x : str) : res (str * str) :=
  match fuel with
  | O => Err OutOfFuel
  | S fuel =>
      match parse_trailing_description_line x with
      | Some ([], r) => Ok (content, r)
      | Some (line, r) => trailing_lines fuel (content ++ line) r
      | None => Ok (content, x)
      end
  end.
(** 226-237 *)
Definition parse_description (x : str) : res (str * str) :=
  let '(content, r) := eat_line (snd (eat_space x)) in
  trailing_lines (S (List.length r)) content r.

(** 281-288; [p.get()] at the end of the stream raises an exception. *)
Definition parse_option_delimiter (x : str) : res (bool * str) :=
  match snd (eat_space x) with
  | [] => Err IndexError
  | c :: p => if memc c [COMMA; PIPE] then Ok (true, p) else Ok (false, x)
  end.

(** [x.isspace()] *)
Definition isspace (x : str) : bool := match x with [] => false | _ => forallb is_space x end.

(** 240-278 *)
Definition parse_option_with_metavar (x : str) : res (option (option_with_metavar * str)) :=
  match parse_option_string x with
  | Some (opt, r) =>
      if str_eqb (firstn 2 r) (s "[=") then
        let '(metavar, r') := parse_metavar r in
        Ok (Some (MkOption opt (Some metavar) true, r'))
      else if peek_in [EQ] r then
        let '(metavar, r') := parse_metavar (tl r) in
        Ok (Some (MkOption opt (Some metavar) false, r'))
      else if isspace (firstn 2 r) then Ok (Some (MkOption opt None false, r))
      else
        do (delimiter, _) <- parse_option_delimiter r;
        if delimiter then Ok (Some (MkOption opt None false, r))
        else if stream_is_space r then
          let '(metavar, r') := parse_metavar (tl r) in
          Ok (Some (MkOption opt (Some metavar) false, r'))
        else Ok (Some (MkOption opt None false, r))
  | None => Ok None
  end.

(** 296-304: the loop of [parse_options_with_description] *)
Fixpoint options_loop (fuel : nat) (options : list option_with_metavar) (x : str)
    : res (list option_with_metavar * str) :=
  match x with
  | [] => Ok (options, x)
  | _ =>
      match fuel with
      | O => Err OutOfFuel
      | S fuel =>
          do o <- parse_option_with_metavar x;
          match o with
          | None => Ok (options, x)
          | Some (option, r) =>
              do (delimiter, r') <- parse_option_delimiter r;
              if delimiter then options_loop fuel (options ++ [option]) r'
              else Ok (options ++ [option], r')
          end
      end
  end.
(** 291-313 *)
Definition parse_options_with_description (x : str) : res (option (item * str)) :=
  do (options, r) <- options_loop (List.length x) [] x;
  match options with
  | [] => Ok None
  | _ =>
      if peek_in [SP; TAB; LF] r then
        do (description, r') <- parse_description r;
        Ok (Some (OptionsWithDescription options (Some description), r'))
      else Ok (Some (OptionsWithDescription options None, r))
  end.

(** 316-328 *)
Fixpoint parse_loop (fuel : nat) (r : list item) (x : str) : res (list item) :=
  match x with
  | [] => Ok r
  | _ =>
      match fuel with
      | O => Err OutOfFuel
      | S fuel =>
          do options <- parse_options_with_description x;
          match options with
          | Some (options, x') => parse_loop fuel (r ++ [options]) x'
          | None => let '(line, x') := eat_line x in parse_loop fuel (r ++ [Unparsed line]) x'
          end
      end
  end.
Definition parse (x : str) : res (list item) := parse_loop (List.length x) [] x.

(** 331-336.  The regular expression ignores case: for [s] it also takes U+017F. *)
Definition usage_chars : list str := [s "uU"; s "sS" ++ [383%N]; s "aA"; s "gG"; s "eE"; s ":"].
Fixpoint match_chars (classes : list str) (x : str) : option str :=
  match classes, x with
  | [], _ => Some x
  | cs :: classes', c :: x' => if memc c cs then match_chars classes' x' else None
  | _, [] => None
  end.
Fixpoint word_chars (x : str) : str :=
  match x with c :: x' => if memc c [LF; TAB; SP] then [] else c :: word_chars x' | [] => [] end.
Definition get_program_name_from_help (x : str) : res str :=
  let m := match match_chars usage_chars x with
           | Some r => if peek_in [LF; TAB; SP] r then word_chars (lstrip_p (fun c => memc c [LF; TAB; SP]) r) else []
           | None => [] end in
  match m, split_ws x with
  | _ :: _, _ => Ok m
  | [], w :: _ => Ok w
  | [], [] => Err IndexError
  end.
