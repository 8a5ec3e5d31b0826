(** * Model of crazy_complete/str_utils.py and the option string tests of cli.py. *)
From Verif Require Import Base.
Open Scope list_scope.

(** str_utils.py 16-19 *)
Definition contains_space (x : str) : bool := memc SP x || memc TAB x || memc LF x.

(** str_utils.py 22-25: [not string.strip()] *)
Definition is_empty_or_whitespace (x : str) : bool :=
  match strip_p is_space x with [] => true | _ => false end.

(** [sub in string] for strings *)
Fixpoint contains (sub x : str) : bool :=
  starts_with sub x || match x with [] => false | _ :: x' => contains sub x' end.

(** str_utils.py 45-64 *)
Definition validate_prog (x : str) : res unit :=
  if is_empty_or_whitespace x then Err (CrazyError (s "value is empty"))
  else if starts_with [SP] x then Err (CrazyError (s "begins with space"))
  else if ends_with [SP] x then Err (CrazyError (s "ends with space"))
  else if memc TAB x then Err (CrazyError (s "contains a tabulator"))
  else if memc LF x then Err (CrazyError (s "contains a newline"))
  else if contains [SP; SP] x then Err (CrazyError (s "contains multiple spaces"))
  else Ok tt.

(** str_utils.py 85-88; [' ' * n] is empty for negative [n]. *)
Definition indent (x : str) (num_spaces : Z) : str :=
  let spaces := repeat SP (Z.to_nat num_spaces) in
  let lines := split_c LF x in
  let lines := map (fun line =>
    match strip_p is_space line with [] => line | _ => spaces ++ line end) lines in
  join [LF] lines.

(** str_utils.py 118-138.  Python lists grow at the end. *)
Fixpoint wrap_loop (primary_sep : str) (max : Z) (prefix : str)
    (lines : list str) (current_items : list str) (current_length : Z) (items : list str)
    : list str :=
  match items with
  | [] =>
      match current_items with
      | [] => lines
      | _ => lines ++ [prefix ++ join primary_sep current_items]
      end
  | item :: items' =>
      let sep_len := match current_items with [] => 0%Z | _ => Z.of_nat (List.length primary_sep) end in
      let new_length := (current_length + sep_len + Z.of_nat (List.length item))%Z in
      if (match current_items with [] => false | _ => true end) && (new_length >? max)%Z then
        wrap_loop primary_sep max prefix (lines ++ [prefix ++ join primary_sep current_items])
          [item] (Z.of_nat (List.length prefix) + Z.of_nat (List.length item))%Z items'
      else
        wrap_loop primary_sep max prefix lines (current_items ++ [item]) new_length items'
  end.
Definition join_with_wrap (primary_sep secondary_sep : str) (max : Z) (items : list str)
    (prefix : str) : str :=
  join secondary_sep (wrap_loop primary_sep max prefix [] [] (Z.of_nat (List.length prefix)) items).

(** str_utils.py 12, 141-150: fullmatch of [-[^\s,]+], and not [--] *)
Definition is_valid_option_string (x : str) : bool :=
  match x with
  | c :: (_ :: _) as y =>
      N.eqb c DASH && forallb (fun d => negb (is_space d) && negb (N.eqb d COMMA)) (tl x)
      && negb (str_eqb x [DASH; DASH])
  | _ => false
  end.

(** str_utils.py 13, 153-156: fullmatch of [[a-zA-Z_][a-zA-Z0-9_]*] *)
Definition is_valid_variable_name (x : str) : bool :=
  match x with
  | [] => false
  | c :: x' => (is_lower c || is_upper c || N.eqb c UND) && forallb is_word x'
  end.

(** str_utils.py 159-170 *)
Definition strip_comments (x : str) : str :=
  join [LF] (filter (fun line => negb (starts_with [HASH] (lstrip_p is_space line))) (split_c LF x)).

(** str_utils.py 173-176: non-overlapping replacement from the left. *)
Fixpoint strip_double_empty_lines (x : str) : str :=
  match x with
  | a :: ((b :: (c :: x')) as y) =>
      if N.eqb a LF && N.eqb b LF && N.eqb c LF then [LF; LF] ++ strip_double_empty_lines x'
      else a :: strip_double_empty_lines y
  | _ => x
  end.

(** cli.py 587-599 *)
Definition is_short_option_string (x : str) : bool := Nat.eqb (List.length x) 2.
Definition is_long_option_string (x : str) : bool := starts_with [DASH; DASH] x.
Definition is_old_option_string (x : str) : bool :=
  negb (starts_with [DASH; DASH] x) && Nat.ltb 2 (List.length x).

(** cli.py 758-783: the getters of an option, on its list of option strings *)
Definition get_short_option_strings (l : list str) : list str := filter is_short_option_string l.
Definition get_long_option_strings (l : list str) : list str := filter is_long_option_string l.
Definition get_old_option_strings (l : list str) : list str := filter is_old_option_string l.
