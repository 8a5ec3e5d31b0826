(** * Model of the abbreviation generators of crazy_complete/utils.py. *)
From Verif Require Import Base Dict.
Open Scope list_scope.

(** utils.py 61: [range(hi, lo - 1, -1)] for naturals: [hi], [hi-1], ..., [lo]. *)
Fixpoint down_range (hi lo : nat) : list nat :=
  if Nat.ltb hi lo then []
  else match hi with
       | O => [O]
       | S hi' => hi :: down_range hi' lo
       end.

(** utils.py 64-68 *)
Definition can_abbreviate (words : list str) (word abbrev : str) : bool :=
  negb (existsb (starts_with abbrev) (filter (fun w => negb (str_eqb w word)) words)).

(** utils.py 61-72: the loop over the lengths; returns the abbreviations of [word] and its
    entry in [min_lengths]. *)
Fixpoint abbrev_loop (words : list str) (word : str) (acc : list str) (minlen : nat)
    (lengths : list nat) : list str * nat :=
  match lengths with
  | [] => (acc, minlen)
  | n :: lengths' =>
      let abbrev := firstn n word in
      if can_abbreviate words word abbrev || str_eqb abbrev word
      then abbrev_loop words word (acc ++ [abbrev]) n lengths'
      else abbrev_loop words word acc minlen lengths'
  end.

(** utils.py 37-72: the dictionary [abbreviations] ([min_lengths] has the same keys; both are
    kept in one dictionary here). *)
Fixpoint general_loop (min_len : nat) (words : list str)
    (d : list (str * (list str * nat))) (todo : list str) : list (str * (list str * nat)) :=
  match todo with
  | [] => d
  | word :: todo' =>
      general_loop min_len words
        (dset str_eqb word
           (abbrev_loop words word [] (List.length word) (down_range (List.length word) min_len)) d)
        todo'
  end.
Definition general_abbreviations (min_len : nat) (words : list str) :=
  general_loop min_len words [] words.

(** utils.py 74-86: [KeyError] for an unknown word. *)
Definition get_abbreviations (d : list (str * (list str * nat))) (word : str) : res (list str) :=
  match dget str_eqb word d with Some (a, _) => Ok a | None => Err KeyError end.

(** utils.py 88-104 *)
Fixpoint get_many_abbreviations (d : list (str * (list str * nat))) (words : list str)
    : res (list str) :=
  match words with
  | [] => Ok []
  | w :: ws => do a <- get_abbreviations d w; do r <- get_many_abbreviations d ws; Ok (a ++ r)
  end.

(** utils.py 110-123 *)
Definition option_word_ok (word : str) : bool :=
  if starts_with (s "--") word && Nat.ltb 3 (List.length word) then true
  else if starts_with (s "-") word && Nat.ltb 2 (List.length word) then true
  else false.
Definition option_abbreviations (words : list str) : res (list (str * (list str * nat))) :=
  if forallb option_word_ok words then Ok (general_abbreviations 3 words)
  else Err (ValueError (s "Not a long or old-style option")).

(** utils.py 126-130 *)
Definition command_abbreviations (words : list str) := general_abbreviations 1 words.
