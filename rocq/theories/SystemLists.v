(** * Model of the helpers that offer mount points and sound cards: bash_helpers.py 760-768, 785-805;
    zsh_helpers.py 518-554; fish_helpers.py 1058-1080.

    What the other commands ([findmnt], [aplay | grep]) print is given. *)
From Verif Require Import Base Exec MimeFile.
Open Scope list_scope.

(** ** Mount points; [output]: what [findmnt -lno TARGET] prints *)

(** bash_helpers.py 760-768: the replies afterwards; [cur], what was typed, is not used; replies that were
    there are dropped, as its caller expects (bash_complete.py 73-85); [q]: [printf %q] *)
Definition bash_mountpoint (q : str -> str) (cur output : str) : list str :=
  map q (read_stripped output).
(** zsh_helpers.py 518-524: what is given to [compadd] *)
Definition zsh_mountpoint (output : str) : list str := read_stripped output.

(** ** Sound cards; [output]: what [aplay -l | grep -Eo '^card [0-9]+: [^,]+'] prints *)

(** [read] without [-r]: the character behind a backslash stays.  Simplification: a blank behind a backslash
    at the end is removed; a backslash at the end of a line does not join it with the next one. *)
Fixpoint unescape (x : str) : str :=
  match x with
  | b :: ((c :: x'') as x') => if N.eqb b BS then c :: unescape x'' else b :: unescape x'
  | [b] => if N.eqb b BS then [] else [b]
  | [] => []
  end.
Definition read_unescaped (output : str) : list str := map unescape (read_stripped output).
(** [${x#card }] *)
Definition without_card (x : str) : str := if starts_with (s "card ") x then skipn 5 x else x.
(** The parts in front of the first [": "] and behind it: [${x%%: *}], [${x#*: }] *)
Fixpoint at_first_colon (x : str) : option (str * str) :=
  match x with
  | c :: ((d :: x'') as x') =>
      if N.eqb c COLON && N.eqb d SP then Some ([], x'')
      else match at_first_colon x' with Some (a, r) => Some (c :: a, r) | None => None end
  | _ => None
  end.
Definition card_id (x : str) : str := match at_first_colon x with Some (a, _) => a | None => x end.
Definition card_name (x : str) : str := match at_first_colon x with Some (_, r) => r | None => x end.
(** [compgen -W "${words[*]}" -- "$cur"]; simplification: expansions in the words *)
Definition compgen_words (words : list str) (cur : str) : list str := filter (starts_with cur) (split_ws (join [SP] words)).

(** bash_helpers.py 785-794, 796-805; [before]: nothing, or [hw:] *)
Definition bash_cards (before cur output : str) : list str :=
  compgen_words (map (fun line => before ++ card_id (without_card line)) (read_unescaped output)) cur.

(** [uniq]: a line that is like the one in front of it is removed. *)
Fixpoint uniq_from (previous : str) (l : list str) : list str :=
  match l with
  | [] => []
  | x :: l' => if str_eqb x previous then uniq_from previous l' else x :: uniq_from x l'
  end.
Definition uniq (l : list str) : list str := match l with [] => [] | x :: l' => x :: uniq_from x l' end.
(** zsh_helpers.py 526-538, 541-554: the elements of the array that is given to [_describe]; [before]:
    nothing, or [hw\:] *)
Definition zsh_cards (before output : str) : list str :=
  map (fun line => let card := without_card (unescape (strip_p is_blank line)) in before ++ card_id card ++ [COLON] ++ card_name card)
      (uniq (read_lines output)).

(** [string split ': ']: the first two parts *)
Definition fish_split (x : str) : option (str * str) :=
  match at_first_colon x with Some (a, r) => Some (a, card_id r) | None => None end.
(** fish_helpers.py 1058-1080; [string replace 'card ' '' $card]: the line begins with that text (it was
    selected with [^card]); the lines of a command substitution are not stripped *)
Definition fish_card (before line : str) : str :=
  match fish_split (without_card line) with Some (id, name) => before ++ id ++ [TAB] ++ name ++ [LF] | None => [] end.
Definition fish_cards (before output : str) : str := flat_map (fish_card before) (read_lines output).
