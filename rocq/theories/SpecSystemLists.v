(** * Specification for C133: the sound cards as [aplay -l | grep -Eo '^card [0-9]+: [^,]+'] prints them, one
    line for each device of a card *)
From Verif Require Import Base SpecMimeFile.
Open Scope list_scope.

Record card := Card { card_number : str; card_title : str }.
Definition show_card (c : card) : str := s "card " ++ card_number c ++ s ": " ++ card_title c.
Definition print_cards (l : list card) : str := print_lines (map show_card l).
(** A number; a title of one line, without a comma, a backslash or blanks at its end *)
Definition good_card (c : card) : Prop :=
  card_number c <> [] /\ forallb is_digit (card_number c) = true /\
  card_title c <> [] /\ ~ In LF (card_title c) /\ ~ In BS (card_title c) /\ ~ blank (last (card_title c) 0%N).
(** The same cards, each one once, if all devices of a card are printed one after the other *)
Inductive once : list card -> list card -> Prop :=
| once_nil : once [] []
| once_one c : once [c] [c]
| once_same c l l' : once (c :: l) l' -> once (c :: c :: l) l'
| once_other c d l l' : c <> d -> once (d :: l) l' -> once (c :: d :: l) (c :: l').
