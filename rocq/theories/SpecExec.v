(** * Specification for items that a command prints (docs/documentation.md, "exec"): each line is an item,
    or an item, a tabulator and a description. *)
From Verif Require Import Base SpecShell SpecBashWords.
Open Scope list_scope.

Definition print_entry (e : str * option str) : str :=
  fst e ++ match snd e with Some d => TAB :: d | None => [] end ++ [LF].
Definition print_entries (l : list (str * option str)) : str := flat_map print_entry l.
(** Texts on one line; an item is not empty, and so is a description, which has no tabulators at its
    ends. *)
Definition good_item (x : str) : Prop := x <> [] /\ ~ In TAB x /\ ~ In LF x.
Definition good_description (d : str) : Prop := d <> [] /\ ~ In LF d /\ hd 0%N d <> TAB /\ last d 0%N <> TAB.
Definition good_entry (e : str * option str) : Prop :=
  good_item (fst e) /\ match snd e with Some d => good_description d | None => True end.

(** Bash reads [word] as the text [x], and nothing in it has a meaning for the shell. *)
Definition stands_for (word x : str) : Prop :=
  exists us, units Outside word = Some (us, false) /\ text us = x /\ forall c, In (c, Bare) us -> posix_special c = false.
