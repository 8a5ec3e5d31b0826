(** * Specification for C124: the lines a command prints for keys, in Fish *)
From Verif Require Import Base SpecBashWords SpecKeyValueRun.
Open Scope list_scope.

Definition text_line (p : printed) : str :=
  (if p_again p then [STAR] else []) ++ p_key p ++ p_takes p ++ [TAB] ++ p_description p ++ [TAB] ++ join [SP] (p_excludes p).
(** As [good_key], but the description may be empty *)
Definition fine_key (p : printed) : Prop :=
  word (p_key p) /\ hd 0%N (p_key p) <> STAR /\ ~ In EQ (p_key p) /\ In (p_takes p) [[]; s "="; s "=?"] /\
  ~ In TAB (p_description p) /\ Forall word (p_excludes p).
