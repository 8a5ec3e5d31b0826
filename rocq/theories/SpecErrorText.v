(** * Specification for C142: how a user reads the text of an error. *)
From Verif Require Import Base.
Open Scope list_scope.

(** The decimal number at the beginning of a text, and the rest *)
Fixpoint number_of (digits : str) (acc : N) : N :=
  match digits with [] => acc | c :: r => number_of r (10 * acc + (c - 48))%N end.
(** The text tells the line, the column and the message. *)
Definition tells (text : str) (line column : N) (message : str) : Prop :=
  exists a b, text = s "line " ++ a ++ s ", column " ++ b ++ s ": " ++ message /\
    a <> [] /\ b <> [] /\ (forall c, In c (a ++ b) -> is_digit c = true) /\ number_of a 0 = line /\ number_of b 0 = column.
