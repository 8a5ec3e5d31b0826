(** * Model of the text of errors in definitions: errors.py 53-64, value_with_trace.py 24-41, 59-62. *)
From Verif Require Import Base PyStr.
Open Scope list_scope.

(** value_with_trace.py 24-36: the mark of the parser counts from zero *)
Definition from_mark (line column : nat) : nat * nat := (line + 1, column + 1).
(** value_with_trace.py 38-41; 59-62 for a value without a place *)
Definition position_string (place : option (nat * nat)) : str :=
  match place with
  | Some (line, column) => s "line " ++ show_nat line ++ s ", column " ++ show_nat column
  | None => []
  end.
(** errors.py 58-64 *)
Definition error_text (place : option (nat * nat)) (message : str) : str :=
  match position_string place with
  | [] => message
  | pos => pos ++ s ": " ++ message
  end.
