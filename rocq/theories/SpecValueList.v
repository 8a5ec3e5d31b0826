(** * Specification: what is offered while a list of values is being typed. *)
From Verif Require Import Base BashWords SpecBashWords.
Open Scope list_scope.

(** The word typed: elements before the last one, each with the separator behind it, and the beginning
    of the last one. *)
Definition before (sep : N) (elements : list str) : str := concat (map (fun e => e ++ [sep]) elements).
Definition typed_list (sep : N) (elements : list str) (beginning : str) : str := before sep elements ++ beginning.
(** Elements and values do not contain the separator; values are not empty. *)
Definition list_element (sep : N) (e : str) : Prop := ~ In sep e.
Definition list_value (sep : N) (v : str) : Prop := list_element sep v /\ v <> [].

(** The value [v] may be the last element: it begins like that, and it was not given before unless
    duplicates are allowed. *)
Definition fits (duplicates : bool) (elements : list str) (beginning v : str) : bool :=
  starts_with beginning v && (duplicates || negb (mems v elements)).

(** In Bash, a candidate replaces what is behind the last word break: the text of the word then. *)
Definition inserted (typed : dequoted) (candidate : str) : str :=
  firstn (match dq_break typed with Some n => n | None => 0 end) (dq_result typed) ++ candidate.
(** The last word break is not in the last element. *)
Definition break_before (typed : dequoted) (n : nat) : Prop := match dq_break typed with Some m => (m <= n)%nat | None => True end.
