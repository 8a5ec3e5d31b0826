(** * Specification for C135: formats of [strftime] *)
From Verif Require Import Base.
Open Scope string_scope.
Open Scope list_scope.

(** A format is made of plain characters and conversions: a percent sign and one more character. *)
Inductive item := Plain (c : N) | Conversion (c : N).
Definition write_item (i : item) : str := match i with Plain c => [c] | Conversion c => [PERCENT; c] end.
Definition plain_item (i : item) : Prop := match i with Plain c => c <> PERCENT | Conversion _ => True end.
Definition written (items : list item) (x : str) : Prop := Forall plain_item items /\ x = concat (map write_item items).
(** All conversions are finished; the last one lacks its character. *)
Definition finished (x : str) : Prop := exists items, written items x.
Definition unfinished (x : str) : Prop := exists y, x = y ++ [PERCENT] /\ finished y.

(** The conversions of POSIX, [strftime(3)]. *)
Definition posix_conversions : str := s "aAbBcCdDeFgGhHIjmMnprRStTuUVwWxXyYzZ%".

(** How Fish reads a suggestion: the text in front of the first tabulator. *)
Fixpoint suggested (line : str) : str :=
  match line with [] => [] | c :: l => if N.eqb c TAB then [] else c :: suggested l end.
