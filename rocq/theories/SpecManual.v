(** * Specification for C139: what a page of the manual shows. *)
From Verif Require Import Base Manual.
Open Scope list_scope.

Definition shows (page text : str) : Prop := exists before after, page = before ++ text ++ after.
(** The text without blanks around it is shown line by line, each behind four blanks. *)
Definition shows_lines (page text : str) : Prop :=
  forall line, In line (split_c LF (strip_p is_space text)) -> (exists c, In c line /\ is_space c = false) ->
  shows page (s "    " ++ line).
(** No control sequences of the terminal *)
Definition no_escape (x : str) : Prop := ~ In 27%N x.
Definition no_escapes (e : entry) : Prop :=
  no_escape (e_command e) /\ no_escape (e_short e) /\ (forall l, e_long e = Some l -> no_escape l) /\
  no_escape (e_definition e) /\ no_escape (e_output e) /\
  (forall x, In x (e_notes e ++ e_implemented e) -> no_escape x) /\
  (forall a b, In (a, b) (e_also e) -> no_escape a /\ no_escape b).
(** A name: no blanks in it *)
Definition is_name (x : str) : Prop := x <> [] /\ forall c, In c x -> is_space c = false.
(** A text that ends with something visible *)
Definition ends_visibly (x : str) : Prop := exists y c, x = y ++ [c] /\ is_space c = false.
(** The words in a text *)
Definition words_in (x : str) : list str :=
  filter (fun w => match w with [] => false | _ => true end) (concat (map (split_c SP) (split_c LF x))).
