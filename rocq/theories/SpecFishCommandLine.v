(** * Specification for C126: what [complete -C] prints, and where the last word begins *)
From Verif Require Import Base.
Open Scope list_scope.

(** [complete -C] prints candidates for the last word of the command line it gets. *)
Definition line_of (c : str * option str) : str := match c with (text, Some description) => text ++ [TAB] ++ description | (text, None) => text end.
(** The command line in front of the last word: empty, or it ends with a blank *)
Definition in_front (before : str) : Prop := before = [] \/ exists x, before = x ++ [SP].

