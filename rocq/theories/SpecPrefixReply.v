(** * Specification for C129: a word without quotes, backslashes and expansions *)
From Verif Require Import Base SpecBashWords.
Open Scope list_scope.

Definition plain (x : str) : Prop := forall c, In c x -> ~ In c [SQ; DQ; BS; DOLLAR; BTICK].
(** Every character is written as it is. *)
Definition bare (x : str) : list (N * how) := map (fun c => (c, Bare)) x.
