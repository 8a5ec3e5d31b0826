(** * Specification for the completer [prefix]: what is on the command line when a suggestion was accepted.

    Written from the manuals of readline, zshcompwid(1) and fish; independent of the code under test. *)
From Verif Require Import Base SpecBashWords.
Open Scope list_scope.

(** readline replaces what is behind the last bare word break: [us] was typed. *)
Definition accepted (breaks : str) (us : list (N * how)) (reply result : str) : Prop :=
  exists n, breaks_at breaks us n /\ result = firstn (match n with Some k => k | None => 0%nat end) (text us) ++ reply.

(** zsh replaces PREFIX, and keeps IPREFIX in front of it. *)
Definition zsh_accepted (iprefix match_ : str) : str := iprefix ++ match_.
