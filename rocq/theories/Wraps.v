(** * Model of [_generate_wrapper] in crazy_complete/bash.py: completing a program like another one.

    The fixed text of the function is modelled by what Bash does with it; the texts that depend on the
    definition are modelled as texts, too. *)
From Verif Require Import Base Shell Settings Cli BashOffers SpecWraps.
Open Scope list_scope.

(** The variables of a completion function that the wrapper uses: COMP_LINE, COMP_POINT, COMP_WORDS,
    COMPREPLY.  COMP_CWORD is left out: the wrapper does not change it. *)
Record bash := MkBash { b_line : str; b_point : Z; b_words : list str; b_reply : list str }.

(** bash.py 173, 176, 182: the lines in which the wrapped command is inserted; [v]: the version of
    bash-completion *)
Definition loader_line (v : list Z) (wraps : str) : str := name_for v completion_loader ++ SP :: wraps.
Definition wraps_line (wraps : str) : str := s "local WRAPS=" ++ quote wraps.
Definition words_line (wraps : str) : str := s "COMP_WORDS[0]=" ++ quote wraps.

(** bash.py 121-123: the function of the program, if it has one; [f]: what it does *)
Definition own_function (root : cmd) (f : bash -> bash) : option (bash -> bash) := if is_worth_a_function root then Some f else None.

(** bash.py 182: assigning to the first element of an array *)
Definition set_first (x : str) (l : list str) : list str := x :: tl l.
(** bash.py 175-195.  [cmd]: [$1], the command as it was typed; [offset]: what [_command_offset 0]
    does, including the completion of the wrapped command; [own]: what the function of the program
    does.  It is [None] if there is no such function (121-123): Bash then prints an error and changes
    nothing.  The answer is [None] if [cmd] is a pattern that the specification does not cover. *)
Definition run_wrapper (cmd wraps : str) (offset : bash -> bash) (own : option (bash -> bash)) (st : bash) : option bash :=
  match substitute (b_line st) cmd wraps with
  | None => None
  | Some line =>
      let point := (b_point st + Z.of_nat (List.length wraps) - Z.of_nat (List.length cmd))%Z in
      let offered := offset (MkBash line point (set_first wraps (b_words st)) (b_reply st)) in
      let back := MkBash (b_line st) (b_point st) (b_words st) (b_reply offered) in
      let after := match own with Some f => f back | None => back end in
      Some (MkBash (b_line after) (b_point after) (b_words after) (b_reply offered ++ b_reply after))
  end.
