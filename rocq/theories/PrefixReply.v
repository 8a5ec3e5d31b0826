(** * Model of what happens to suggestions for a value that is attached to a short option, as in [-ovalue]:
    the Bash helper [prefix_compreply] (bash_helpers.py 579-586), which bash_option_completion.py 293-301
    calls.

    Which code runs for which part of the word is modelled in [BashOffers]. *)
From Verif Require Import Base.
Open Scope list_scope.

(** bash_helpers.py 580: [[[ "$cur" == *[$COMP_WORDBREAKS]* ]]]; simplification: the characters of
    [COMP_WORDBREAKS] have no other meaning between the brackets *)
Definition has_break (breaks cur : str) : bool := existsb (fun c => memc c breaks) cur.
(** bash_helpers.py 579-586; [cur]: the whole word; [replies]: what has been added for the value *)
Definition prefix_compreply (breaks cur prefix : str) (replies : list str) : list str :=
  if has_break breaks cur then replies else map (fun reply => prefix ++ reply) replies.
