(** * Model of the text of a function of a zsh script: zsh.py 107-126, 224-229. *)
From Verif Require Import Base StrUtils Zsh.
Open Scope list_scope.

(** zsh.py 224-229; [sections] are the values of [self.code] in the order of zsh.py 108-112: what
    reads the command line, what captures values, the sub-commands and the options *)
Definition get_code (funcname : str) (sections : list str) : str :=
  funcname ++ s "() {" ++ [LF]
  ++ indent (join [LF; LF] (filter (fun c => match c with [] => false | _ => true end) sections)) 2
  ++ [LF] ++ s "}".

(** zsh.py 108-126: the last section is made of the options; [others] are the other three *)
Definition function_code (funcname : str) (others : list str) (option_stacking : bool) (k : option zcode) : str :=
  get_code funcname (others ++ [match k with Some k => option_parsing_text option_stacking k | None => [] end]).
