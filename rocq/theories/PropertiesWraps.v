(** * Property C120: completing a program like the command it wraps, in Bash.  Statements only. *)
From Verif Require Import Base PyStr Cli Shell Settings SpecShell ShellProofs SpecOutput OutputProofs SpecWraps Wraps WrapsProofs BashOffers BashStrings.
Open Scope string_scope.
Open Scope list_scope.
Open Scope nat_scope.

(** C120.  The completion of the wrapped command sees the line that was typed, with the wrapped command
    in the place of the program: in COMP_LINE and in COMP_WORDS, and the cursor is at the same
    place behind it.  Then the function of the program sees what was typed.  The suggestions are
    those of the wrapped command followed by those of the program.

    [offset] and [own] are arbitrary: the theorem says what they are called with.  What is missing: names
    of commands that are patterns, wrapped commands with [&] or backslashes, and programs without a
    function of their own. *)
Theorem C120_wrapped_partial : forall (root : Cli.cmd) (cmd rest wraps : str) (words : list str) (point : nat) reply (offset own : bash -> bash),
  is_worth_a_function root = true ->
  cmd <> [] -> no_pattern cmd -> hd 0%N cmd <> PERCENT -> hd 0%N cmd <> HASH -> ~ In AMP wraps -> ~ In BS wraps ->
  length cmd <= point <= length (cmd ++ rest) ->
  let typed := MkBash (cmd ++ rest) (Z.of_nat point) (cmd :: words) in
  exists point', let handed := MkBash (wraps ++ rest) (Z.of_nat point') (wraps :: words) reply in
    let offered := b_reply (offset handed) in
    firstn point' (wraps ++ rest) = wraps ++ skipn (length cmd) (firstn point (cmd ++ rest)) /\ length wraps <= point' <= length (wraps ++ rest) /\
    exists result, run_wrapper cmd wraps offset (own_function root own) (typed reply) = Some result /\
      b_reply result = offered ++ b_reply (own (typed offered)).
Proof.
  intros root cmd rest wraps words point reply offset own Hw Hn Hp H1 H2 Ha Hb [Hl Hu] typed. rewrite app_length in Hu.
  exists (length wraps + (point - length cmd)). cbv zeta.
  split; [| split; [rewrite app_length; lia |]].
  - rewrite !firstn_app, skipn_app. rewrite (firstn_all2 wraps) by lia. rewrite (firstn_all2 cmd) by lia. rewrite skipn_all, Nat.sub_diag. cbn [skipn app].
    do 2 f_equal. lia.
  - unfold own_function. rewrite Hw. unfold run_wrapper, typed. cbn [b_line b_point b_words b_reply]. rewrite substitute_plain by assumption. unfold set_first. cbn [tl].
    replace (Z.of_nat point + Z.of_nat (length wraps) - Z.of_nat (length cmd))%Z with (Z.of_nat (length wraps + (point - length cmd))) by lia.
    eexists. split; [reflexivity |]. reflexivity.
Qed.
Print Assumptions C120_wrapped_partial.
(** [./ll --co] with the cursor at the end, where [ll] wraps [git]: [git --co] is completed. *)
Example C120_wrapped_example : let offset b := MkBash [] 0 [] [b_line b; s (if Z.eqb (b_point b) 8 then "end" else "?")] in
  no_pattern (s "./ll") /\
  run_wrapper (s "./ll") (s "git") offset (Some (fun b => MkBash (b_line b) (b_point b) (b_words b) [s "own"; b_line b])) (MkBash (s "./ll --co") 9 [s "./ll"; s "--co"] []) =
  Some (MkBash (s "./ll --co") 9 [s "./ll"; s "--co"] [s "git --co"; s "end"; s "own"; s "./ll --co"]).
Proof. split; [| reflexivity]. intros c H. cbn in H. repeat (destruct H as [<- | H]; [reflexivity |]). destruct H. Qed.

(** C120.  The lines of the wrapper that name the wrapped command name exactly this command. *)
Theorem C120_names_partial : forall (v : list Z) (wraps : str),
  posix_words (wraps_line wraps) = Some [s "local"; s "WRAPS=" ++ wraps] /\
  (exists value, words_line wraps = s "COMP_WORDS[0]=" ++ value /\ posix_words value = Some [wraps]) /\
  (plain_name posix_special wraps -> posix_words (loader_line v wraps) = Some [name_for v completion_loader; wraps]).
Proof.
  intros v wraps. split; [| split; [exists (quote wraps); split; [reflexivity | apply posix_quote] |]].
  - unfold wraps_line, posix_words.
    change (sh_read false Unquoted None (s "local WRAPS=" ++ quote wraps)) with (emit (Some (s "local")) (sh_read false Unquoted (Some (s "WRAPS=")) (quote wraps))).
    rewrite <- (app_nil_r (quote wraps)), sh_read_quote by discriminate. reflexivity.
  - intros (Hn & Hp & _). unfold loader_line. assert (K : sh_read false Unquoted None wraps = Some [wraps]) by (apply (posix_plain_words [wraps]); repeat constructor; assumption).
    unfold posix_words, name_for. destruct (tuple_ge v [2; 12]%Z).
    + change (sh_read false Unquoted None (new_name completion_loader ++ SP :: wraps)) with (emit (Some (new_name completion_loader)) (sh_read false Unquoted None wraps)). now rewrite K.
    + change (sh_read false Unquoted None (old_name completion_loader ++ SP :: wraps)) with (emit (Some (old_name completion_loader)) (sh_read false Unquoted None wraps)). now rewrite K.
Qed.
Print Assumptions C120_names_partial.
Example C120_names_example : plain_name posix_special (s "git") /\ posix_words (loader_line [2; 12]%Z (s "git")) = Some [s "_comp_complete_load"; s "git"] /\
  posix_words (wraps_line (s "it's")) = Some [s "local"; s "WRAPS=it's"].
Proof.
  split; [| split; reflexivity]. split; [discriminate |]. split; [intros c H; cbn in H; repeat (destruct H as [<- | H]; [reflexivity |]); destruct H | intros r E; discriminate E].
Qed.

(** C120 is false: the name of the program is used as a pattern.  If the directory it is called from has
    brackets, the wrapped command's completion sees the program itself, and a cursor that is somewhere
    else. *)
Theorem C120_pattern_refuted : exists cmd rest wraps, run_wrapper cmd wraps (fun b => MkBash [] 0 [] [b_line b; firstn (Z.to_nat (b_point b)) (b_line b)])
    (Some (fun b => b)) (MkBash (cmd ++ rest) (Z.of_nat (length (cmd ++ rest))) [cmd; rest] []) =
  Some (MkBash (cmd ++ rest) (Z.of_nat (length (cmd ++ rest))) [cmd; rest] [cmd ++ rest; s "/m/[new]/ll"; cmd ++ rest; s "/m/[new]/ll"]) /\ cmd ++ rest = s "/m/[new]/ll --color".
Proof. exists (s "/m/[new]/ll"), (s " --color"), (s "git"). split; reflexivity. Qed.
Print Assumptions C120_pattern_refuted.

(** C120 is false: [&] in the name of the wrapped command stands for what was typed (Bash 5.2). *)
Theorem C120_ampersand_refuted : exists cmd rest wraps, run_wrapper cmd wraps (fun b => MkBash [] 0 [] [b_line b]) (Some (fun b => MkBash [] 0 [] []))
    (MkBash (cmd ++ rest) 4 [cmd] []) = Some (MkBash [] 0 [] [s "rlld x"]) /\ wraps = s "r&d" /\ rest = s " x".
Proof. exists (s "ll"), (s " x"), (s "r&d"). repeat split. Qed.
Print Assumptions C120_ampersand_refuted.

(** C120 is false: a definition that only says which command is wrapped has no function of its own, but
    it is called.  Then the suggestions of the wrapped command are offered twice (and Bash prints an
    error). *)
Theorem C120_only_wraps_refuted : exists (root : Cli.cmd) (offset own : bash -> bash) (typed : bash) (result : bash),
  c_wraps root = Some (s "ls") /\ run_wrapper (c_prog root) (s "ls") offset (own_function root own) typed = Some result /\
  b_reply result = [s "a"; s "b"; s "a"; s "b"] /\ forall b, b_reply (offset b) = [s "a"; s "b"] /\ b_reply (own b) = [].
Proof.
  exists (Cmd (s "ll") None [] (Some (s "ls")) XFalse XFalse XFalse [] [] None), (fun b => MkBash [] 0 [] [s "a"; s "b"]), (fun b => MkBash [] 0 [] []), (MkBash (s "ll ") 3 [s "ll"; []] []).
  eexists. repeat split; reflexivity.
Qed.
Print Assumptions C120_only_wraps_refuted.
