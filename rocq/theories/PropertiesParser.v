(** * Theorems about the generated Bash parsers: C42, C70-C73. *)
From Verif Require Import Base Value Shell StrUtils Cli CliExamples CliProofs SpecCli CliMore BashUtils SpecGlob GlobMatch
  BashParser SpecParser ParserPaths ParserTables ParserProofs ParserProofs2 ParserExact ParserCheck.
Open Scope list_scope.

(** ** A definition for the examples *)

(** tool [-v|--verbose] [-o|--output FILE] [-color [WHEN]] FILE
         {build|b [-k|--keep] [-j|--jobs N] TARGET, clean [-n]} *)
Definition optional_arg (x : list str) : opt :=
  MkOpt x None None (Some [VStr (s "file")]) false None true XInherit false false None None SepInherit.
Definition tool_build : cmd :=
  Cmd (s "build") None [s "b"] None XTrue XTrue XFalse
    [flag [s "-k"; s "--keep"]; with_arg [s "-j"; s "--jobs"]; optional_arg [s "-O"]] [positional 1] None.
Definition tool_clean : cmd :=
  Cmd (s "clean") None [] None XTrue XTrue XFalse [flag [s "-n"]] [] None.
Definition tool : cmd :=
  Cmd (s "tool") None [] None XTrue XTrue XTrue
    [flag [s "-v"; s "--verbose"]; with_arg [s "-o"; s "--output"]; optional_arg [s "-color"]] [positional 1]
    (Some [tool_build; tool_clean]).
Lemma tool_built : built tool.
Proof. by_copy. Qed.
Lemma tool_commands : tame_commands tool.
Proof. apply tame_commands_ok. vm_compute. reflexivity. Qed.
Lemma tool_options : tame_options tool.
Proof. apply tame_options_ok. vm_compute. reflexivity. Qed.
Lemma tool_numbers : tame_option_numbers tool.
Proof. apply tame_option_numbers_ok. vm_compute. reflexivity. Qed.
Lemma tool_build_located : located tool [tool] tool_build.
Proof. apply located_sub; [apply located_root | left; reflexivity]. Qed.

(** [tool --verb -o out -color=no file bui -vkj 8 -O3 --jobs=4 a -v -- -x] *)
Definition typed : list str :=
  [s "--verb"; s "-o"; s "out"; s "-color=no"; s "file"; s "bui"; s "-vkj"; s "8"; s "-O3"; s "--jobs=4"; s "a"; s "-v"; s "--"; s "-x"].
Definition meant : list event :=
  [Append (s "OPT_verbose") OPT_ISSET; Append (s "OPT_output") (s "out"); Append (s "OPT_color") (s "no");
   Positional (s "file"); Positional (s "bui");
   Append (s "OPT_verbose") OPT_ISSET; Append (s "OPT_keep") OPT_ISSET; Append (s "OPT_jobs") (s "8");
   Append (s "OPT_O") (s "3"); Append (s "OPT_jobs") (s "4"); Positional (s "a"); Append (s "OPT_verbose") OPT_ISSET;
   EndOfOptions; Positional (s "-x")].

Ltac in_list := repeat (first [left; reflexivity | right]).
Ltac this p o := apply (known_string _ p o); [in_list | in_list | in_list].
Ltac not_option := intros (c & w & E); discriminate E.
Lemma typed_usage : usage ([], tool) 0 typed meant BehindDashes.
Proof.
  unfold typed, meant.
  set (verbose := flag [s "-v"; s "--verbose"]). set (output := with_arg [s "-o"; s "--output"]).
  apply (us_flag _ _ _ verbose); [| cbn; lia | discriminate | vm_compute; reflexivity |].
  { exists ([], tool). split; [now left |]. split; [in_list |]. right. split; [discriminate |]. split; [cbn; lia |].
    exists (s "--verbose"). split; [in_list |]. split; [now exists (s "ose") |].
    intros z (d & o & Ho & Hz & H3 & Hd) Hn (t & E). destruct Hd as [-> | [_ []]]. cbn [snd] in Ho.
    destruct Ho as [<- | [<- | [<- | []]]]; destruct Hz as [<- | Hz]; try discriminate E; try (destruct Hz as [<- | []]; try discriminate E; now apply Hn);
      destruct Hz. }
  apply (us_cluster_separate _ _ (s "o") []).
  { apply (cl_waiting _ _ output); [this (@nil cmd, tool) output | reflexivity | vm_compute; reflexivity]. }
  { apply no_word_ok. vm_compute. reflexivity. }
  apply (us_attached _ _ (s "-color") (optional_arg [s "-color"]) _ (s "no")); [this (@nil cmd, tool) (optional_arg [s "-color"]) | cbn; lia | discriminate | vm_compute; reflexivity |].
  apply us_word; [not_option | right; vm_compute; discriminate |].
  apply (us_command _ _ _ tool_build); [not_option | vm_compute; reflexivity | in_list | |].
  { right. right. split; [discriminate |]. split; [discriminate |]. split; [now exists (s "ld") |].
    intros d [<- | [<- | []]] Hn (t & E); [now apply Hn | discriminate E]. }
  apply (us_cluster_separate _ _ (s "vkj") [Append (s "OPT_verbose") OPT_ISSET; Append (s "OPT_keep") OPT_ISSET]).
  { apply (cl_flag _ _ verbose); [this (@nil cmd, tool) verbose | reflexivity | vm_compute; reflexivity |].
    apply (cl_flag _ _ (flag [s "-k"; s "--keep"])); [this ([tool], tool_build) (flag [s "-k"; s "--keep"]) | reflexivity | vm_compute; reflexivity |].
    apply (cl_waiting _ _ (with_arg [s "-j"; s "--jobs"])); [this ([tool], tool_build) (with_arg [s "-j"; s "--jobs"]) | reflexivity | vm_compute; reflexivity]. }
  { apply no_word_ok. vm_compute. reflexivity. }
  apply (us_cluster _ _ (s "O3") [Append (s "OPT_O") (s "3")]).
  { discriminate. }
  { apply (cl_attached _ _ (optional_arg [s "-O"])); [this ([tool], tool_build) (optional_arg [s "-O"]) | discriminate | vm_compute; reflexivity | discriminate | discriminate]. }
  { apply no_word_ok. vm_compute. reflexivity. }
  apply (us_attached _ _ (s "--jobs") (with_arg [s "-j"; s "--jobs"]) _ (s "4")); [this ([tool], tool_build) (with_arg [s "-j"; s "--jobs"]) | cbn; lia | discriminate | vm_compute; reflexivity |].
  apply us_word; [not_option | left; reflexivity |].
  apply (us_cluster _ _ (s "v") [Append (s "OPT_verbose") OPT_ISSET]).
  { discriminate. }
  { apply (cl_flag _ _ verbose); [this (@nil cmd, tool) verbose | reflexivity | vm_compute; reflexivity |]. apply cl_end. }
  { apply no_word_ok. vm_compute. reflexivity. }
  apply (us_dashes _ _ [s "-x"]).
Qed.

(** ** C42 *)

(** The pattern that guards the options of a command matches the path of exactly those commands
    at which these options may be used; the paths of different commands differ.  Both parsers
    use these patterns ([quote] leaves such paths alone). *)
Theorem C42_scope_partial : forall root ps c ps' c',
  built root -> tame_commands root -> located root ps c -> located root ps' c' ->
  (case_matches (get_subcommand_path ps' c' ++ (if inherits c' then s "*" else [])) (get_subcommand_path ps c) <->
   in_scope (ps, c) (ps', c')) /\
  quote (get_subcommand_path ps' c') = get_subcommand_path ps' c' /\
  (get_subcommand_path ps c = get_subcommand_path ps' c' -> (ps, c) = (ps', c')).
Proof.
  intros root ps c ps' c' Hb Ht Hl Hl'. split; [now apply command_case with (root := root) |]. split.
  - apply quote_safe; [apply path_nonempty | now apply (path_safe root)].
  - intros E. now apply (path_inj root).
Qed.
Print Assumptions C42_scope_partial.

Example C42_example : located tool [tool] tool_build /\ in_scope ([tool], tool_build) ([], tool) /\
  ~ in_scope ([tool], tool_build) ([tool], tool_clean).
Proof.
  split; [exact tool_build_located |]. split; [apply scope_iff; right; now left |].
  intros [E | [[E | []] _]]; discriminate E.
Qed.

(** Without the condition on prefixes the claim is false: the options of [add], which passes its
    options on, are accepted by its sibling [addon]. *)
Definition addon : cmd := Cmd (s "addon") None [] None XTrue XTrue XFalse [] [] None.
Definition add : cmd := Cmd (s "add") None [] None XTrue XTrue XTrue [flag [s "--force"]] [] None.
Definition adding : cmd := Cmd (s "tool") None [] None XTrue XTrue XFalse [] [] (Some [add; addon]).
Theorem C42_sibling_refuted : exists root sub sc1 sc2,
  built root /\ located root [root] sub /\ generate1 root = Ok sc1 /\ generate2 root = Ok sc2 /\
  (forall o, ~ known ([root], sub) (s "--force") o) /\
  run1 sc1 [c_prog sub; s "--force"] [[]] = [Positional (c_prog sub); Append (s "OPT_force") OPT_ISSET; Positional []] /\
  run2 sc2 [c_prog sub; s "--force"] [[]] = [Positional (c_prog sub); Append (s "OPT_force") OPT_ISSET; Positional []].
Proof.
  exists adding, addon. eexists. eexists. split; [by_copy |]. split; [apply located_sub; [apply located_root | right; left; reflexivity] |].
  split; [vm_compute; reflexivity |]. split; [vm_compute; reflexivity |]. split; [| split; vm_compute; reflexivity].
  intros o (p & Hp & Ho & _). apply scope_iff in Hp. destruct Hp as [<- | []]. destruct Ho.
Qed.
Print Assumptions C42_sibling_refuted.

(** ** C70 *)

(** The first parser understands every command line: the options, in any order and spelling,
    with their arguments, the positional arguments and the sub-commands. *)
Theorem C70_first_parser_partial : forall root sc ws es e w behind res,
  built root -> tame_commands root -> tame_options root -> generate1 root = Ok sc ->
  usage ([], root) 0 ws es e -> rest_events e w behind res ->
  run1 sc ws (w :: behind) = es ++ res.
Proof.
  intros root sc ws es e w behind res Hb Hc Ho Hs Hu Hr.
  apply (understood1 root Hb Hc (tame_strings root Ho) Ho sc Hs ([], root) 0 ws es e Hu (located_root root) 0 w behind res); [reflexivity | exact Hr].
Qed.
Print Assumptions C70_first_parser_partial.

Example C70_example : exists sc, built tool /\ tame_commands tool /\ tame_options tool /\ generate1 tool = Ok sc /\
  usage ([], tool) 0 typed meant BehindDashes /\ run1 sc typed [s "y"; s "z"] = meant ++ [Positional (s "y"); Positional (s "z")].
Proof.
  eexists. split; [exact tool_built |]. split; [exact tool_commands |]. split; [exact tool_options |].
  split; [vm_compute; reflexivity |]. split; [exact typed_usage | vm_compute; reflexivity].
Qed.

(** ** C71 *)

(** The second parser, too; if there are no positional arguments at all, it does not record them. *)
Theorem C71_second_parser_partial : forall root sc ws es e w behind res,
  built root -> tame_commands root -> tame_options root -> tame_option_numbers root -> generate2 root = Ok sc ->
  usage ([], root) 0 ws es e -> rest_events e w behind res ->
  (has_positionals root -> run2 sc ws (w :: behind) = es ++ res) /\
  (~ has_positionals root -> run2 sc ws (w :: behind) = filter (fun e => negb (is_positional e)) (es ++ res)).
Proof.
  intros root sc ws es e w behind res Hb Hc Ho Hn Hs Hu Hr.
  pose proof (understood2 root Hb Hc Ho Hn sc Hs ([], root) 0 ws es e Hu (located_root root) 0 w behind res (fun _ => eq_refl) Hr) as H.
  change (loop2 sc (get_subcommand_path (fst (@nil cmd, root)) (snd (@nil cmd, root))) 0 ws (w :: behind)) with (run2 sc ws (w :: behind)) in H.
  unfold keep in H. pose proof (positionals_iff root sc Hs) as Hp.
  destruct (t_positionals (s2_types sc)); split; intros Hh; try exact H.
  - exfalso. now apply Hh, Hp.
  - exfalso. apply Hp in Hh. discriminate.
Qed.
Print Assumptions C71_second_parser_partial.

Example C71_example : exists sc, built tool /\ tame_commands tool /\ tame_options tool /\ tame_option_numbers tool /\ has_positionals tool /\
  generate2 tool = Ok sc /\ run2 sc typed [s "y"; s "z"] = meant ++ [Positional (s "y"); Positional (s "z")].
Proof.
  eexists. split; [exact tool_built |]. split; [exact tool_commands |]. split; [exact tool_options |]. split; [exact tool_numbers |].
  split; [exists [], tool; split; [apply located_root | left; discriminate] |].
  split; [vm_compute; reflexivity | vm_compute; reflexivity].
Qed.

(** ** C72 *)

(** Which of the two parsers is used, the shorter one, makes no difference. *)
Theorem C72_parsers_agree_partial : forall root sc1 sc2 ws es e w behind,
  built root -> tame_commands root -> tame_options root -> tame_option_numbers root -> has_positionals root ->
  generate1 root = Ok sc1 -> generate2 root = Ok sc2 -> usage ([], root) 0 ws es e ->
  run1 sc1 ws (w :: behind) = run2 sc2 ws (w :: behind).
Proof.
  intros root sc1 sc2 ws es e w behind Hb Hc Ho Hn Hp H1 H2 Hu.
  assert (exists res, rest_events e w behind res) as (res & Hr).
  { destruct e as [| | v]; [| eexists; reflexivity | eexists; reflexivity]. destruct (dashed w) eqn:D.
    - exists []. left. split; [now apply dashed_option_like | reflexivity].
    - exists [Positional w]. right. split; [| reflexivity]. intros Hd. apply dashed_option_like in Hd. congruence. }
  rewrite (C70_first_parser_partial root sc1 ws es e w behind res Hb Hc Ho H1 Hu Hr). symmetry.
  now apply (C71_second_parser_partial root sc2 ws es e w behind res Hb Hc Ho Hn H2 Hu Hr).
Qed.
Print Assumptions C72_parsers_agree_partial.

Example C72_example : tame_option_numbers tool /\ has_positionals tool /\ usage ([], tool) 0 typed meant BehindDashes.
Proof.
  split; [exact tool_numbers |]. split; [exists [], tool; split; [apply located_root | left; discriminate] | exact typed_usage].
Qed.

(** For other command lines they differ: an argument attached to a flag is taken for short options
    by the first parser and is recorded for the flag by the second one. *)
Definition flags : cmd :=
  Cmd (s "tool") None [] None XTrue XTrue XTrue [flag [s "--flag"]; flag [s "-f"]] [positional 1] None.
Theorem C72_attached_refuted : exists root sc1 sc2, built root /\ tame_commands root /\ tame_options root /\
  tame_option_numbers root /\ has_positionals root /\ generate1 root = Ok sc1 /\ generate2 root = Ok sc2 /\
  run1 sc1 [s "--flag=x"] [[]] = [Append (s "OPT_f") OPT_ISSET; Positional []] /\
  run2 sc2 [s "--flag=x"] [[]] = [Append (s "OPT_flag") (s "x"); Positional []].
Proof.
  exists flags. eexists. eexists. split; [by_copy |]. split; [apply tame_commands_ok; vm_compute; reflexivity |].
  split; [apply tame_options_ok; vm_compute; reflexivity |]. split; [apply tame_option_numbers_ok; vm_compute; reflexivity |].
  split; [exists [], flags; split; [apply located_root | left; discriminate] |].
  split; [vm_compute; reflexivity |]. split; [vm_compute; reflexivity |]. split; vm_compute; reflexivity.
Qed.
Print Assumptions C72_attached_refuted.

(** A short option that a sub-command and its parent both define is recorded for both of them by
    the first parser, for the sub-command only by the second one. *)
Definition both : cmd :=
  Cmd (s "tool") None [] None XTrue XTrue XTrue [flag [s "-v"; s "--verbose"]] []
    (Some [Cmd (s "sub") None [] None XTrue XTrue XTrue [flag [s "-v"; s "--version"]] [] None]).
Theorem C72_overridden_refuted : exists root sc1 sc2, built root /\ tame_commands root /\ generate1 root = Ok sc1 /\ generate2 root = Ok sc2 /\
  run1 sc1 [s "sub"; s "-v"] [[]] =
    [Positional (s "sub"); Append (s "OPT_version") OPT_ISSET; Append (s "OPT_verbose") OPT_ISSET; Positional []] /\
  run2 sc2 [s "sub"; s "-v"] [[]] = [Positional (s "sub"); Append (s "OPT_version") OPT_ISSET; Positional []].
Proof.
  exists both. eexists. eexists. split; [by_copy |]. split; [apply tame_commands_ok; vm_compute; reflexivity |].
  split; [vm_compute; reflexivity |]. split; [vm_compute; reflexivity |]. split; vm_compute; reflexivity.
Qed.
Print Assumptions C72_overridden_refuted.

(** [-o=x] is an option with the argument [=x] for the first parser and with [x] for the second
    one, if there are old-style options. *)
Definition oldstyle : cmd :=
  Cmd (s "tool") None [] None XTrue XTrue XTrue [with_arg [s "-o"]; flag [s "-version"]] [positional 1] None.
Theorem C72_equals_refuted : exists root sc1 sc2, built root /\ tame_commands root /\ tame_options root /\
  tame_option_numbers root /\ has_positionals root /\ generate1 root = Ok sc1 /\ generate2 root = Ok sc2 /\
  run1 sc1 [s "-o=x"] [[]] = [Append (s "OPT_o") (s "=x"); Positional []] /\
  run2 sc2 [s "-o=x"] [[]] = [Append (s "OPT_o") (s "x"); Positional []].
Proof.
  exists oldstyle. eexists. eexists. split; [by_copy |]. split; [apply tame_commands_ok; vm_compute; reflexivity |].
  split; [apply tame_options_ok; vm_compute; reflexivity |]. split; [apply tame_option_numbers_ok; vm_compute; reflexivity |].
  split; [exists [], oldstyle; split; [apply located_root | left; discriminate] |].
  split; [vm_compute; reflexivity |]. split; [vm_compute; reflexivity |]. split; vm_compute; reflexivity.
Qed.
Print Assumptions C72_equals_refuted.

(** ** C73 *)

(** An option string of a command that is typed in full means its option, whatever abbreviations
    there are and whatever the parents of the command define. *)
Theorem C73_exact_partial : forall root sc ps c o x v n rest after,
  built root -> tame_commands root -> plain_options root -> generate1 root = Ok sc -> located root ps c ->
  In o (c_options c) -> In x (o_strings o) -> 3 <= List.length x ->
  (forall o', In o' (c_options c) -> In x (o_strings o') -> o' = o) -> opt_variable o = Ok v ->
  (arg_kind o <> ArgRequired ->
   loop1 sc (get_subcommand_path ps c) n (x :: rest) after =
   Append v OPT_ISSET :: loop1 sc (get_subcommand_path ps c) n rest after) /\
  (arg_kind o = ArgRequired -> forall a rest', rest = a :: rest' ->
   loop1 sc (get_subcommand_path ps c) n (x :: rest) after =
   Append v a :: loop1 sc (get_subcommand_path ps c) n rest' after).
Proof.
  intros root sc ps c o x v n rest after Hb Hc Hp Hs Hl Ho Hx H3 Hu Hv.
  pose proof (exact_option root sc ps c o x v Hb Hc Hp Hs Hl Ho Hx H3 Hu Hv) as E.
  assert (Hsp : spelling (ps, c) o x) by (split; [exact Ho | now left]).
  destruct (dashed_word root Hb (ps, c) o x [] Hl Hsp H3) as [D Q]. rewrite app_nil_r in D, Q.
  unfold without_action in E. split.
  - intros K. cbn [loop1]. rewrite Q, D, E. destruct (kind_cases o) as [(_ & _ & ->) | [(K' & _) | (_ & _ & ->)]]; [reflexivity | congruence | reflexivity].
  - intros K a rest' ->. cbn [loop1]. rewrite Q, D, E. destruct (kind_cases o) as [(K' & _) | [(_ & _ & ->) | (K' & _)]]; [congruence | reflexivity | congruence].
Qed.
Print Assumptions C73_exact_partial.

Definition prefixed : cmd :=
  Cmd (s "tool") None [] None XTrue XTrue XTrue [flag [s "--all"]] []
    (Some [Cmd (s "sub") None [] None XTrue XTrue XTrue [flag [s "--all-files"]; with_arg [s "--all"]] [] None]).
Example C73_example : exists sc sub o, subs prefixed = [sub] /\ c_options sub = [flag [s "--all-files"]; o] /\
  built prefixed /\ tame_commands prefixed /\ plain_options prefixed /\ generate1 prefixed = Ok sc /\
  run1 sc [s "sub"; s "--all"; s "x"] [[]] = [Positional (s "sub"); Append (s "OPT_all") (s "x"); Positional []].
Proof.
  eexists. eexists. eexists. split; [reflexivity |]. split; [reflexivity |]. split; [by_copy |].
  split; [apply tame_commands_ok; vm_compute; reflexivity |]. split.
  { intros ps c o x d Hl Ho Hx Hd.
    assert (H : forallb (fun '(_, c) => forallb (fun o => forallb (fun x => forallb (fun d => plain d && negb (N.eqb d EQ)) x) (o_strings o)) (c_options c))
              (visit_commandlines [] prefixed) = true) by (vm_compute; reflexivity).
    rewrite forallb_forall in H. assert (Hin : In (ps, c) (visit_commandlines [] prefixed)) by (apply visit_iff; exists ps; now rewrite app_nil_r).
    specialize (H _ Hin). cbn beta iota in H. rewrite forallb_forall in H. specialize (H o Ho). rewrite forallb_forall in H. specialize (H x Hx).
    rewrite forallb_forall in H. specialize (H d Hd). apply andb_prop in H as [A1 A2]. split; [exact A1 |]. apply negb_true_iff in A2. now apply N.eqb_neq. }
  split; vm_compute; reflexivity.
Qed.

(** For the options that a command inherits this is false: [--verbose] of the parent is taken for
    an abbreviation of [--verbose-all] of a sub-command that does not pass on its own options. *)
Definition shadowed : cmd :=
  Cmd (s "tool") None [] None XTrue XTrue XTrue [flag [s "--verbose"]] []
    (Some [Cmd (s "sub") None [] None XTrue XTrue XFalse [flag [s "--verbose-all"]] [] None]).
Theorem C73_inherited_refuted : exists root sc1 sc2 sub, built root /\ tame_commands root /\ tame_option_numbers root /\ subs root = [sub] /\
  generate1 root = Ok sc1 /\ generate2 root = Ok sc2 /\
  known ([root], sub) (s "--verbose") (flag [s "--verbose"]) /\
  run1 sc1 [s "sub"; s "--verbose"] [[]] = [Positional (s "sub"); Append (s "OPT_verbose_all") OPT_ISSET; Positional []] /\
  run2 sc2 [s "sub"; s "--verbose"] [[]] = [Positional (s "sub"); Append (s "OPT_verbose_all") OPT_ISSET; Positional []].
Proof.
  exists shadowed. eexists. eexists. eexists. split; [by_copy |]. split; [apply tame_commands_ok; vm_compute; reflexivity |].
  split; [apply tame_option_numbers_ok; vm_compute; reflexivity |]. split; [reflexivity |].
  split; [vm_compute; reflexivity |]. split; [vm_compute; reflexivity |].
  split; [apply (known_string _ ([], shadowed) (flag [s "--verbose"])); in_list |]. split; vm_compute; reflexivity.
Qed.
Print Assumptions C73_inherited_refuted.
