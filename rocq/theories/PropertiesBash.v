(** * Theorems about what the generated Bash scripts complete: C86-C91. *)
From Verif Require Import Base Value Dict StrUtils Shell SpecShell When SpecWhen WhenProofs Cli CliExamples CliProofs CliMore SpecCli BashUtils BashParser SpecParser ParserPaths ParserProofs ParserCheck
  PropertiesParser SpecOffered BashOffers SpecBash BashStrings BashArguments BashPositionals BashFunctions BashDashes BashMeaning BashWhole BashCheck.
Open Scope list_scope.

(** ** A definition for the examples *)

(** The code that completes an argument is its name here; regular expressions are not used. *)
Definition code_of (o : opt) : str := hd [] (o_strings o).
Definition pcode_of (p : pos) : str := s "positional " ++ [(48 + Z.to_N (p_number p))%N].
Definition choices_of (l : list str) : str := join [SP] l.
Definition any_ere (x : str) : bool := true.
Definition no_matches (regex : str) (nocase : bool) (value : str) : bool := false.
Definition fun1 : str := s "array_contains".
Definition fun2 : str := s "array_contains_nocase".
Definition fun3 : str := s "array_match".
Lemma fun1_name : is_name fun1. Proof. split; [discriminate | reflexivity]. Qed.
Lemma fun2_name : is_name fun2. Proof. split; [discriminate | reflexivity]. Qed.
Lemma fun3_name : is_name fun3. Proof. split; [discriminate | reflexivity]. Qed.
Notation run_script root es st :=
  (run_function any_ere fun1 fun2 fun3 code_of pcode_of choices_of (whole_truth no_matches fun1 fun2 fun3 es) st [] root).

(** What the script with the first or second parser finds and does, if the cursor is at the end. *)
Definition complete1 (root : cmd) (ws : list str) (cur : str) : res (list event * outcome) :=
  do sc <- generate1 root;
  let es := run1 sc ws [cur] in
  do r <- run_script root es (seen root ws cur [] es); Ok (es, r).
Definition complete2 (root : cmd) (ws : list str) (cur : str) : res (list event * outcome) :=
  do sc <- generate2 root;
  let es := run2 sc ws [cur] in
  do r <- run_script root es (seen root ws cur [] es); Ok (es, r).

(** make [-v|--verbose] [-o|--output FILE] [-color [WHEN]] [--fast | --slow] [--format FILE if --output is a or b] [--final] FILE
         {build|b [-k|--keep] [-j|--jobs FILE] [-O[FILE]] TARGET.., clean [-n]} *)
Definition once (x : list str) : opt :=
  MkOpt x None None None false None false XFalse false false None None SepInherit.
Definition once_g (x g : list str) : opt :=
  MkOpt x None None None false (Some g) false XFalse false false None None SepInherit.
Definition final_flag (x : list str) : opt :=
  MkOpt x None None None false None false XFalse true false None None SepInherit.
Definition when_arg (x : list str) (e : str) : opt :=
  MkOpt x None None (Some [VStr (s "file")]) false None false XInherit false false (Some e) None SepEquals.
Definition when_flag (x : list str) (e : str) : opt :=
  MkOpt x None None None false None false XInherit false false (Some e) None SepInherit.
Definition targets (e : str) : pos := MkPos 1 None None [VStr (s "file")] false true (Some e) None.
Definition make_build : cmd :=
  Cmd (s "build") None [s "b"] None XTrue XTrue XFalse
    [flag [s "-k"; s "--keep"]; with_arg [s "-j"; s "--jobs"]; optional_arg [s "-O"]] [targets (s "! has_option --keep || has_option -O")] None.
Definition make_clean : cmd := Cmd (s "clean") None [] None XTrue XTrue XFalse [flag [s "-n"]] [] None.
Definition make : cmd :=
  Cmd (s "make") None [] None XTrue XTrue XTrue
    [flag [s "-v"; s "--verbose"]; with_arg [s "-o"; s "--output"]; optional_arg [s "-color"]; once_g [s "--fast"] [s "speed"]; once_g [s "--slow"] [s "speed"];
     when_arg [s "--format"] (s "option_is --output -- a b"); final_flag [s "--final"]] [positional 1]
    (Some [make_build; make_clean]).

Lemma make_built : built make.
Proof. by_copy. Qed.
Definition format_condition : conds wobj := One (Test (OptionIs [s "--output"] [s "a"; s "b"] false false)).
Definition target_condition : conds wobj := Or (One (Negation (Test (HasOption [s "--keep"])))) (Test (HasOption [s "-O"])).
Lemma make_ready : bash_ready any_ere make /\ bash_named any_ere make.
Proof.
  apply bash_check_ok; [exact make_built | vm_compute; reflexivity |].
  intros c e H. assert (E : whens make = [(make, s "option_is --output -- a b"); (make_build, s "! has_option --keep || has_option -O")]) by (vm_compute; reflexivity).
  rewrite E in H. destruct H as [H | [H | []]]; apply pair_inj in H as [_ <-]; [exists format_condition | exists target_condition]; vm_compute; reflexivity.
Qed.
Lemma make_positionals : has_positionals make.
Proof. exists [], make. split; [apply located_root | left; discriminate]. Qed.
Lemma make_build_located : located make [make] make_build.
Proof. apply located_sub; [apply located_root | left; reflexivity]. Qed.

(** [make --output a --fast file bui -k] *)
Definition m_typed : list str := [s "--output"; s "a"; s "--fast"; s "file"; s "bui"; s "-k"].
Definition m_meant : list event :=
  [Append (s "OPT_output") (s "a"); Append (s "OPT_fast") OPT_ISSET; Positional (s "file"); Positional (s "bui"); Append (s "OPT_keep") OPT_ISSET].
Lemma m_usage rest es e : usage ([make], make_build) 0 rest es e -> usage ([], make) 0 (m_typed ++ rest) (m_meant ++ es) e.
Proof.
  intros H. unfold m_typed, m_meant. cbn [app].
  apply (us_separate _ _ _ (with_arg [s "-o"; s "--output"])); [this (@nil cmd, make) (with_arg [s "-o"; s "--output"]) | cbn; lia | reflexivity | vm_compute; reflexivity |].
  apply (us_flag _ _ _ (once_g [s "--fast"] [s "speed"])); [this (@nil cmd, make) (once_g [s "--fast"] [s "speed"]) | cbn; lia | discriminate | vm_compute; reflexivity |].
  apply us_word; [not_option | right; vm_compute; discriminate |].
  apply (us_command _ _ _ make_build); [not_option | vm_compute; reflexivity | in_list | |].
  { right. right. split; [discriminate |]. split; [discriminate |]. split; [now exists (s "ld") |].
    intros d [<- | [<- | []]] Hn (t & E); [now apply Hn | discriminate E]. }
  apply (us_cluster _ _ (s "k") [Append (s "OPT_keep") OPT_ISSET]); [discriminate | | apply no_word_ok; vm_compute; reflexivity | exact H].
  apply (cl_flag _ _ (flag [s "-k"; s "--keep"])); [this ([make], make_build) (flag [s "-k"; s "--keep"]) | reflexivity | vm_compute; reflexivity | apply cl_end].
Qed.
Lemma m_usage_normal : usage ([], make) 0 m_typed m_meant Normal.
Proof. rewrite <- (app_nil_r m_typed), <- (app_nil_r m_meant). apply m_usage, us_end. Qed.
Lemma m_selected es : selected (s "file" :: s "bui" :: es) [make] make_build.
Proof.
  split; [exact I |]. exists (s "bui"). split; [split; [vm_compute; discriminate | reflexivity] |].
  right. right. split; [discriminate |]. split; [discriminate |]. split; [now exists (s "ld") |].
  intros d [<- | [<- | []]] Hn (t & E); [now apply Hn | discriminate E].
Qed.
Lemma m_leaf es : forall w sub, nth_positional es (taken [make_build; make]) w -> In sub (subs make_build) -> ~ names make_build sub w.
Proof. intros w sub _ []. Qed.

(** ** C86 *)

(** For a word that begins with a dash, the script offers exactly the options of the command (and
    of its ancestors that pass theirs on) that are to be offered: not hidden, their condition
    holds, and neither a final option, nor a conflicting one, nor (if it may not be repeated) the
    option itself is given.  [quiet] says that neither this word nor the one before it contains
    or asks for an argument (C87).

    Missing: definitions that [bash_ready] and [bash_named] exclude; see the refutations. *)
Theorem C86_options_partial : forall ere matches f1 f2 f3 code pcode choices_code root ws es cur behind es' ps c l b,
  is_name f1 -> is_name f2 -> is_name f3 -> f1 <> f2 -> f1 <> f3 -> f2 <> f3 ->
  bash_ready ere root -> bash_named ere root -> has_positionals root ->
  usage ([], root) 0 ws es Normal -> option_like cur -> parsed root ws cur behind es' ->
  located root ps c -> selected (positionals_in es) ps c ->
  (forall w sub, nth_positional (positionals_in es) (taken (c :: ps)) w -> In sub (subs c) -> ~ names c sub w) ->
  (forall p, in_scope (ps, c) p -> quiet (seen root ws cur behind es') p) ->
  run_function ere f1 f2 f3 code pcode choices_code (whole_truth matches f1 f2 f3 es') (seen root ws cur behind es') [] root = Ok (l, b) ->
  b = false /\ (forall f, In f l -> exists ws, f = Words ws) /\
  forall x, In x (words_of l) <->
    is_prefix cur x /\ exists p o, in_scope (ps, c) p /\ offered_text o x /\ to_offer ere matches es p o.
Proof. intros ere matches f1 f2 f3 code pcode choices_code root ws es cur behind es' ps c l b H1 H2 H3 D12 D13 D23 R N. intros. now apply (whole_options ere matches f1 f2 f3 code pcode choices_code H1 H2 H3 D12 D13 D23 root R N ws es cur behind es' ps c l b). Qed.
Print Assumptions C86_options_partial.

(** [make --output a --fast file bui -k --<TAB>] *)
Example C86_example : bash_ready any_ere make /\ bash_named any_ere make /\ has_positionals make /\
  usage ([], make) 0 m_typed m_meant Normal /\ option_like (s "--") /\ parsed make m_typed (s "--") [] m_meant /\
  located make [make] make_build /\ selected (positionals_in m_meant) [make] make_build /\
  (forall p, in_scope ([make], make_build) p -> quiet (seen make m_typed (s "--") [] m_meant) p) /\
  run_script make m_meant (seen make m_typed (s "--") [] m_meant) =
    Ok ([Words [s "--keep"; s "--jobs"]; Words [s "--verbose"; s "--output"; s "--final"; s "--format="]], false).
Proof.
  split; [apply make_ready |]. split; [apply make_ready |]. split; [exact make_positionals |]. split; [exact m_usage_normal |].
  split; [eexists; eexists; reflexivity |]. split; [left; eexists; split; vm_compute; reflexivity |]. split; [exact make_build_located |].
  split; [apply m_selected |]. split; [apply quiet_scope; vm_compute; reflexivity |]. vm_compute. reflexivity.
Qed.

(** Two options whose names differ only in dashes have the same variable; if one is given, the
    other is not offered any more. *)
Definition same_variable : cmd :=
  Cmd (s "tool") None [] None XTrue XTrue XTrue [once [s "-a"]; once [s "--a"]] [positional 1] None.
Theorem C86_same_variable_refuted : exists root o es b,
  built root /\ In o (c_options root) /\ o_strings o = [s "--a"] /\ o_hidden o = false /\ o_groups o = None /\ o_when o = None /\
  complete1 root [s "-a"] (s "--") = Ok (es, ([Words []], b)) /\ complete2 root [s "-a"] (s "--") = Ok (es, ([Words []], b)).
Proof.
  exists same_variable, (once [s "--a"]). eexists. eexists. split; [by_copy |]. split; [in_list |]. repeat (split; [reflexivity |]).
  split; vm_compute; reflexivity.
Qed.
Print Assumptions C86_same_variable_refuted.

(** Option strings are expanded a second time: another word is offered if one has quotes in it. *)
Definition quoted_option : cmd :=
  Cmd (s "tool") None [] None XTrue XTrue XTrue [flag [s "--a'b'c"]] [positional 1] None.
Theorem C86_quotes_refuted : exists root es b,
  built root /\ (forall o, In o (c_options root) -> o_strings o = [s "--a'b'c"]) /\
  complete1 root [] (s "--") = Ok (es, ([Words [s "--abc"]], b)).
Proof.
  exists quoted_option. eexists. eexists. split; [by_copy |]. split; [intros o [<- | []]; reflexivity |]. vm_compute. reflexivity.
Qed.
Print Assumptions C86_quotes_refuted.

(** ** C87 *)

(** Behind an option that is waiting for its argument, this argument is completed, whatever the
    word at the cursor is. *)
Theorem C87_separate_partial : forall ere matches f1 f2 f3 code pcode choices_code root ws es v cur behind es' ps c o l b,
  is_name f1 -> is_name f2 -> is_name f3 -> f1 <> f2 -> f1 <> f3 -> f2 <> f3 ->
  bash_ready ere root -> bash_named ere root -> has_positionals root ->
  usage ([], root) 0 ws es (Waiting v) -> parsed root ws cur behind es' ->
  located root ps c -> selected (positionals_in es) ps c -> is_worth_a_function c = true ->
  (forall w sub, nth_positional (positionals_in es) (taken (c :: ps)) w -> In sub (subs c) -> ~ names c sub w) ->
  (forall q, In q (c_positionals c) -> is_command_arg q = false) -> waiting_word (ps, c) (last ws (c_prog root)) o ->
  (forall e, o_when o = Some e -> e <> [] -> condition_holds ere matches es' c e) ->
  run_function ere f1 f2 f3 code pcode choices_code (whole_truth matches f1 f2 f3 es') (seen root ws cur behind es') [] root = Ok (l, b) ->
  l = [Run (code o) cur []] /\ b = true.
Proof. intros ere matches f1 f2 f3 code pcode choices_code root ws es v cur behind es' ps c o l b H1 H2 H3 D12 D13 D23 R N. intros. now apply (whole_separate ere matches f1 f2 f3 code pcode choices_code H1 H2 H3 D12 D13 D23 root R N ws es v cur behind es' ps c o l b). Qed.
Print Assumptions C87_separate_partial.

(** [make --output a --fast file bui -k -kj x<TAB>] *)
Example C87_separate_example : usage ([], make) 0 (m_typed ++ [s "-kj"]) (m_meant ++ [Append (s "OPT_keep") OPT_ISSET]) (Waiting (s "OPT_jobs")) /\
  waiting_word ([make], make_build) (s "-kj") (with_arg [s "-j"; s "--jobs"]) /\
  exists es, complete1 make (m_typed ++ [s "-kj"]) (s "x") = Ok (es, ([Run (s "-j") (s "x") []], true)) /\
             complete2 make (m_typed ++ [s "-kj"]) (s "x") = Ok (es, ([Run (s "-j") (s "x") []], true)).
Proof.
  split.
  { apply m_usage. apply us_cluster_waiting; [| apply no_word_ok; vm_compute; reflexivity].
    apply (cl_flag _ _ (flag [s "-k"; s "--keep"])); [this ([make], make_build) (flag [s "-k"; s "--keep"]) | reflexivity | vm_compute; reflexivity |].
    apply (cl_waiting _ _ (with_arg [s "-j"; s "--jobs"])); [this ([make], make_build) (with_arg [s "-j"; s "--jobs"]) | reflexivity | vm_compute; reflexivity]. }
  split.
  { apply (ww_cluster _ _ (s "k")).
    - split; [in_list | left; now left].
    - reflexivity.
    - discriminate.
    - intros f [<- | []]. exists (flag [s "-k"; s "--keep"]). split; [this ([make], make_build) (flag [s "-k"; s "--keep"]) |]. split; [reflexivity | left; in_list].
    - intros p Hp. assert (K : no_word ([make], make_build) (s "-kj")) by (apply no_word_ok; vm_compute; reflexivity).
      refine (proj1 (K (s "-kj") p _ _) eq_refl); [exists ([make], make_build); split; [now left | exact Hp] | cbn; lia]. }
  eexists. split; vm_compute; reflexivity.
Qed.

(** If the word at the cursor contains the argument of an option ([--option=argument], or short
    options with the argument behind them), this argument is completed; the text before it stays. *)
Theorem C87_attached_partial : forall ere matches f1 f2 f3 code pcode choices_code root ws es cur behind es' ps c o value prefix l b,
  is_name f1 -> is_name f2 -> is_name f3 -> f1 <> f2 -> f1 <> f3 -> f2 <> f3 ->
  bash_ready ere root -> bash_named ere root -> has_positionals root ->
  usage ([], root) 0 ws es Normal -> option_like cur -> parsed root ws cur behind es' ->
  located root ps c -> selected (positionals_in es) ps c -> is_worth_a_function c = true ->
  (forall w sub, nth_positional (positionals_in es) (taken (c :: ps)) w -> In sub (subs c) -> ~ names c sub w) ->
  (forall q, In q (c_positionals c) -> is_command_arg q = false) ->
  attached_word (ps, c) cur o value prefix -> unclaimed (ps, c) (last ws (c_prog root)) ->
  (forall e, o_when o = Some e -> e <> [] -> condition_holds ere matches es c e) ->
  run_function ere f1 f2 f3 code pcode choices_code (whole_truth matches f1 f2 f3 es') (seen root ws cur behind es') [] root = Ok (l, b) ->
  l = [Run (code o) value prefix] /\ b = true.
Proof. intros ere matches f1 f2 f3 code pcode choices_code root ws es cur behind es' ps c o value prefix l b H1 H2 H3 D12 D13 D23 R N. intros. now apply (whole_attached ere matches f1 f2 f3 code pcode choices_code H1 H2 H3 D12 D13 D23 root R N ws es cur behind es' ps c o value prefix l b). Qed.
Print Assumptions C87_attached_partial.

(** [make --output a --fast file bui -k --jobs=x<TAB>] and [.. -kjx<TAB>] *)
Example C87_attached_example :
  attached_word ([make], make_build) (s "--jobs=x") (with_arg [s "-j"; s "--jobs"]) (s "x") [] /\
  attached_word ([make], make_build) (s "-kjx") (with_arg [s "-j"; s "--jobs"]) (s "x") (s "-kj") /\
  unclaimed ([make], make_build) (last m_typed (c_prog make)) /\
  complete1 make m_typed (s "--jobs=x") = Ok (m_meant, ([Run (s "-j") (s "x") []], true)) /\
  complete2 make m_typed (s "-kjx") = Ok (m_meant, ([Run (s "-j") (s "x") (s "-kj")], true)).
Proof.
  split; [apply (aw_word _ _ (s "--jobs")); [split; [in_list | left; in_list] | cbn; lia | discriminate] |]. split.
  { apply (aw_cluster _ _ (s "k")).
    - split; [in_list | left; now left].
    - discriminate.
    - intros f [<- | []]. exists (flag [s "-k"; s "--keep"]). split; [this ([make], make_build) (flag [s "-k"; s "--keep"]) |]. split; [reflexivity | left; in_list].
    - intros H. cbn in H. decompose [or] H; try discriminate; easy.
    - intros z (d & o & Ho & Hz & _ & Hd) (t & E). destruct Hd as [-> | [Hp _]]; [| now destruct Hp]. cbn [snd] in Ho.
      destruct Ho as [<- | [<- | [<- | []]]]; destruct Hz as [<- | Hz]; try discriminate E; try (destruct Hz as [<- | []]; discriminate E); destruct Hz. }
  split; [apply unclaimed_ok; vm_compute; reflexivity |]. split; vm_compute; reflexivity.
Qed.

(** If all options that take an argument take an optional one (and none has a condition), the
    script says that it has completed the argument and completes nothing. *)
Definition only_optional : cmd :=
  Cmd (s "tool") None [] None XTrue XTrue XTrue
    [MkOpt [s "--color"] None None (Some [VStr (s "file")]) false None true XInherit false false None None SepInherit; flag [s "-v"]] [positional 1] None.
Theorem C87_only_optional_refuted : exists root o es,
  built root /\ In o (c_options root) /\ attached_word ([], root) (s "--color=a") o (s "a") [] /\
  complete1 root [] (s "--color=a") = Ok (es, ([], true)) /\ complete2 root [] (s "--color=a") = Ok (es, ([], true)).
Proof.
  exists only_optional. eexists. eexists. split; [by_copy |]. split; [now left |].
  split; [apply (aw_word _ _ (s "--color")); [split; [now left | left; now left] | cbn; lia | discriminate] |]. split; vm_compute; reflexivity.
Qed.
Print Assumptions C87_only_optional_refuted.

(** Only the word before the cursor is looked at: [--output --output <TAB>] and [-- --output <TAB>]
    complete the argument of the option, although the option has its argument, or is none. *)
Definition with_output : cmd :=
  Cmd (s "tool") None [] None XTrue XTrue XTrue [with_arg [s "--output"]] [positional 1] None.
Theorem C87_previous_word_refuted : exists root,
  built root /\ usage ([], root) 0 [s "--output"; s "--output"] [Append (s "OPT_output") (s "--output")] Normal /\
  complete1 root [s "--output"; s "--output"] (s "x") =
    Ok ([Append (s "OPT_output") (s "--output"); Positional (s "x")], ([Run (s "--output") (s "x") []], true)) /\
  usage ([], root) 0 [s "--"; s "--output"] [EndOfOptions; Positional (s "--output")] BehindDashes /\
  complete1 root [s "--"; s "--output"] (s "x") =
    Ok ([EndOfOptions; Positional (s "--output"); Positional (s "x")], ([Run (s "--output") (s "x") []], true)).
Proof.
  exists with_output. split; [by_copy |]. split.
  { apply (us_separate _ _ _ (with_arg [s "--output"])); [this (@nil cmd, with_output) (with_arg [s "--output"]) | cbn; lia | reflexivity | vm_compute; reflexivity | apply us_end]. }
  split; [vm_compute; reflexivity |]. split; [apply (us_dashes _ _ [s "--output"]) | vm_compute; reflexivity].
Qed.
Print Assumptions C87_previous_word_refuted.

(** With old-style options, the last letter of a flag is taken for a short option: [-verbose <TAB>]
    completes the argument of [-e]. *)
Definition old_and_short : cmd :=
  Cmd (s "tool") None [] None XTrue XTrue XTrue [flag [s "-verbose"]; with_arg [s "-e"]; with_arg [s "-old"]] [positional 1] None.
Theorem C87_old_style_refuted : exists root,
  built root /\ usage ([], root) 0 [s "-verbose"] [Append (s "OPT_verbose") OPT_ISSET] Normal /\
  complete1 root [s "-verbose"] (s "x") =
    Ok ([Append (s "OPT_verbose") OPT_ISSET; Positional (s "x")], ([Run (s "-e") (s "x") []], true)).
Proof.
  exists old_and_short. split; [by_copy |]. split.
  { apply (us_flag _ _ _ (flag [s "-verbose"])); [this (@nil cmd, old_and_short) (flag [s "-verbose"]) | cbn; lia | discriminate | vm_compute; reflexivity | apply us_end]. }
  vm_compute. reflexivity.
Qed.
Print Assumptions C87_old_style_refuted.

(** The argument of an option that a sub-command has inherited: the function of the sub-command
    comes first and completes its positional argument instead. *)
Definition inherited : cmd :=
  Cmd (s "tool") None [] None XTrue XTrue XTrue [with_arg [s "--output"]; flag [s "-v"]] []
    (Some [Cmd (s "sub") None [] None XTrue XTrue XFalse [flag [s "-n"]] [positional 1] None]).
Theorem C87_inherited_refuted : exists root,
  built root /\ usage ([], root) 0 [s "sub"; s "x"; s "--output"] [Positional (s "sub"); Positional (s "x")] (Waiting (s "OPT_output")) /\
  complete1 root [s "sub"; s "x"; s "--output"] (s "f") =
    Ok ([Positional (s "sub"); Positional (s "x"); Append (s "OPT_output") (s "f")], ([Run (s "positional 1") (s "f") []], true)).
Proof.
  exists inherited. split; [by_copy |]. split; [| vm_compute; reflexivity].
  set (sub := Cmd (s "sub") None [] None XTrue XTrue XFalse [flag [s "-n"]] [positional 1] None).
  apply (us_command _ _ _ sub); [not_option | vm_compute; reflexivity | in_list | now left |].
  apply us_word; [not_option | left; reflexivity |].
  apply (us_waiting _ _ _ (with_arg [s "--output"])); [this (@nil cmd, inherited) (with_arg [s "--output"]) | cbn; lia | reflexivity | vm_compute; reflexivity].
Qed.
Print Assumptions C87_inherited_refuted.

(** ** C88 *)

(** For a word that does not begin with a dash, the script completes a positional argument that is
    the next one (or may be repeated) and whose condition holds, or the names of sub-commands if
    they are next; and if it does not, there is none.  In the conditions the word at the cursor
    counts as a positional argument. *)
Theorem C88_positionals_partial : forall ere matches f1 f2 f3 code pcode choices_code root ws es cur behind es' ps c l b,
  is_name f1 -> is_name f2 -> is_name f3 -> f1 <> f2 -> f1 <> f3 -> f2 <> f3 ->
  bash_ready ere root -> bash_named ere root -> has_positionals root ->
  usage ([], root) 0 ws es Normal -> ~ is_prefix [DASH] cur -> parsed root ws cur behind es' ->
  located root ps c -> selected (positionals_in es) ps c -> is_worth_a_function c = true ->
  (forall w sub, nth_positional (positionals_in es ++ [cur]) (taken (c :: ps)) w -> In sub (subs c) -> ~ names c sub w) ->
  (forall q, In q (c_positionals c) -> is_command_arg q = false) -> unclaimed (ps, c) (last ws (c_prog root)) ->
  run_function ere f1 f2 f3 code pcode choices_code (whole_truth matches f1 f2 f3 es') (seen root ws cur behind es') [] root = Ok (l, b) ->
  (exists p, In p (c_positionals c) /\ positional_offered (positionals_in es) ps c p /\
     (forall e, p_when p = Some e -> e <> [] -> condition_holds ere matches es' c e) /\ l = [Run (pcode p) cur []] /\ b = true) \/
  (c_subcommands c <> None /\ subcommands_offered (positionals_in es) ps c /\ l = [Run (choices_code (get_choices c)) cur []] /\ b = true) \/
  ((forall p, In p (c_positionals c) -> positional_offered (positionals_in es) ps c p ->
      ~ (forall e, p_when p = Some e -> e <> [] -> condition_holds ere matches es' c e)) /\
   (c_subcommands c <> None -> ~ subcommands_offered (positionals_in es) ps c)).
Proof. intros ere matches f1 f2 f3 code pcode choices_code root ws es cur behind es' ps c l b H1 H2 H3 D12 D13 D23 R N. intros. now apply (whole_positionals ere matches f1 f2 f3 code pcode choices_code H1 H2 H3 D12 D13 D23 root R N ws es cur behind es' ps c l b). Qed.
Print Assumptions C88_positionals_partial.

(** The names of the sub-commands are those of the definition and their aliases. *)
Theorem C88_choices : forall c x, In x (get_choices c) <-> exists sub, In sub (subs c) /\ In x (c_prog sub :: c_aliases sub).
Proof. intros c x. apply choices_names. Qed.
Print Assumptions C88_choices.

(** [make --output a --fast file bui -k x<TAB>]: the condition of TARGET does not hold;
    [.. -k -O3 t x<TAB>]: it does; [make --output a --fast file x<TAB>]: sub-commands *)
Example C88_example :
  unclaimed ([make], make_build) (last m_typed (c_prog make)) /\
  complete1 make m_typed (s "x") = Ok (m_meant ++ [Positional (s "x")], ([], false)) /\
  (exists es, complete2 make (m_typed ++ [s "-O3"; s "t"]) (s "x") = Ok (es, ([Run (s "positional 1") (s "x") []], true))) /\
  (exists es, complete2 make [s "--output"; s "a"; s "file"] (s "x") = Ok (es, ([Run (s "build b clean") (s "x") []], true))).
Proof.
  split; [apply unclaimed_ok; vm_compute; reflexivity |]. split; [vm_compute; reflexivity |].
  split; eexists; vm_compute; reflexivity.
Qed.

(** A word that begins with a dash is not counted: if the command has no options, the argument
    before it is completed again. *)
Definition no_options : cmd := Cmd (s "tool") None [] None XTrue XTrue XTrue [] [positional 1; positional 2] None.
Theorem C88_dash_refuted : exists root,
  built root /\ usage ([], root) 0 [s "foo"] [Positional (s "foo")] Normal /\
  complete1 root [s "foo"] (s "-x") = Ok ([Positional (s "foo")], ([Run (s "positional 1") (s "-x") []], true)) /\
  complete1 root [s "foo"] (s "x") = Ok ([Positional (s "foo"); Positional (s "x")], ([Run (s "positional 2") (s "x") []], true)).
Proof.
  exists no_options. split; [by_copy |]. split; [apply us_word; [not_option | left; reflexivity | apply us_end] |]. split; vm_compute; reflexivity.
Qed.
Print Assumptions C88_dash_refuted.

(** ** C89 *)

(** The functions of the script are asked one after the other: that of the command that is
    selected by the positional arguments, then those of its ancestors that pass on their options,
    until one is done.  A command without function is done if its parent does not pass on its
    options. *)
Theorem C89_functions_partial : forall ere f1 f2 f3 code pcode choices_code truth root st ps c l b,
  tame_commands root -> located root ps c -> selected (st_positionals st) ps c ->
  (forall w sub, nth_positional (st_positionals st) (taken (c :: ps)) w -> In sub (subs c) -> ~ names c sub w) ->
  run_function ere f1 f2 f3 code pcode choices_code truth st [] root = Ok (l, b) ->
  one_by_one (fun p l b =>
    if match fst p with [] => true | _ => is_worth_a_function (snd p) end
    then run_own ere f1 f2 f3 code pcode choices_code truth (fst p) (snd p) st = Ok (l, b)
    else l = [] /\ (b = false <-> forall q rest, fst p = q :: rest -> passes_on q)) (asked (ps, c)) l b.
Proof.
  intros ere f1 f2 f3 code pcode choices_code truth root st ps c l b Hc Hl Hsel Hno Hr.
  pose proof (functions_run ere f1 f2 f3 code pcode choices_code truth root Hc st ps c l b Hl Hsel Hno Hr) as H. clear -H.
  assert (K : forall p lp bp, own_part ere f1 f2 f3 code pcode choices_code truth st (fst p) (snd p) lp bp ->
    if match fst p with [] => true | _ => is_worth_a_function (snd p) end
    then run_own ere f1 f2 f3 code pcode choices_code truth (fst p) (snd p) st = Ok (lp, bp)
    else lp = [] /\ (bp = false <-> forall q rest, fst p = q :: rest -> passes_on q)).
  { intros [qs d] lp bp. unfold own_part. cbn [fst snd]. destruct qs as [| q qs]; [auto |]. destruct (is_worth_a_function d); [auto |].
    intros [-> ->]. split; [reflexivity |]. rewrite negb_false_iff, inh_iff. split; [intros Hp q' rest E; injection E as -> ->; exact Hp | intros Hp; exact (Hp q qs eq_refl)]. }
  induction H as [| p rest l Ho | p rest l l' b Ho H IH]; [apply obo_none | apply obo_done; now apply K | apply obo_on; [now apply K | exact IH]].
Qed.
Print Assumptions C89_functions_partial.

Example C89_example : tame_commands make /\ located make [make] make_build /\ selected [s "file"; s "bui"] [make] make_build /\
  asked ([make], make_build) = [([make], make_build); ([], make)].
Proof. split; [apply make_ready |]. split; [exact make_build_located |]. split; [apply m_selected | reflexivity]. Qed.

(** If the cursor is still on the name of a sub-command, its function is asked: the other names
    that begin so are not offered. *)
Definition two_builds : cmd :=
  Cmd (s "tool") None [] None XTrue XTrue XFalse [flag [s "-v"]] []
    (Some [Cmd (s "build") None [] None XTrue XTrue XFalse [flag [s "-n"]] [] None;
           Cmd (s "build-all") None [] None XTrue XTrue XFalse [flag [s "-n"]] [] None]).
Theorem C89_name_refuted : exists root,
  built root /\ subcommands_offered [] [] root /\ In (s "build-all") (get_choices root) /\
  complete1 root [] (s "build") = Ok ([Positional (s "build")], ([], false)) /\
  complete1 root [] (s "buil") = Ok ([Positional (s "buil")], ([Run (s "build build-all") (s "buil") []], true)).
Proof.
  exists two_builds. split; [by_copy |]. split; [split; [vm_compute; reflexivity | exact I] |]. split; [in_list |]. split; vm_compute; reflexivity.
Qed.
Print Assumptions C89_name_refuted.

(** ** C90 *)

(** Every function that is called for a sub-command is defined, and so is the one that completes
    the program if the program has something to complete. *)
Theorem C90_functions_defined_partial : forall prefix root,
  (forall ps c f, located root ps c -> In f (called_functions prefix ps c) -> In f (defined_functions prefix root)) /\
  (is_worth_a_function root = true -> In (registered_function prefix root) (defined_functions prefix root)).
Proof.
  intros prefix root. unfold defined_functions. split.
  - intros ps c f Hl Hf. apply in_map_iff in Hf as (sub & <- & Hs). apply filter_In in Hs as [Hs Hw].
    apply in_map_iff. exists (c :: ps, sub). split; [reflexivity |]. apply filter_In. split; [| exact Hw]. apply located_visit. now apply located_sub.
  - intros Hw. apply in_map_iff. exists ([], root). split; [reflexivity |]. apply filter_In. split; [apply located_visit, located_root | exact Hw].
Qed.
Print Assumptions C90_functions_defined_partial.
Example C90_example : called_functions (s "_make") [] make = [s "_make_build"; s "_make_clean"] /\ is_worth_a_function make = true.
Proof. split; vm_compute; reflexivity. Qed.

(** A program with nothing but [--help] and [--version] is completed by a function that does not
    exist. *)
Definition only_help : cmd := Cmd (s "tool") None [] None XTrue XTrue XTrue [flag [s "--help"]; flag [s "--version"]] [] None.
Theorem C90_undefined_refuted : exists root, built root /\ c_options root <> [] /\
  registered_function (s "_tool") root = s "_tool" /\ defined_functions (s "_tool") root = [].
Proof. exists only_help. split; [by_copy |]. split; [discriminate |]. split; vm_compute; reflexivity. Qed.
Print Assumptions C90_undefined_refuted.

(** ** C91 *)

(** The text of a condition, run by Bash, is true exactly if the condition is: the options that it
    names (by any of their strings) have values or the positional arguments are as it says.
    Without [-any] the last value of each option counts; a positional argument that is missing
    is compared as an empty one. *)
Theorem C91_conditions : forall ere arrays matches f1 f2 f3 c e cond text,
  is_name f1 -> is_name f2 -> is_name f3 -> f1 <> f2 -> f1 <> f3 -> f2 <> f3 ->
  (forall o1 o2 x, In o1 (c_options c) -> In o2 (c_options c) -> In x (o_strings o1) -> In x (o_strings o2) -> o1 = o2) ->
  (forall o v, In o (c_options c) -> opt_variable o = Ok v -> is_name v) ->
  parse_when ere e = Ok (map wtok_of (conds_syms cond)) -> generate_when_conditions ere f1 f2 f3 c e = Ok text ->
  exists b, sh_eval (bash_truth (fun v => List.length (arrays v)) (simple_command arrays matches f1 f2 f3)) text = Some b /\
    (b = true <-> cond_value matches (fun o => match opt_variable o with Ok v => arrays v | Err _ => [] end) (arrays (s "POSITIONALS")) c cond).
Proof.
  intros ere arrays matches f1 f2 f3 c e cond text H1 H2 H3 D12 D13 D23 Hone Hv Hp Hg. eexists.
  exact (when_meaning arrays matches f1 f2 f3 H1 H2 H3 D12 D13 D23 c Hone Hv ere e cond text Hp Hg).
Qed.
Print Assumptions C91_conditions.

Example C91_example : exists text, generate_when_conditions any_ere fun1 fun2 fun3 make_build (s "! has_option --keep || has_option -O") = Ok text /\
  parse_when any_ere (s "! has_option --keep || has_option -O") = Ok (map wtok_of (conds_syms target_condition)) /\
  text = s "{ ! (( ${#OPT_keep[@]} )) || (( ${#OPT_O[@]} )); }" /\
  sh_eval (bash_truth (fun v => List.length (arrays_of m_meant v)) (simple_command (arrays_of m_meant) no_matches fun1 fun2 fun3)) text = Some false.
Proof. eexists. split; [vm_compute; reflexivity |]. split; [vm_compute; reflexivity |]. split; vm_compute; reflexivity. Qed.
