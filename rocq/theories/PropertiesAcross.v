(** * Theorems about scripts for different shells: C92. *)
From Coq Require Import Permutation.
From Verif Require Import Base Value Dict StrUtils Shell SpecShell When SpecWhen WhenProofs Cli CliExamples CliProofs CliMore SpecCli BashUtils BashParser SpecParser ParserPaths ParserProofs ParserProofs2 ParserCheck
  PropertiesParser SpecOffered BashOffers SpecBash BashStrings BashArguments BashPositionals BashFunctions BashDashes BashMeaning BashWhole BashCheck PropertiesBash
  FishUtils SpecFish FishConditions FishRuntime SpecFishOffers PropertiesFish FishQuery SpecQuery PropertiesQuery SpecAcross Across AcrossOptions AcrossCheck.
Open Scope list_scope.

(** ** C92 *)

(** For a word that begins with a dash, behind any command line that both shells understand, the
    script for Bash offers an option exactly if the one for fish does: if in fish there is a
    [complete] command for it whose conditions are all true.

    Missing: abbreviated options, which fish does not know; options behind [--]; hidden options,
    that only fish offers; conditions that mean different things in both shells
    ([agreeing_conditions]); options that share a variable or some of their strings ([apart]); and
    what is missing in C83 and C86.  See the refutations. *)
Theorem C92_options_partial : forall ere matches f1 f2 f3 code pcode choices_code root incomplete e prog completer st inline ws positionals given cur behind es ps c l b,
  is_name f1 -> is_name f2 -> is_name f3 -> f1 <> f2 -> f1 <> f3 -> f2 <> f3 ->
  bash_ready ere root -> bash_named ere root -> has_positionals root ->
  good_names e -> e (s "prog") = Some prog -> (forall n, e (s "C" ++ n) = None) ->
  clear_definition root -> (forall ps c, located root ps c -> clean_scope completer ps c) ->
  (forall ps c, located root ps c -> exists argss, fish_script e ere completer st inline (ps, c) argss) ->
  (forall ps c, located root ps c -> agreeing_conditions ere c) ->
  typed (root_first root) ([], root) 0 ws positionals given false -> (forall w, In w ws -> ~ In LF w) -> ~ In (s "--") ws -> unabbreviated root ws ->
  option_like cur -> parsed root ws cur behind es ->
  located root ps c -> selected positionals ps c ->
  (forall w sub, nth_positional positionals (taken (c :: ps)) w -> In sub (subs c) -> ~ names c sub w) -> apart (ps, c) ->
  (forall p, in_scope (ps, c) p -> BashDashes.quiet (seen root ws cur behind es) p) ->
  run_function ere f1 f2 f3 code pcode choices_code (whole_truth matches f1 f2 f3 es) (seen root ws cur behind es) [] root = Ok (l, b) ->
  exists q, query_init root ws = Ok (q, false) /\
  forall x, In x (words_of l) <->
    is_prefix cur x /\ exists p o, located root (fst p) (snd p) /\ In o (c_options (snd p)) /\ o_hidden o = false /\ offered_text o x /\
      fish_offers matches incomplete q e ere completer st inline p o.
Proof.
  intros ere matches f1 f2 f3 code pcode choices_code root incomplete e prog completer st inline ws positionals given cur behind es ps c l b
    H1 H2 H3 D12 D13 D23 R N HP He Hprog HC Hcl Hsc Hscr Hag.
  apply (options_agree ere matches f1 f2 f3 code pcode choices_code H1 H2 H3 D12 D13 D23 root R N HP incomplete e prog He Hprog HC completer st inline Hcl Hsc Hscr Hag).
Qed.
Print Assumptions C92_options_partial.

(** tool [-v|--verbose] [-o|--output FILE] [--fast | --slow] [--format FILE if --output is a or b] [--final]
         {build|b [-k|--keep] [-j|--jobs FILE], clean [-n]} *)
Definition both_build : cmd :=
  Cmd (s "build") None [s "b"] None XFalse XTrue XFalse
    [flag [s "-k"; s "--keep"]; with_arg [s "-j"; s "--jobs"]; once [s "-q"; s "--quiet"]; when_flag [s "--again"] (s "has_option -k --keep && ! positional_count > 2")] [positional 1] None.
Definition both_clean : cmd := Cmd (s "clean") None [] None XFalse XTrue XFalse [flag [s "-n"]] [] None.
Definition both : cmd :=
  Cmd (s "tool") None [] None XFalse XTrue XTrue
    [flag [s "-v"; s "--verbose"]; with_arg [s "-o"; s "--output"]; once_g [s "--fast"] [s "speed"]; once_g [s "--slow"] [s "speed"];
     when_arg [s "--format"] (s "option_is -o --output -- a b"); final_flag [s "--final"]] []
    (Some [both_build; both_clean]).
Lemma both_built : built both.
Proof. by_copy. Qed.
Definition both_format : conds wobj := One (Test (OptionIs [s "-o"; s "--output"] [s "a"; s "b"] false false)).
Definition both_again : conds wobj := And (One (Test (HasOption [s "-k"; s "--keep"]))) (Negation (Test (PositionalCount (s ">") 2))).
Lemma both_ready : bash_ready any_ere both /\ bash_named any_ere both.
Proof.
  apply bash_check_ok; [exact both_built | vm_compute; reflexivity |].
  intros c e H. assert (E : whens both = [(both, s "option_is -o --output -- a b"); (both_build, s "has_option -k --keep && ! positional_count > 2")]) by (vm_compute; reflexivity).
  rewrite E in H. destruct H as [H | [H | []]]; apply pair_inj in H as [_ <-]; [exists both_format | exists both_again]; vm_compute; reflexivity.
Qed.
Lemma file_clean l : clean (file_completer l).
Proof. apply clean_check. reflexivity. Qed.
(** [tool --fast -o a build -kj 2 --<TAB>] *)
Definition both_words : list str := [s "--fast"; s "-o"; s "a"; s "build"; s "-kj"; s "2"].
Definition both_given : list (str * str) := [(s "--fast", []); (s "-o", s "a"); (s "-k", []); (s "-j", s "2")].
Lemma both_typed : typed (root_first both) ([], both) 0 both_words [s "build"] both_given false.
Proof.
  change both_given with ((s "--fast", @nil N) :: [] ++ (s "-o", s "a") :: [(s "-k", @nil N)] ++ [(s "-j", s "2")]).
  apply (ty_flag _ _ _ _ (once_g [s "--fast"] [s "speed"])); [exists ([], both); split; [usable_here | split; [in_list | now left]] | cbn; lia | discriminate |].
  apply (ty_together_separate _ _ _ (s "o") [] (s "-o")); [| no_such |].
  { eapply to_waiting with (o := with_arg [s "-o"; s "--output"]); [exists ([], both); split; [usable_here | split; [in_list | now left]] | reflexivity]. }
  eapply ty_command with (sub := both_build); [not_option | vm_compute; reflexivity | now left | now left |].
  apply (ty_together_separate _ _ _ (s "kj") [(s "-k", [])] (s "-j")); [| no_such | apply ty_end].
  eapply to_flag with (o := flag [s "-k"; s "--keep"]); [exists ([both], both_build); split; [usable_here | split; now left] | reflexivity |].
  eapply to_waiting with (o := with_arg [s "-j"; s "--jobs"]); [exists ([both], both_build); split; [usable_here | split; [in_list | now left]] | reflexivity].
Qed.
Example C92_example : exists es,
  bash_ready any_ere both /\ bash_named any_ere both /\ has_positionals both /\ clear_definition both /\
  (forall ps c, located both ps c -> clean_scope file_completer ps c) /\
  (forall ps c, located both ps c -> exists argss, fish_script example_env any_ere file_completer true false (ps, c) argss) /\
  (forall ps c, located both ps c -> agreeing_conditions any_ere c) /\
  typed (root_first both) ([], both) 0 both_words [s "build"] both_given false /\ unabbreviated both both_words /\
  parsed both both_words (s "--") [] es /\ located both [both] both_build /\ selected [s "build"] [both] both_build /\ apart ([both], both_build) /\
  (forall p, in_scope ([both], both_build) p -> BashDashes.quiet (seen both both_words (s "--") [] es) p) /\
  run_script both es (seen both both_words (s "--") [] es) =
    Ok ([Words [s "--keep"; s "--jobs"; s "--quiet"; s "--again"]; Words [s "--verbose"; s "--output"; s "--final"; s "--format="]], false).
Proof.
  eexists. split; [apply both_ready |]. split; [apply both_ready |]. split; [exists [], both; split; [apply located_root | right; discriminate] |].
  split; [apply clear_ok; vm_compute; reflexivity |]. split; [apply scope_check_ok; [exact file_clean | vm_compute; reflexivity] |].
  split; [apply script_check_ok; vm_compute; reflexivity |]. split; [apply conditions_ok; vm_compute; reflexivity |]. split; [exact both_typed |].
  split; [apply unabbreviated_ok; vm_compute; reflexivity |]. split; [left; eexists; split; vm_compute; reflexivity |].
  split; [apply located_sub; [apply located_root | now left] |].
  split; [split; [exact I |]; exists (s "build"); split; [split; [vm_compute; discriminate | reflexivity] | now left] |].
  split; [apply apart_ok; vm_compute; reflexivity |]. split; [apply quiet_scope; vm_compute; reflexivity | vm_compute; reflexivity].
Qed.

(** ** Where they do not agree *)

(** What both scripts say for the command [root] itself: the words that Bash offers, and the
    [complete] commands of fish with the truth of their conditions. *)
Definition in_bash (root : cmd) (ws : list str) (cur : str) : res (list str) :=
  do r <- complete1 root ws cur; Ok (words_of (fst (snd r))).
Definition in_bash2 (root : cmd) (ws : list str) (cur : str) : res (list str) :=
  do r <- complete2 root ws cur; Ok (words_of (fst (snd r))).
Definition in_fish (root : cmd) (ws : list str) : res (option (list (list str * list (option bool)))) :=
  do q <- query_init root ws; do r <- commands_of true [] root; Ok (shown (fst q) (generator_block false (snd r))).
Ltac typed_flag o := apply (ty_flag _ _ _ _ o); [eexists ([], _); split; [usable_here | split; [in_list | in_list]] | cbn; lia | discriminate |].

(** A condition that names one string of an option: in Bash it holds if any string of the option
    is typed, in fish only if this one is. *)
Definition other_string : cmd :=
  Cmd (s "tool") None [] None XFalse XTrue XFalse [flag [s "-f"; s "--foo"]; when_flag [s "--bar"] (s "has_option -f")] [positional 1] None.
Theorem C92_other_string_refuted :
  built other_string /\ typed (root_first other_string) ([], other_string) 0 [s "--foo"] [] [(s "--foo", [])] false /\
  in_bash other_string [s "--foo"] (s "--") = Ok [s "--foo"; s "--bar"] /\ in_bash2 other_string [s "--foo"] (s "--") = Ok [s "--foo"; s "--bar"] /\
  exists positional, in_fish other_string [s "--foo"] =
    Ok (Some [([s "-f"; s "--foo"], [Some true]); ([s "--bar"], [Some true; Some false]); ([], positional)]).
Proof.
  split; [by_copy |]. split; [typed_flag (flag [s "-f"; s "--foo"]); apply ty_end |]. split; [vm_compute; reflexivity |]. split; [vm_compute; reflexivity |].
  eexists. vm_compute. reflexivity.
Qed.
Print Assumptions C92_other_string_refuted.

(** A condition on the value of two options: in Bash it holds if the last value of one of them is
    this value, in fish only if the last value of all is. *)
Definition two_options : cmd :=
  Cmd (s "tool") None [] None XFalse XTrue XFalse [with_arg [s "--mode"]; with_arg [s "--type"]; when_flag [s "--bar"] (s "option_is --mode --type -- a")] [positional 1] None.
Theorem C92_two_options_refuted :
  built two_options /\
  typed (root_first two_options) ([], two_options) 0 [s "--mode"; s "a"; s "--type"; s "b"] [] [(s "--mode", s "a"); (s "--type", s "b")] false /\
  in_bash two_options [s "--mode"; s "a"; s "--type"; s "b"] (s "--") = Ok [s "--mode"; s "--type"; s "--bar"] /\
  in_bash2 two_options [s "--mode"; s "a"; s "--type"; s "b"] (s "--") = Ok [s "--mode"; s "--type"; s "--bar"] /\
  exists positional, in_fish two_options [s "--mode"; s "a"; s "--type"; s "b"] =
    Ok (Some [([s "--mode"], [Some true]); ([s "--type"], [Some true]); ([s "--bar"], [Some true; Some false]); ([], positional)]).
Proof.
  split; [by_copy |]. split.
  { apply (ty_separate _ _ _ _ (with_arg [s "--mode"])); [eexists ([], _); split; [usable_here | split; [in_list | in_list]] | cbn; lia | reflexivity |].
    apply (ty_separate _ _ _ _ (with_arg [s "--type"])); [eexists ([], _); split; [usable_here | split; [in_list | in_list]] | cbn; lia | reflexivity | apply ty_end]. }
  split; [vm_compute; reflexivity |]. split; [vm_compute; reflexivity |]. eexists. vm_compute. reflexivity.
Qed.
Print Assumptions C92_two_options_refuted.

(** A positional argument that is not there yet is compared as an empty word in Bash. *)
Definition empty_positional : cmd :=
  Cmd (s "tool") None [] None XFalse XTrue XFalse [when_flag [s "--bar"] (s "positional_contains 1 ''")] [positional 1] None.
Theorem C92_empty_positional_refuted :
  built empty_positional /\ typed (root_first empty_positional) ([], empty_positional) 0 [] [] [] false /\
  in_bash empty_positional [] (s "--") = Ok [s "--bar"] /\ in_bash2 empty_positional [] (s "--") = Ok [s "--bar"] /\
  exists positional, in_fish empty_positional [] = Ok (Some [([s "--bar"], [Some true; Some false]); ([], positional)]).
Proof.
  split; [by_copy |]. split; [apply ty_end |]. split; [vm_compute; reflexivity |]. split; [vm_compute; reflexivity |]. eexists. vm_compute. reflexivity.
Qed.
Print Assumptions C92_empty_positional_refuted.

(** fish does not know abbreviations: an option that may be given once is offered again. *)
Definition abbreviated : cmd :=
  Cmd (s "tool") None [] None XFalse XTrue XFalse [once [s "--verbose"]] [positional 1] None.
Theorem C92_abbreviation_refuted :
  built abbreviated /\ known ([], abbreviated) (s "--verb") (once [s "--verbose"]) /\
  in_bash abbreviated [s "--verb"] (s "--") = Ok [] /\ in_bash2 abbreviated [s "--verb"] (s "--") = Ok [] /\
  exists positional, in_fish abbreviated [s "--verb"] = Ok (Some [([s "--verbose"], [Some true; Some true]); ([], positional)]).
Proof.
  split; [by_copy |]. split.
  { exists ([], abbreviated). split; [now left |]. split; [in_list |]. right. split; [discriminate |]. split; [cbn; lia |].
    exists (s "--verbose"). split; [now left |]. split; [now exists (s "ose") |]. intros z (d & o & Ho & Hz & _ & [-> | [_ []]]) Hn _.
    destruct Ho as [<- | []]. destruct Hz as [<- | []]. now apply Hn. }
  split; [vm_compute; reflexivity |]. split; [vm_compute; reflexivity |]. eexists. vm_compute. reflexivity.
Qed.
Print Assumptions C92_abbreviation_refuted.

(** Conditions of positional arguments: Bash counts the word at the cursor, too, fish does not.
    Behind [tool a], the second argument is completed in fish only. *)
Definition counting : cmd :=
  Cmd (s "tool") None [] None XFalse XTrue XFalse [] [positional 1; MkPos 2 None None [VStr (s "file")] false false (Some (s "positional_count == 1")) None] None.
Theorem C92_count_refuted :
  built counting /\ typed (root_first counting) ([], counting) 0 [s "a"] [s "a"] [] false /\
  (exists es b, complete1 counting [s "a"] [] = Ok (es, ([], b)) /\ complete2 counting [s "a"] [] = Ok (es, ([], b))) /\
  exists first, in_fish counting [s "a"] = Ok (Some [([], first); ([], [Some true; Some true; Some true])]).
Proof.
  split; [by_copy |]. split; [apply ty_word; [not_option | now left | apply ty_end] |].
  split; [eexists; eexists; split; vm_compute; reflexivity |]. eexists. vm_compute. reflexivity.
Qed.
Print Assumptions C92_count_refuted.

(** A hidden option is offered by fish if the user has begun to type it, but never by Bash. *)
Definition hiding : cmd :=
  Cmd (s "tool") None [] None XFalse XTrue XFalse [MkOpt [s "--secret"] None None None false None false XFalse false true None None SepInherit] [positional 1] None.
Theorem C92_hidden_refuted : exists o ds cmds argss args k,
  built hiding /\ c_options hiding = [o] /\ in_bash hiding [] (s "--se") = Ok [] /\ in_bash2 hiding [] (s "--se") = Ok [] /\
  commands_of true [] hiding = Ok (ds, cmds) /\ completes example_env (generator_block false cmds) = Some (args :: argss) /\ complete_args args = Some k /\
  k_options k = o_strings o /\
  map (fish_eval (fish_truth no_match (existsb (starts_with (s "--se"))) (MkQuery [] []) example_env)) (k_conditions k) = [Some true; Some true; Some true].
Proof.
  do 6 eexists. split; [by_copy |]. split; [reflexivity |]. split; [vm_compute; reflexivity |]. split; [vm_compute; reflexivity |].
  split; [vm_compute; reflexivity |]. split; [vm_compute; reflexivity |]. split; [vm_compute; reflexivity |]. split; vm_compute; reflexivity.
Qed.
Print Assumptions C92_hidden_refuted.
