(** * Theorems about the text of the functions of a zsh script: C110. *)
From Verif Require Import Base PyStr Value StrUtils Cli SpecCli SpecParser When SpecWhen Zsh ZshCode SpecZsh SpecChoices SpecZshFunction SpecZshCode
  ZshFunction ZshOffers ZshCodeProofs ZshCodeMain CliExamples PropertiesZsh.
Open Scope string_scope. Open Scope list_scope.

(** ** C110 *)

(** The specification: there is only one way to run the code. *)
Lemma runs_once holds ws x ws1 b1 : runs holds ws x ws1 b1 -> forall ws2 b2, runs holds ws x ws2 b2 -> ws1 = ws2 /\ b1 = b2.
Proof.
  induction 1 as [ws x b E | ws x line rest k r text r' added ws' b E1 E2 E3 E4 E5 _ IH]; intros ws2 b2 H2.
  - inversion H2; subst.
    + split; [reflexivity |]. rewrite E in H. destruct b, b2; (reflexivity || discriminate H).
    + rewrite E in H. destruct b; discriminate H.
  - inversion H2; subst.
    + rewrite H in E1. destruct b2; discriminate E1.
    + rewrite E1 in H. injection H as <- <-. rewrite E2 in H0. injection H0 as <-. rewrite E3 in H1. injection H1 as <-.
      rewrite E4 in H3. injection H3 as <- <-. rewrite E5 in H4. injection H4 as <-. eapply IH; eauto.
Qed.
Lemma runs_options_once holds x ws1 b1 ws2 b2 : runs_options holds x ws1 b1 -> runs_options holds x ws2 b2 -> ws1 = ws2 /\ b1 = b2.
Proof.
  intros (r & t & r' & w & E1 & E2 & E3 & H) (q & t' & q' & w' & E1' & E2' & E3' & H'). rewrite E1 in E1'. injection E1' as <-. rewrite E2 in E2'.
  injection E2' as <- <-. rewrite E3 in E3'. injection E3' as <-. eapply runs_once; eauto.
Qed.

(** When zsh runs the code that the function of a command has for its arguments, [_arguments] gets the
    specifications of those items of the command whose conditions hold, and nothing else; options can
    be joined only if this is configured.  Missing: texts that cannot be written down (see C93), and
    [wraps]. *)
Theorem C110_code_partial : forall option_action positional_action command_action ere e holds root ps c,
  built root -> located root ps c -> good_zenv e ->
  (forall d, In d (c :: ps) -> plain_command d) ->
  (forall d o, In d (c :: ps) -> In o (c_options d) -> plain_texts (option_action (ps, c) o)) ->
  (forall p q, p = (ps, c) \/ In p (ancestors ps) -> In q (c_positionals (snd p)) -> plain_texts (positional_action p q)) ->
  (forall p, p = (ps, c) \/ In p (ancestors ps) -> c_subcommands (snd p) <> None -> plain_texts (command_action p)) ->
  (forall i w, has_item ps c i -> when_of i = Some w -> exists k, zsh_when ere e w = Ok k) ->
  exists r, option_parsing option_action positional_action command_action ere e ps c = Ok r /\
    match r with
    | None => forall i, ~ has_item ps c i
    | Some k => exists words specs items,
        (forall stacking, runs_options holds (option_parsing_text stacking k) words stacking) /\
        read_specs words = Some specs /\ Forall2 (says (option_action (ps, c)) positional_action command_action) items specs /\
        forall i, In i items <-> has_item ps c i /\ item_active (condition ere e) holds i
    end.
Proof.
  intros oa pa ca ere e holds root ps c Hb Hl He Hp Ho Hq Hc Hw.
  destruct (code_all oa pa ca ere e He root ps c Hb Hl Hp Ho Hq Hc Hw holds) as (r & Er & Hr). exists r. split; [exact Er |].
  destruct r as [k |]; [| exact Hr]. destruct Hr as (args & added & _ & -> & _ & _ & words & specs & items & Hrun & H). exists words, specs, items.
  split; [| exact H]. intros stacking. rewrite text_padded. apply Hrun. intros d [].
Qed.
Print Assumptions C110_code_partial.

(** The same for the definition of the function, in which this code is indented and stands behind the
    other parts, if the texts of the definition have one line each. *)
Theorem C110_function_partial : forall option_action positional_action command_action ere e holds root ps c,
  built root -> located root ps c -> good_zenv e ->
  (forall d, In d (c :: ps) -> plain_command d) ->
  (forall d o, In d (c :: ps) -> In o (c_options d) -> plain_texts (option_action (ps, c) o)) ->
  (forall p q, p = (ps, c) \/ In p (ancestors ps) -> In q (c_positionals (snd p)) -> plain_texts (positional_action p q)) ->
  (forall p, p = (ps, c) \/ In p (ancestors ps) -> c_subcommands (snd p) <> None -> plain_texts (command_action p)) ->
  (forall i w, has_item ps c i -> when_of i = Some w -> exists k, zsh_when ere e w = Ok k) ->
  (forall d o, In d (c :: ps) -> In o (c_options d) -> one_line_text (o_help o) /\ one_line_text (o_metavar o) /\ one_line (option_action (ps, c) o)) ->
  (forall p q, p = (ps, c) \/ In p (ancestors ps) -> In q (c_positionals (snd p)) ->
     one_line_text (p_help q) /\ one_line_text (p_metavar q) /\ one_line (positional_action p q)) ->
  (forall p, p = (ps, c) \/ In p (ancestors ps) -> c_subcommands (snd p) <> None -> one_line (command_action p)) ->
  (forall i w, has_item ps c i -> when_of i = Some w -> one_line w) ->
  exists r, option_parsing option_action positional_action command_action ere e ps c = Ok r /\
    match r with
    | None => forall i, ~ has_item ps c i
    | Some k => exists words specs items,
        (forall name others stacking, exists code,
           function_ends_with name (function_code name others stacking (Some k)) code /\ runs_options holds code words stacking) /\
        read_specs words = Some specs /\ Forall2 (says (option_action (ps, c)) positional_action command_action) items specs /\
        forall i, In i items <-> has_item ps c i /\ item_active (condition ere e) holds i
    end.
Proof.
  intros oa pa ca ere e holds root ps c Hb Hl He Hp Ho Hq Hc Hw Lo Lq Lc Lw.
  exact (function_runs oa pa ca ere e He root ps c Hb Hl Hp Ho Hq Hc Hw Lo Lq Lc holds Lw).
Qed.
Print Assumptions C110_function_partial.

Definition z_false (x : str) : bool := negb (str_eqb x (s "_tool_query option_is -- --mode -- x")).
Definition z_others : list str := [s "local opts='-v'"; []; s "case x in" ++ [LF] ++ s "esac"].
Lemma line_check (x : str) : negb (memc LF x) = true -> one_line x.
Proof. intros H K. apply negb_true_iff in H. assert (memc LF x = true); [| congruence]. apply existsb_exists. exists LF. split; [exact K | reflexivity]. Qed.
Example C110_example : good_zenv z_env /\ located z_tool [z_tool] z_build /\
  (forall d o, In d [z_build; z_tool] -> In o (c_options d) -> one_line_text (o_help o) /\ one_line_text (o_metavar o) /\ one_line (z_action ([z_tool], z_build) o)) /\
  (forall i w, has_item [z_tool] z_build i -> when_of i = Some w -> one_line w) /\
  exists k words specs, option_parsing z_action z_positional z_command (fun _ => true) z_env [z_tool] z_build = Ok (Some k) /\
    function_code (s "_tool_build") z_others true (Some k) = join [LF] [
      s "_tool_build() {"; s "  local opts='-v'"; []; s "  case x in"; s "  esac"; []; s "  local -a args=(";
      s "    '(--jobs -j)'{-j+,--jobs=}:' ':""{_say 'a\\:b'}"""; s "    '*'{-v,--verbose}'[Show \[all\]\: more]'";
      s "    '(--mode)'--mode=-:'a\:b':""{_say 'a\\:b'}"""; s "    '(--off --on)'--on"; s "    '(--on --off)'--off"; s "    '(- *)'--version";
      s "    1:command1:""((build\\:'Build it' b))"""; s "    2:TARGET:_files"; s "  )"; s "  _tool_query option_is -- --mode -- x &&\";
      s "    args+=('(--color)'--color=-:' ':""{_say 'a\\:b'}"")"; s "  _arguments -S -s -w ""${args[@]}"""; s "}"] /\
    runs_options z_false (option_parsing_text false k) words false /\ read_specs words = Some specs /\
    words = [s "(--jobs -j)-j+: :{_say 'a\:b'}"; s "(--jobs -j)--jobs=: :{_say 'a\:b'}"; s "*-v[Show \[all\]\: more]"; s "*--verbose[Show \[all\]\: more]";
             s "(--mode)--mode=-:a\:b:{_say 'a\:b'}"; s "(--off --on)--on"; s "(--on --off)--off"; s "(- *)--version";
             s "1:command1:((build\:'Build it' b))"; s "2:TARGET:_files"].
Proof.
  split; [| split; [exact z_build_located | split; [| split]]].
  - repeat split; discriminate.
  - intros d o [<- | [<- | []]] Ho.
    + destruct Ho as [<- | []]. repeat split; try exact I; apply line_check; reflexivity.
    + destruct Ho as [<- | [<- | [<- | [<- | [<- | [<- | []]]]]]]; repeat split; try exact I; apply line_check; reflexivity.
  - intros i w Hi Hw. destruct i as [owner o x | p q | p]; cbn [when_of] in Hw; [| | discriminate].
    + destruct Hi as [Ho _]. apply option_of_in in Ho. destruct Ho as [[<- | [<- | []]] Ho].
      * destruct Ho as [<- | []]. discriminate.
      * destruct Ho as [<- | [<- | [<- | [<- | [<- | [<- | []]]]]]]; try discriminate. injection Hw as <-. apply line_check. reflexivity.
    + destruct Hi as [[-> | [<- | []]] Hq]; [| destruct Hq]. destruct Hq as [<- | []]. discriminate.
  - eexists _, _, _. split; [vm_compute; reflexivity |]. split; [vm_compute; reflexivity |]. split.
    + eexists _, _, _, _. split; [vm_compute; reflexivity |]. split; [vm_compute; reflexivity |]. split; [vm_compute; reflexivity |].
      eapply runs_add; [vm_compute; reflexivity .. |]. vm_compute. apply runs_call. vm_compute. reflexivity.
    + split; vm_compute; reflexivity.
Qed.

(** The whole text is indented, also the lines within quotes: of a description with two lines, the
    second one is changed. *)
Definition two_lines : str := s "Be quiet" ++ [LF] ++ s "or not".
Definition z_quiet : opt := MkOpt [s "--quiet"] None (Some two_lines) None false None false XFalse false false None None SepBoth.
Theorem C110_indentation_refuted : exists o, let root := z_single o in
  built root /\ plain_command root /\ c_options root = [o] /\
  exists k, option_parsing z_action z_positional z_command (fun _ => true) z_env [] root = Ok (Some k) /\
    exists words z, (forall holds stacking, exists code,
        function_ends_with (s "_tool") (function_code (s "_tool") [] stacking (Some k)) code /\
        (forall words', runs_options holds code words' stacking <-> words' = words)) /\
      read_specs words = Some [SpecOption z] /\ z_description z <> o_help o.
Proof.
  exists z_quiet. cbn zeta. split; [by_copy |]. split; [apply plain_command_ok; vm_compute; reflexivity |]. split; [reflexivity |].
  eexists. split; [vm_compute; reflexivity |]. exists [s "(--quiet)--quiet[Be quiet" ++ [LF] ++ s "  or not]"]. eexists. split; [| split].
  - intros holds stacking. eexists. split; [apply function_ends; reflexivity |]. 
    assert (forall b words, runs_options holds (indent (option_parsing_text b
       (ZCode (LF :: s "  '(--quiet)'--quiet'[Be quiet" ++ [LF] ++ s "or not]'" ++ [LF]) [])) 2) words b <-> words = [s "(--quiet)--quiet[Be quiet" ++ [LF] ++ s "  or not]"]) as H.
    { intros b. assert (runs_options holds (indent (option_parsing_text b
       (ZCode (LF :: s "  '(--quiet)'--quiet'[Be quiet" ++ [LF] ++ s "or not]'" ++ [LF]) [])) 2) [s "(--quiet)--quiet[Be quiet" ++ [LF] ++ s "  or not]"] b) as R.
      { destruct b; (eexists _, _, _, _; split; [vm_compute; reflexivity |]; split; [vm_compute; reflexivity |]; split; [vm_compute; reflexivity |]; vm_compute; apply runs_call; vm_compute; reflexivity). }
      intros words. split; [intros R'; now destruct (runs_options_once _ _ _ _ _ _ R' R) | intros ->; exact R]. }
    apply H.
  - vm_compute. reflexivity.
  - vm_compute. discriminate.
Qed.
Print Assumptions C110_indentation_refuted.
