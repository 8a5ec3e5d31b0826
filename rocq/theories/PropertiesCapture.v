(** * Theorems about captured options: C106. *)
From Verif Require Import Base PyStr Value Shell ShellProofs SpecShell Cli CliExamples CliProofs CliMore SpecCli DictSourceProofs GenerationProofs
  BashUtils BashParser SpecParser ParserCheck
  FishRuntime FishQuery SpecQuery FishQueryMain PropertiesQuery ZshQuery SpecZshQuery ZshQueryMain PropertiesZshQuery
  Zsh Capture SpecCapture CaptureProofs.
Open Scope string_scope. Open Scope list_scope.

(** ** C106 *)

(** In zsh the variable of an option holds its value, if it was given at most once.  Missing: options
    that are given several times, empty values, and values with a dollar, a backslash, the letter n or
    a newline (see the refutations); options of the commands above, whose functions read the command
    line without knowing the options of the sub-command. *)
Theorem C106_zsh_partial : forall query unquote root ws raw positionals given waiting rs c o v,
  built root -> clear_definition root ->
  typed anywhere ([], root) 0 ws positionals given waiting -> ws = map unquote raw ->
  unmistakable root ws -> (In (s "--") ws -> forall w, In w raw -> unquote w = w) -> (forall w, In w ws -> ~ In LF w) ->
  located root rs c -> leads_to positionals rs c ->
  In o (c_options c) -> o_capture o = Some v ->
  (forall o', In o' (c_options c) -> o_capture o' = Some v -> o_strings o' = o_strings o) ->
  (values_given given o = [] \/
   exists x, values_given given o = [x] /\ x <> [] /\ ~ In LF x /\ ~ In DOLLAR x /\ ~ In BS x /\ ~ In 110%N x) ->
  completing unquote root [] root raw = Ok (rs, c) /\
  exists variables sets, reads_captures query (option_capture_text query (captures c)) variables sets /\ In v variables /\
    holds_after (zget_option (zquery unquote root rs c raw)) sets v [] = values_given given o.
Proof.
  intros query unquote root ws raw positionals given waiting rs c o v Hb Hd Ht E Hu Hq Hlf Hl Hle Ho Hc Hs Hv.
  destruct (C95_zsh_reads_partial unquote root ws raw positionals given waiting rs c) as [H1 H2]; auto. split; [exact H1 |].
  pose proof (built_valid root rs c Hb Hl) as Hval. exists (map fst (captures c)), (sets_of (captures c)). split; [now apply captures_read |].
  split.
  { apply (in_map fst _ (v, o_strings o)). apply captures_In. exists o. destruct Hval as (_ & _ & Hov & _). destruct (Hov o Ho) as (_ & _ & H3 & _).
    destruct (variable_word v (H3 v Hc)) as [Hn _]. auto. }
  rewrite (zsh_holds_fields _ c o v Hval Ho Hc Hs), H2. cbn [q_options]. destruct Hv as [-> | (x & -> & Hx1 & Hx2 & Hx3 & Hx4 & Hx5)]; [reflexivity |].
  cbn [flat_map]. rewrite app_nil_r. apply fields_one; [exact Hx1 | exact Hx2 |]. intros d Hdx.
  destruct (memc d bad_ifs) eqn:Em; [| reflexivity]. exfalso. apply memc_In in Em. destruct Em as [<- | [<- | [<- | []]]]; contradiction.
Qed.
Print Assumptions C106_zsh_partial.

(** In fish the variable of an option holds its values, one for each time it was given, in order.
    Missing: command lines that C83 leaves out; variables of different options (see the refutation);
    captured options with special characters (see the refutation). *)
Theorem C106_fish_partial : forall f root ws positionals given waiting rs c o v,
  built root -> clear_definition root ->
  typed (root_first root) ([], root) 0 ws positionals given waiting -> (forall w, In w ws -> ~ In LF w) ->
  f <> [] -> (forall d, In d f -> fish_special d = false) -> fish_harmless root ->
  located root rs c -> In o (c_options c) -> o_capture o = Some v -> unshared root v o ->
  exists q, query_init root ws = Ok (q, waiting) /\
    forall before, exists after, runs_captures f (fish_captured q) before (fish_capture_lines f root) after /\ after v = values_given given o.
Proof.
  intros f root ws positionals given waiting rs c o v Hb Hd Ht Hlf Hf1 Hf2 Hh Hl Ho Hc Hun.
  exists (MkQuery positionals given). split; [now apply C83_query_partial |]. intros before. set (q := MkQuery positionals given).
  set (l := capture_list (visit_commandlines [] root)).
  assert (Hin : forall o', In o' l -> exists rs' c', located root rs' c' /\ In o' (c_options c') /\ o_capture o' <> None).
  { intros o' H. apply capture_list_In in H as (ps & c' & H1 & H2 & H3). exists ps, c'. split; [now apply visited | auto]. }
  assert (Hval : forall o', In o' l -> valid_option o').
  { intros o' H. destruct (Hin o' H) as (rs' & c' & H1 & H2 & _). destruct (built_valid root rs' c' Hb H1) as (_ & _ & K & _). now apply K. }
  exists (env_after q l before). split.
  - rewrite lines_eq. fold l. apply runs_lines; [exact Hf1 | exact Hf2 | |].
    + intros o' H. destruct (Hin o' H) as (rs' & c' & H1 & H2 & H3). destruct (Hval o' H) as (_ & K1 & K2 & _).
      destruct (o_capture o') as [v' |] eqn:E; [| congruence]. exists v'. split; [reflexivity |]. split; [now apply K2 |].
      intros x Hx. split; [destruct (K1 x Hx) as (y & -> & _); discriminate |]. intros d Hdx. apply (Hh rs' c' o' x d); auto. congruence.
    + intros o' H. now destruct (Hval o' H).
  - apply env_same.
    + intros o' H E. destruct (Hin o' H) as (rs' & c' & H1 & H2 & _). unfold values_given. now rewrite (Hun rs' c' o' H1 H2 E).
    + intros o' H. now destruct (Hin o' H) as (_ & _ & _ & _ & K).
    + right. exists o. split; [| exact Hc]. apply capture_list_In. exists rs, c. split; [now apply visited | split; [exact Ho | congruence]].
Qed.
Print Assumptions C106_fish_partial.

(** my_db_tool [-d|--database NAME] [-v] *)
Definition captured (x : list str) (v : str) : opt :=
  MkOpt x None None (Some [VStr (s "file")]) false None false XTrue false false None (Some v) SepInherit.
Definition db_option : opt := captured [s "-d"; s "--database"] (s "_DB").
Definition db_tool : cmd := Cmd (s "my_db_tool") None [] None XFalse XFalse XFalse [db_option; flag [s "-v"]] [] None.
Lemma db_built : built db_tool.
Proof. by_copy. Qed.
Lemma db_clear : clear_definition db_tool.
Proof. apply clear_ok; vm_compute; reflexivity. Qed.
Lemma db_typed x usable : usable = anywhere \/ usable = root_first db_tool ->
  typed usable ([], db_tool) 0 [s "--database"; x] [] [(s "--database", x)] false.
Proof.
  intros Hu. apply (ty_separate _ _ _ (s "--database") db_option x []); [| cbn; lia | reflexivity | apply ty_end].
  exists ([], db_tool). split; [destruct Hu as [-> | ->]; [now left | usable_here] | split; [now left | right; now left]].
Qed.
Lemma db_leads : leads_to [] [] db_tool.
Proof. split; [exact I | intros sub []]. Qed.
Example C106_zsh_example : built db_tool /\ clear_definition db_tool /\ typed anywhere ([], db_tool) 0 [s "--database"; s "mysql"] [] [(s "--database", s "mysql")] false /\
  exists variables sets, reads_captures (s "q") (option_capture_text (s "q") (captures db_tool)) variables sets /\ In (s "_DB") variables /\
    holds_after (zget_option (zquery no_quotes db_tool [] db_tool [s "--database"; s "mysql"])) sets (s "_DB") [] = [s "mysql"].
Proof.
  split; [exact db_built |]. split; [exact db_clear |]. split; [apply db_typed; auto |].
  destruct (C106_zsh_partial (s "q") no_quotes db_tool [s "--database"; s "mysql"] [s "--database"; s "mysql"] [] [(s "--database", s "mysql")] false [] db_tool db_option (s "_DB")) as [_ H];
    [exact db_built | exact db_clear | apply db_typed; auto | reflexivity | apply unmistakable_ok; vm_compute; reflexivity
     | intros K; cbn in K; repeat (destruct K as [K | K]; [discriminate K |]); destruct K
     | no_newline | constructor | exact db_leads | now left | reflexivity | intros o' [<- | [<- | []]] E; [reflexivity | discriminate E] | | exact H].
  right. exists (s "mysql"). split; [reflexivity |]. split; [discriminate |].
  repeat split; intros K; cbn in K; repeat (destruct K as [K | K]; [discriminate K |]); exact K.
Qed.
(** Twice, the second time with a letter n and a dollar *)
Example C106_fish_example : built db_tool /\ clear_definition db_tool /\ fish_harmless db_tool /\ unshared db_tool (s "_DB") db_option /\
  exists q, query_init db_tool [s "--database"; s "mysql"; s "-dno$"] = Ok (q, false) /\
    forall before, exists after, runs_captures (s "_my_db_tool_capture_option") (fish_captured q) before (fish_capture_lines (s "_my_db_tool_capture_option") db_tool) after /\
      after (s "_DB") = [s "mysql"; s "no$"].
Proof.
  split; [exact db_built |]. split; [exact db_clear |].
  assert (Hloc : forall rs c, located db_tool rs c -> c = db_tool) by (intros rs c Hl; apply visited in Hl; destruct Hl as [E | []]; now injection E).
  assert (Hh : fish_harmless db_tool).
  { intros rs c o x d Hl Ho Hc Hx Hdx. rewrite (Hloc rs c Hl) in Ho. destruct Ho as [<- | [<- | []]]; [| destruct Hc; reflexivity].
    assert (K : forallb (fun d => negb (fish_special d)) (s "-d" ++ s "--database") = true) by reflexivity. rewrite forallb_forall in K.
    apply negb_true_iff, K, in_or_app. destruct Hx as [<- | [<- | []]]; auto. }
  assert (Hun : unshared db_tool (s "_DB") db_option).
  { intros rs c o' Hl Ho E. rewrite (Hloc rs c Hl) in Ho. destruct Ho as [<- | [<- | []]]; [reflexivity | discriminate E]. }
  split; [exact Hh |]. split; [exact Hun |].
  apply (C106_fish_partial (s "_my_db_tool_capture_option") db_tool [s "--database"; s "mysql"; s "-dno$"] [] [(s "--database", s "mysql"); (s "-d", s "no$")] false [] db_tool db_option (s "_DB"));
    [exact db_built | exact db_clear | | no_newline | discriminate | | exact Hh | constructor | now left | reflexivity | exact Hun].
  - apply (ty_separate _ _ _ (s "--database") db_option (s "mysql")); [exists ([], db_tool); split; [usable_here | split; [now left | right; now left]] | cbn; lia | reflexivity |].
    change [(s "-d", s "no$")] with ([(s "-d", s "no$")] ++ []). apply (ty_together _ _ _ (s "dno$") [(s "-d", s "no$")]); [discriminate | | | apply ty_end].
    + eapply to_attached with (o := db_option); [exists ([], db_tool); split; [usable_here | split; [now left | now left]] | reflexivity | discriminate | discriminate].
    + no_such.
  - intros d Hdx. apply (word_harmless (s "_my_db_tool_capture_option")); [reflexivity | exact Hdx].
Qed.

(** The separators in zsh are a dollar, a backslash and the letter n: [json] becomes [jso]. *)
Theorem C106_zsh_letter_refuted : exists root ws given c o v variables sets,
  built root /\ clear_definition root /\ typed anywhere ([], root) 0 ws [] given false /\ unmistakable root ws /\ located root [] c /\ leads_to [] [] c /\
  In o (c_options c) /\ o_capture o = Some v /\ values_given given o = [s "json"] /\
  reads_captures (s "q") (option_capture_text (s "q") (captures c)) variables sets /\
  holds_after (zget_option (zquery (fun w => w) root [] c ws)) sets v [] = [s "jso"].
Proof.
  exists db_tool, [s "--database"; s "json"], [(s "--database", s "json")], db_tool, db_option, (s "_DB"), (map fst (captures db_tool)), (sets_of (captures db_tool)).
  split; [exact db_built |]. split; [exact db_clear |]. split; [apply db_typed; auto |]. split; [apply unmistakable_ok; vm_compute; reflexivity |].
  split; [constructor |]. split; [exact db_leads |]. split; [now left |]. split; [reflexivity |]. split; [reflexivity |].
  split; [apply captures_read, (built_valid db_tool [] db_tool db_built); constructor | vm_compute; reflexivity].
Qed.
Print Assumptions C106_zsh_letter_refuted.
(** Newlines do not separate: two values become one element. *)
Theorem C106_zsh_twice_refuted : exists root ws given c o v variables sets,
  built root /\ clear_definition root /\ typed anywhere ([], root) 0 ws [] given false /\ unmistakable root ws /\ located root [] c /\ leads_to [] [] c /\
  In o (c_options c) /\ o_capture o = Some v /\ values_given given o = [s "mysql"; s "sqlite"] /\
  reads_captures (s "q") (option_capture_text (s "q") (captures c)) variables sets /\
  holds_after (zget_option (zquery (fun w => w) root [] c ws)) sets v [] = [s "mysql" ++ [LF] ++ s "sqlite"].
Proof.
  exists db_tool, [s "--database"; s "mysql"; s "-d"; s "sqlite"], [(s "--database", s "mysql"); (s "-d", s "sqlite")], db_tool, db_option, (s "_DB"),
    (map fst (captures db_tool)), (sets_of (captures db_tool)).
  split; [exact db_built |]. split; [exact db_clear |]. split.
  { apply (ty_separate _ _ _ (s "--database") db_option (s "mysql")); [exists ([], db_tool); split; [now left | split; [now left | right; now left]] | cbn; lia | reflexivity |].
    change [(s "-d", s "sqlite")] with ([] ++ (s "-d", s "sqlite") :: []). apply (ty_together_separate _ _ _ (s "d") [] (s "-d")); [| | apply ty_end].
    + eapply to_waiting with (o := db_option); [exists ([], db_tool); split; [now left | split; [now left | now left]] | reflexivity].
    + no_such. }
  split; [apply unmistakable_ok; vm_compute; reflexivity |].
  split; [constructor |]. split; [exact db_leads |]. split; [now left |]. split; [reflexivity |]. split; [reflexivity |].
  split; [apply captures_read, (built_valid db_tool [] db_tool db_built); constructor | vm_compute; reflexivity].
Qed.
Print Assumptions C106_zsh_twice_refuted.
(** In fish, an option of another command with the same variable removes the values. *)
Definition sh_show : cmd := Cmd (s "show") None [] None XFalse XFalse XFalse [captured [s "--database"] (s "_DB")] [] None.
Definition sh_copy : cmd := Cmd (s "copy") None [] None XFalse XFalse XFalse [captured [s "--source"] (s "_DB")] [] None.
Definition sh_tool : cmd := Cmd (s "tool") None [] None XFalse XFalse XFalse [] [] (Some [sh_show; sh_copy]).
Theorem C106_fish_shared_refuted : exists root ws positionals given rs c o v q after,
  built root /\ clear_definition root /\ typed (root_first root) ([], root) 0 ws positionals given false /\ located root rs c /\ leads_to positionals rs c /\
  In o (c_options c) /\ o_capture o = Some v /\ values_given given o = [s "x"] /\
  query_init root ws = Ok (q, false) /\
  runs_captures (s "f") (fish_captured q) (fun _ => []) (fish_capture_lines (s "f") root) after /\ after v = [].
Proof.
  exists sh_tool, [s "show"; s "--database"; s "x"], [s "show"], [(s "--database", s "x")], [sh_tool], sh_show, (captured [s "--database"] (s "_DB")), (s "_DB"),
    (MkQuery [s "show"] [(s "--database", s "x")]).
  eexists. split; [by_copy |]. split; [apply clear_ok; vm_compute; reflexivity |]. split.
  { eapply ty_command with (sub := sh_show); [intros (c & w & E); discriminate E | reflexivity | now left | now left |].
    apply (ty_separate _ _ _ (s "--database") (captured [s "--database"] (s "_DB")) (s "x") []); [| cbn; lia | reflexivity | apply ty_end].
    exists ([sh_tool], sh_show). split; [usable_here | split; now left]. }
  split; [apply located_sub; [constructor | now left] |]. split.
  { split; [| intros sub []]. split; [exact I |]. exists (s "show"). split; [split; [discriminate | reflexivity] |]. now left. }
  split; [now left |]. split; [reflexivity |]. split; [reflexivity |]. split; [vm_compute; reflexivity |]. split.
  - rewrite lines_eq. eapply rc_line; [reflexivity |]. eapply rc_line; [reflexivity |]. apply rc_end.
  - reflexivity.
Qed.
Print Assumptions C106_fish_shared_refuted.
(** In fish, the strings of captured options are not quoted. *)
Theorem C106_fish_special_refuted : exists root c o, built root /\ located root [] c /\ In o (c_options c) /\ o_capture o = Some (s "_ALL") /\
  forall q before after, ~ runs_captures (s "f") (fish_captured q) before (fish_capture_lines (s "f") root) after.
Proof.
  exists (Cmd (s "tool") None [] None XFalse XFalse XFalse [captured [s "-*"] (s "_ALL")] [] None),
    (Cmd (s "tool") None [] None XFalse XFalse XFalse [captured [s "-*"] (s "_ALL")] [] None), (captured [s "-*"] (s "_ALL")).
  split; [by_copy |]. split; [constructor |]. split; [now left |]. split; [reflexivity |]. intros q before after H. inversion H as [| ? ? ? ? ? ? E _].
  vm_compute in E. discriminate E.
Qed.
Print Assumptions C106_fish_special_refuted.
