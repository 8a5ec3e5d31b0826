(** * Theorems about the functions of zsh scripts: C105. *)
From Verif Require Import Base PyStr Value Shell ShellProofs SpecShell Cli CliExamples CliProofs CliMore SpecCli SpecDict DictSourceProofs GenerationProofs
  SpecHelpers Helpers HelpersMore PropertiesHelpers BashUtils BashParser SpecParser ParserCheck
  FishRuntime FishQuery SpecQuery PropertiesQuery ZshQuery SpecZshQuery ZshQueryMain PropertiesZshQuery
  Zsh ZshScript SpecZshScript ZshScriptProofs.
Open Scope string_scope. Open Scope list_scope.

(** ** C105 *)

(** Started in the function of the root, a zsh script ends in the function of the command that the
    command line selects.  Missing: definitions and command lines that C95 leaves out; commands without
    a name and names that start with an equals sign; different commands with functions of the same name
    (see the refutation).  The rest of the sections, which offer options and arguments, is the subject
    of C92 to C94. *)
Theorem C105_zsh_dispatch_partial : forall prefix query unquote root ws raw positionals given waiting rs c,
  built root -> clear_definition root -> plain_names root -> different_functions prefix root ->
  (exists d, In d prefix /\ is_word d = true) ->
  typed anywhere ([], root) 0 ws positionals given waiting -> ws = map unquote raw ->
  unmistakable root ws -> (In (s "--") ws -> forall w, In w raw -> unquote w = w) -> (forall w, In w ws -> ~ In LF w) ->
  located root rs c -> leads_to positionals rs c ->
  exists scr, script prefix query root = Ok scr /\
    leaves_to query (fun opts n => get_positional (zquery_init unquote (get_macros root) opts raw) (Z.of_nat n)) scr
      (make_completion_funcname prefix [] root []) (make_completion_funcname prefix rs c []).
Proof.
  intros prefix query unquote root ws raw positionals given waiting rs c Hb Hd Hn Hdiff Hp Ht E Hu Hq Hlf Hl Hle.
  destruct (script_total prefix query root) as (scr & Hs). exists scr. split; [exact Hs |].
  apply (hands_over prefix query root Hp Hn scr Hs Hdiff unquote raw (S (size root))); [lia | constructor |].
  eapply completing_right; eauto.
Qed.
Print Assumptions C105_zsh_dispatch_partial.

(** Functions have different names if the names of all sub-commands consist of letters and digits. *)
Theorem C105_names_partial : forall prefix root, built root ->
  (forall ps c, located root ps c -> ps <> [] -> alnum (c_prog c)) -> different_functions prefix root.
Proof.
  intros prefix root Hb Ha. unfold different_functions.
  apply (NoDup_via (fun pc => path_of (fst pc) (snd pc))).
  { apply (visit_paths_NoDup (S (size root))); [lia | now apply built_wfc]. }
  assert (Hbelow : forall ps c, located root ps c -> forall x, In x (path_below_root ps c) -> alnum x).
  { unfold path_below_root. induction 1 as [| ps c sub Hl IH Hs]; [intros x [] |].
    destruct (path_root root ps c Hl) as (l & E). cbn [rev]. rewrite E in IH |- *. cbn [map app tl] in *. intros x Hx.
    rewrite map_app in Hx. apply in_app_iff in Hx as [Hx | [<- | []]]; [now apply IH |].
    apply (Ha (c :: ps)); [now apply located_sub | discriminate]. }
  intros [ps1 c1] [ps2 c2] H1 H2 E. cbn [fst snd] in *. apply visited in H1, H2.
  pose proof (C64_paths_partial prefix ps1 c1 ps2 c2 [] (Hbelow _ _ H1) (Hbelow _ _ H2) E) as K.
  unfold path_below_root in K. unfold path_of. cbn [rev].
  destruct (path_root root ps1 c1 H1) as (l1 & E1). destruct (path_root root ps2 c2 H2) as (l2 & E2). rewrite E1, E2 in *. cbn [map tl] in *. now rewrite K.
Qed.
Print Assumptions C105_names_partial.

(** Deciding the hypotheses for the examples *)
Definition plain_check (root : cmd) : bool :=
  forallb (fun p => negb (str_eqb (c_prog (snd p)) []) &&
    forallb (fun sub => match get_all_command_variations sub (Some (snd p)) with Ok l => forallb (fun w => negb (N.eqb (hd 0%N w) EQ)) l | _ => false end)
      (subs (snd p))) (visit_commandlines [] root).
Lemma plain_ok root : plain_check root = true -> plain_names root.
Proof.
  intros H ps c Hl. apply visited in Hl. unfold plain_check in H. rewrite forallb_forall in H. specialize (H _ Hl). cbn [snd] in H.
  apply andb_prop in H as [H1 H2]. split.
  - intros E. rewrite E in H1. discriminate H1.
  - intros sub cmds w Hs Hc Hw. rewrite forallb_forall in H2. specialize (H2 _ Hs). rewrite Hc in H2. rewrite forallb_forall in H2. specialize (H2 _ Hw).
    apply negb_true_iff, N.eqb_neq in H2. exact H2.
Qed.
Fixpoint nodup_check (l : list str) : bool := match l with [] => true | x :: l' => negb (mems x l') && nodup_check l' end.
Lemma nodup_ok l : nodup_check l = true -> NoDup l.
Proof.
  induction l as [| x l IH]; intros H; [constructor |]. cbn [nodup_check] in H. apply andb_prop in H as [H1 H2]. constructor; [| auto].
  intros K. apply negb_true_iff in H1. apply mems_In in K. congruence.
Qed.
(** [tool ... b ... deep-er]: through the functions of the root and of [build] to that of [deep-er] *)
Example C105_example : built q_tool /\ clear_definition q_tool /\ plain_names q_tool /\ different_functions (s "_tool") q_tool /\
  exists scr, script (s "_tool") (s "_tool_query") q_tool = Ok scr /\
    leaves_to (s "_tool_query") (fun opts n => get_positional (zquery_init no_quotes (get_macros q_tool) opts zq_raw) (Z.of_nat n)) scr
      (s "_tool") (make_completion_funcname (s "_tool") [q_build; q_tool] q_deep []).
Proof.
  split; [exact q_tool_built |]. split; [exact q_tool_clear |].
  assert (Hp : plain_names q_tool) by (apply plain_ok; vm_compute; reflexivity). split; [exact Hp |].
  assert (Hd : different_functions (s "_tool") q_tool) by (apply nodup_ok; vm_compute; reflexivity). split; [exact Hd |].
  destruct C95_example as (E1 & E2 & E3 & E4 & E5 & E6 & E7 & E8 & _).
  change (s "_tool") with (make_completion_funcname (s "_tool") [] q_tool []) at 2.
  eapply C105_zsh_dispatch_partial; eauto; [exists UND; split; [now left | reflexivity] | intros K; destruct (E5 K)].
Qed.
Example C105_names_example : built r_remote /\ different_functions (s "_remote") r_remote.
Proof.
  split; [by_copy |]. apply C105_names_partial; [by_copy |]. intros ps c Hl Hne. apply visited in Hl.
  change (visit_commandlines [] r_remote) with [([], r_remote); ([r_remote], r_add)] in Hl.
  destruct Hl as [E | [E | []]]; injection E as <- <-; [congruence |]. split; [discriminate | reflexivity].
Qed.

(** [tool remote add] and [tool remote-add] have one function; the later definition replaces the
    earlier, so that [tool remote add] is completed like [tool remote-add]. *)
Definition c105_add := leaf (s "add") [].
Definition c105_remote := leaf (s "remote") [c105_add].
Definition c105_deep := leaf (s "deep") [].
Definition c105_remote_add := leaf (s "remote-add") [c105_deep].
Definition c105_tool := leaf (s "tool") [c105_remote; c105_remote_add].
Theorem C105_overwritten_refuted : exists root ws positionals rs c rs' c' scr x y,
  built root /\ clear_definition root /\ plain_names root /\
  typed anywhere ([], root) 0 ws positionals [] false /\ unmistakable root ws /\ (forall w, In w ws -> ~ In LF w) /\ ~ In (s "--") ws /\
  located root rs c /\ leads_to positionals rs c /\
  script (s "_tool") (s "q") root = Ok scr /\
  sections_of (s "_tool") (s "q") rs c = Ok x /\
  defined scr (make_completion_funcname (s "_tool") rs c []) y /\ x <> y /\
  located root rs' c' /\ c' <> c /\ sections_of (s "_tool") (s "q") rs' c' = Ok y.
Proof.
  destruct (script (s "_tool") (s "q") c105_tool) as [e | scr] eqn:Es; [vm_compute in Es; discriminate Es |].
  destruct (sections_of (s "_tool") (s "q") [c105_tool] c105_remote_add) as [e | y] eqn:Ey; [vm_compute in Ey; discriminate Ey |].
  exists c105_tool, [s "remote"; s "add"], [s "remote"; s "add"], [c105_remote; c105_tool], c105_add, [c105_tool], c105_remote_add, scr, (Sections [] []), y.
  split; [by_copy |]. split; [apply clear_ok; vm_compute; reflexivity |]. split; [apply plain_ok; vm_compute; reflexivity |]. split.
  { eapply ty_command with (sub := c105_remote); [intros (c & w & E); discriminate E | reflexivity | now left | now left |].
    eapply ty_command with (sub := c105_add); [intros (c & w & E); discriminate E | reflexivity | now left | now left | apply ty_end]. }
  split; [apply unmistakable_ok; vm_compute; reflexivity |]. split; [no_newline |].
  split; [intros K; cbn in K; repeat (destruct K as [K | K]; [discriminate K |]); exact K |].
  assert (L : located c105_tool [c105_tool] c105_remote_add) by (apply located_sub; [constructor | right; now left]).
  split; [apply located_sub; [apply located_sub; [constructor | now left] | now left] |]. split.
  { split; [| intros sub []]. split.
    - split; [exact I |]. exists (s "remote"). split; [split; [discriminate | reflexivity] |]. now left.
    - exists (s "add"). split; [split; [discriminate | reflexivity] |]. now left. }
  split; [exact Es |]. split; [vm_compute; reflexivity |]. split.
  { vm_compute in Es, Ey. injection Es as <-. injection Ey as <-. eexists [_; _; _], [_]. split; [reflexivity |].
    intros [K | []]. vm_compute in K. discriminate K. }
  split; [intros <-; vm_compute in Ey; discriminate Ey |]. split; [exact L |]. split; [discriminate | exact Ey].
Qed.
Print Assumptions C105_overwritten_refuted.
