(** * Theorems about the specifications for [_arguments] in zsh scripts: C41, C93, C94. *)
From Verif Require Import Base PyStr Value StrUtils Shell Cli CliExamples CliProofs CliMore SpecCli When SpecParser SpecOffered
  ParserPaths ParserCheck ZshUtils SpecZsh SpecZshFunction ZshReading ZshSpecs Zsh ZshFunction ZshOffers.
Open Scope list_scope.

(** ** C41 *)

(** Full claim: the escaped texts are read as the texts that were escaped.  It is false, because
    backslashes are not escaped: *)
Theorem C41_description_refuted : exists d,
  read_description (s "[" ++ escape_colon (escape_square_brackets d) ++ s "]") <> Some (Some d, []).
Proof. exists (s "a\]b"). vm_compute. discriminate. Qed.
Print Assumptions C41_description_refuted.
Theorem C41_message_refuted : exists m action,
  read_message true (escape_colon m ++ s ":" ++ escape_colon action) <> (m, action, []).
Proof. exists (s "dir\"), (s "_files"). vm_compute. discriminate. Qed.
Print Assumptions C41_message_refuted.

(** It is true unless a backslash is in front of a backslash or a special character, or at the end. *)
Theorem C41_description_partial : forall d rest, tame [COLON; LBRK; RBRK] d = true ->
  read_description (s "[" ++ escape_colon (escape_square_brackets d) ++ s "]" ++ rest) = Some (Some d, rest).
Proof.
  intros d rest H. unfold read_description. cbn [starts memc existsb N.eqb Pos.eqb orb tl app]. rewrite brackets_escaped.
  change (s "[" ++ ?x) with (LBRK :: x). cbn [starts tl]. change (memc LBRK [LBRK]) with true. cbn iota.
  rewrite (upto_escaped [COLON; LBRK; RBRK] RBRK d eq_refl eq_refl H (s "]" ++ rest) (or_intror eq_refl)).
  change (starts [RBRK] (s "]" ++ rest)) with true. cbn iota. rewrite unescape_escaped by (reflexivity || exact H). reflexivity.
Qed.
Print Assumptions C41_description_partial.
Theorem C41_message_partial : forall m action, tame [COLON] m = true -> tame [COLON] action = true ->
  read_message true (escape_colon m ++ s ":" ++ escape_colon action) = (m, action, []).
Proof. intros m action Hm Ha. rewrite !escape_colon_escaped. apply read_message_only; [exact Hm | now right]. Qed.
Print Assumptions C41_message_partial.
Example C41_example : tame [COLON; LBRK; RBRK] (s "Set [a:b] to \n") = true /\
  escape_colon (escape_square_brackets (s "Set [a:b] to \n")) = s "Set \[a\:b\] to \n".
Proof. split; reflexivity. Qed.

(** ** C93 *)

(** The function of a command hands the specifications of its options, of its positional arguments
    and of its sub-commands to [_arguments], and nothing else.  Missing: texts that cannot be written
    down ([plain_command], [plain_texts]), see the refutations below; [wraps]. *)
Theorem C93_specifications_partial : forall option_action positional_action command_action ere e holds root ps c,
  built root -> located root ps c ->
  (forall d, In d (c :: ps) -> plain_command d) ->
  (forall d o, In d (c :: ps) -> In o (c_options d) -> plain_texts (option_action (ps, c) o)) ->
  (forall p q, p = (ps, c) \/ In p (ancestors ps) -> In q (c_positionals (snd p)) -> plain_texts (positional_action p q)) ->
  (forall p, p = (ps, c) \/ In p (ancestors ps) -> c_subcommands (snd p) <> None -> plain_texts (command_action p)) ->
  (forall i w, has_item ps c i -> when_of i = Some w -> exists k, zsh_when ere e w = Ok k) ->
  exists r, option_parsing option_action positional_action command_action ere e ps c = Ok r /\
    match r with
    | None => forall i, ~ has_item ps c i
    | Some k => exists specs, specified (option_action (ps, c)) positional_action command_action (condition ere e) holds ps c
                  (zc_array k) (zc_conditional k) specs
    end.
Proof. intros oa pa ca ere e holds root ps c. intros. eapply code_good; eauto. Qed.
Print Assumptions C93_specifications_partial.

(** Deciding the conditions for the examples *)
Definition plain_string_check (x : str) : bool :=
  match x with d :: c :: _ => N.eqb d DASH && negb (N.eqb c PLUS) && negb (str_eqb x [DASH; DASH]) | _ => false end
  && forallb (fun c => negb (zsh_special c) && negb (memc c [SQ; DQ; BS; SP; TAB; LF; LBRC; RBRC; COMMA; COLON; EQ])) x
  && negb (N.eqb (last x 0%N) DASH) && negb (N.eqb (last x 0%N) PLUS).
Lemma plain_string_ok x : plain_string_check x = true -> plain_option_string x.
Proof.
  intros H. unfold plain_string_check in H. repeat (apply andb_prop in H; destruct H as [H ?]). split; [| split; [| split]].
  - destruct x as [| d [| c y]]; try discriminate. apply andb_prop in H as [H H4]. apply andb_prop in H as [H5 H6]. apply N.eqb_eq in H5 as ->.
    exists c, y. split; [reflexivity |]. split.
    + intros ->. rewrite N.eqb_refl in H6. discriminate.
    + intros E. rewrite E in H4. discriminate.
  - intros c Hc. match goal with K : forallb _ x = true |- _ => rewrite forallb_forall in K; specialize (K c Hc); apply andb_prop in K as [K1 K2] end.
    apply negb_true_iff in K1, K2. auto.
  - intros E. rewrite E in *. discriminate.
  - intros E. rewrite E in *. discriminate.
Qed.
Definition plain_command_check (c : cmd) : bool :=
  negb (is_some (c_wraps c))
  && forallb (fun o => forallb plain_string_check (o_strings o)
       && match o_help o with Some d => tame [COLON; LBRK; RBRK] d | None => true end
       && match o_metavar o with Some m => nonempty m && negb (N.eqb (hd 0%N m) STAR) && tame [COLON] m | None => true end
       && match o_sep o with SepInherit => false | _ => true end) (c_options c)
  && forallb (fun q => match p_help q with Some d => tame [COLON] d | None => true end
       && match p_metavar q with Some d => tame [COLON] d | None => true end) (c_positionals c).
Lemma plain_command_ok c : plain_command_check c = true -> plain_command c.
Proof.
  intros H. unfold plain_command_check in H. apply andb_prop in H as [H H3]. apply andb_prop in H as [H1 H2].
  rewrite forallb_forall in H2, H3. split.
  - destruct (c_wraps c); [discriminate | reflexivity].
  - intros o x Ho Hx. specialize (H2 o Ho). repeat (apply andb_prop in H2; destruct H2 as [H2 ?]). rewrite forallb_forall in H2. now apply plain_string_ok, H2.
  - intros o Ho. specialize (H2 o Ho). apply andb_prop in H2 as [H2 H6]. apply andb_prop in H2 as [H2 H5]. apply andb_prop in H2 as [H2 H4].
    split; [destruct (o_help o); [exact H4 | exact I] |]. split.
    + destruct (o_metavar o) as [m |]; [| exact I]. apply andb_prop in H5 as [H5 H7]. apply andb_prop in H5 as [H5 H8].
      split; [now destruct m |]. split; [| exact H7]. intros E. rewrite E in H8. discriminate.
    + intros E. rewrite E in H6. discriminate.
  - intros q Hq. specialize (H3 q Hq). apply andb_prop in H3 as [H3 H4].
    split; [destruct (p_help q); [exact H3 | exact I] | destruct (p_metavar q); [exact H4 | exact I]].
Qed.

(** tool [-v|--verbose]... [--mode MODE] [--color[=WHEN]] [--on|--off] [--version]
         {build|b [-j N] TARGET} *)
Definition z_verbose : opt :=
  MkOpt [s "-v"; s "--verbose"] None (Some (s "Show [all]: more")) None false None false XTrue false false None None SepBoth.
Definition z_mode : opt :=
  MkOpt [s "--mode"] (Some (s "a:b")) None (Some [VStr (s "file")]) false None false XFalse false false None None SepEquals.
Definition z_color : opt :=
  MkOpt [s "--color"] None None (Some [VStr (s "file")]) false None true XFalse false false (Some (s "option_is --mode -- x")) None SepBoth.
Definition z_on : opt := MkOpt [s "--on"] None None None false (Some [s "g"]) false XFalse false false None None SepBoth.
Definition z_off : opt := MkOpt [s "--off"] None None None false (Some [s "g"]) false XFalse false false None None SepBoth.
Definition z_version : opt := MkOpt [s "--version"] None None None false None false XFalse true false None None SepBoth.
Definition z_jobs : opt :=
  MkOpt [s "-j"; s "--jobs"] None None (Some [VStr (s "file")]) false None false XFalse false false None None SepBoth.
Definition z_build : cmd :=
  Cmd (s "build") None [s "b"] None XFalse XFalse XTrue [z_jobs]
    [MkPos 1 (Some (s "TARGET")) None [VStr (s "file")] false false None None] None.
Definition z_tool : cmd :=
  Cmd (s "tool") None [] None XFalse XFalse XTrue [z_verbose; z_mode; z_color; z_on; z_off; z_version] [] (Some [z_build]).
Lemma z_tool_built : built z_tool.
Proof. by_copy. Qed.
Lemma z_build_located : located z_tool [z_tool] z_build.
Proof. apply located_sub; [constructor | now left]. Qed.
Definition z_action (p : place) (o : opt) : str := s "{_say 'a:b'}".
Definition z_positional (p : place) (q : pos) : str := s "_files".
Definition z_command (p : place) : str := s "((build:'Build it' b))".
Definition z_env : zenv := {| z_query := s "_tool_query"; z_option_match := s "_tool_option_match"; z_array_contains := s "_tool_array_contains" |}.
Definition z_holds (x : str) : bool := true.
Lemma plain_text_ok (x : str) : negb (memc BS x) && negb (memc DOLLAR x) && negb (memc BTICK x) = true -> plain_texts x.
Proof.
  intros H. apply andb_prop in H as [H H3]. apply andb_prop in H as [H1 H2].
  assert (G : forall c, negb (memc c x) = true -> ~ In c x).
  { intros c Hc K. apply negb_true_iff in Hc. assert (memc c x = true); [| congruence]. apply existsb_exists. exists c. split; [exact K | apply N.eqb_refl]. }
  split; [right; now apply tame_free, G | right; right; right; auto].
Qed.

Example C93_example :
  (forall d, In d [z_build; z_tool] -> plain_command d) /\
  (forall p o, plain_texts (z_action p o)) /\ (forall p q, plain_texts (z_positional p q)) /\ (forall p, plain_texts (z_command p)) /\
  (forall i w, has_item [z_tool] z_build i -> when_of i = Some w -> exists k, zsh_when (fun _ => true) z_env w = Ok k) /\
  exists k words specs, option_parsing z_action z_positional z_command (fun _ => true) z_env [z_tool] z_build = Ok (Some k) /\
    zsh_array (zc_array k) = Some words /\ read_specs words = Some specs /\
    words = [s "(--jobs -j)-j+: :{_say 'a\:b'}"; s "(--jobs -j)--jobs=: :{_say 'a\:b'}"; s "*-v[Show \[all\]\: more]"; s "*--verbose[Show \[all\]\: more]";
             s "(--mode)--mode=-:a\:b:{_say 'a\:b'}"; s "(--off --on)--on"; s "(--on --off)--off"; s "(- *)--version";
             s "1:command1:((build\:'Build it' b))"; s "2:TARGET:_files"] /\
    zc_conditional k = [(s "_tool_query option_is -- --mode -- x", s "'(--color)'--color=-:' ':""{_say 'a\\:b'}""")].
Proof.
  split; [| split; [| split; [| split; [| split]]]].
  - intros d [<- | [<- | []]]; apply plain_command_ok; vm_compute; reflexivity.
  - intros p o. apply plain_text_ok. vm_compute. reflexivity.
  - intros p q. apply plain_text_ok. vm_compute. reflexivity.
  - intros p. apply plain_text_ok. vm_compute. reflexivity.
  - intros i w Hi Hw. destruct i as [owner o x | p q | p]; cbn [when_of] in Hw; [| | discriminate].
    + destruct Hi as [Ho _]. apply option_of_in in Ho. destruct Ho as [[<- | [<- | []]] Ho].
      * destruct Ho as [<- | []]. discriminate.
      * destruct Ho as [<- | [<- | [<- | [<- | [<- | [<- | []]]]]]]; try discriminate. injection Hw as <-. eexists. vm_compute. reflexivity.
    + destruct Hi as [[-> | [<- | []]] Hq]; [| destruct Hq]. destruct Hq as [<- | []]. discriminate.
  - eexists _, _, _. repeat split; vm_compute; reflexivity.
Qed.

(** Texts that cannot be written down.  Option strings are not quoted: the pattern [-?] is expanded. *)
Definition z_single (o : opt) : cmd := Cmd (s "tool") None [] None XFalse XFalse XFalse [o] [] None.
Definition z_arg (metavar : option str) : opt :=
  MkOpt [s "--mode"] metavar None (Some [VStr (s "file")]) false None false XFalse false false None None SepBoth.
Definition not_specified (root : cmd) (action : str) : Prop :=
  built root /\ exists k, option_parsing (fun _ _ => action) z_positional z_command (fun _ => true) z_env [] root = Ok (Some k) /\
    forall holds specs, ~ specified (fun _ => action) z_positional z_command (condition (fun _ => true) z_env) holds [] root (zc_array k) (zc_conditional k) specs.
Theorem C93_option_string_refuted :
  not_specified (z_single (MkOpt [s "-?"] None None None false None false XFalse false false None None SepBoth)) [].
Proof.
  split; [by_copy |]. eexists. split; [vm_compute; reflexivity |]. intros holds specs (words0 & words & items & H & _). vm_compute in H. discriminate.
Qed.
Print Assumptions C93_option_string_refuted.
(** In actions with both a colon and a single quote, a [$] is expanded when the script is run. *)
Theorem C93_action_refuted : not_specified (z_single (z_arg None)) (s "{_tool_exec 'echo $x:y'}").
Proof.
  split; [by_copy |]. eexists. split; [vm_compute; reflexivity |]. intros holds specs (words0 & words & items & H & _). vm_compute in H. discriminate.
Qed.
Print Assumptions C93_action_refuted.

Lemma one_option o action k words0 z : option_parsing (fun _ _ => action) z_positional z_command (fun _ => true) z_env [] (z_single o) = Ok (Some k) ->
  zc_conditional k = [] -> zsh_array (zc_array k) = Some words0 -> read_specs words0 = Some [SpecOption z] -> otruthy (o_complete o) = true ->
  z_args z <> [(Required, match o_metavar o with Some m => m | None => s " " end, action)] ->
  forall holds specs, ~ specified (fun _ => action) z_positional z_command (condition (fun _ => true) z_env) holds [] (z_single o) (zc_array k) (zc_conditional k) specs.
Proof.
  intros _ Hc Hw Hr Ht Hz holds specs (words1 & words & items & E1 & E2 & E3 & F & Hi). rewrite Hc in E2. cbn [array_after] in E2.
  assert (words1 = words0) by congruence. assert (words = words0) by congruence. subst. rewrite Hr in E3. injection E3 as <-.
  inversion F as [| i z' items' l' Hs F' E4 E5]; subst. inversion F'; subst.
  destruct (proj1 (Hi i) (or_introl eq_refl)) as [Hh _]. destruct i as [owner o' x | |]; cbn [says] in Hs; try contradiction.
  destruct Hs as (conflicting & _ & Hd). destruct Hh as [Ho _]. apply option_of_in in Ho as [[<- | []] [<- | []]].
  apply Hz. rewrite (do_argument _ _ _ _ _ Hd), Ht. reflexivity.
Qed.
(** An empty name makes the argument optional, with the action as its name. *)
Theorem C93_empty_metavar_refuted : not_specified (z_single (z_arg (Some []))) (s "_files").
Proof. split; [by_copy |]. eexists. split; [vm_compute; reflexivity |]. eapply one_option; try (vm_compute; reflexivity). vm_compute. discriminate. Qed.
Print Assumptions C93_empty_metavar_refuted.
(** A name that starts with a star makes the option take all the following words. *)
Theorem C93_star_metavar_refuted : not_specified (z_single (z_arg (Some (s "*.txt")))) (s "_files").
Proof. split; [by_copy |]. eexists. split; [vm_compute; reflexivity |]. eapply one_option; try (vm_compute; reflexivity). vm_compute. discriminate. Qed.
Print Assumptions C93_star_metavar_refuted.
(** Backslashes in front of a colon in a name, or at its end: *)
Theorem C93_backslash_metavar_refuted : not_specified (z_single (z_arg (Some (s "DIR\")))) (s "_files").
Proof. split; [by_copy |]. eexists. split; [vm_compute; reflexivity |]. eapply one_option; try (vm_compute; reflexivity). vm_compute. discriminate. Qed.
Print Assumptions C93_backslash_metavar_refuted.

(** ** C94 *)

(** With the specifications of C93, [_arguments] offers exactly the options that are to be offered:
    those of the command, and those of its ancestors if the command says so, whose condition holds,
    unless they are hidden, a final or a conflicting option is given, or they are given and may not be
    repeated.  Missing: options whose condition does not hold but that are given nevertheless; strings
    that stand for two options. *)
Theorem C94_offers_partial : forall option_action positional_action command_action condition holds root ps c array added specs given x,
  built root -> located root ps c -> distinct_strings (chain_of ps c) ->
  specified option_action positional_action command_action condition holds ps c array added specs ->
  (forall owner o y, option_in (chain_of ps c) owner o -> In y (o_strings o) -> In y given -> usable_option condition holds o) ->
  (zsh_offers specs given x <-> wanted (chain_of ps c) (usable_option condition holds) given x).
Proof.
  intros oa pa ca cond holds root ps c array added specs given x Hb Hl Hd (words0 & words & items & _ & _ & _ & F & Hi) Hg.
  assert (Hv : forall owner o, option_in (chain_of ps c) owner o -> valid_option o).
  { intros owner o [H1 H2]. assert (Hin : In owner (c :: ps)) by (unfold chain_of in H1; destruct (xbool_eqb _ _); [destruct H1 as [<- | []]; now left | exact H1]).
    assert (Hvc : valid_command owner).
    { destruct Hin as [<- | Hin]; [eapply built_valid; eauto |]. destruct (chain_place ps owner Hin) as (qs & Hqs).
      exact (built_valid root qs owner Hb (ancestors_located _ _ _ (qs, owner) Hl Hqs)). }
    now apply Hvc. }
  eapply (offers_wanted oa pa ca ps c (usable_option cond holds) items specs F); auto.
  - intros owner o y. rewrite Hi. reflexivity.
  - intros owner o y Ho Hy E. destruct (Hv owner o Ho) as (_ & H & _). destruct (H y Hy) as (z & E' & Hn & _). rewrite E in E'. injection E' as <-. now apply Hn.
  - intros owner o Ho. apply (Hv owner o Ho).
Qed.
Print Assumptions C94_offers_partial.

(** Deciding what is offered, for the examples *)
Definition offers_check (specs : list zspec) (given : list str) (x : str) : bool :=
  existsb (fun a => match a with
    | SpecOption z => str_eqb (z_name z) x && negb (z_hidden z) && (z_many z || negb (mems x given))
    | SpecArgument _ => false end) specs
  && forallb (fun y => forallb (fun a => match a with
    | SpecOption z => negb (str_eqb (z_name z) y) || negb (mems x (z_excludes z)) && negb (mems (s "-") (z_excludes z))
    | SpecArgument _ => true end) specs) given.
Lemma mems_iff x l : mems x l = true <-> In x l.
Proof. apply mems_In. Qed.
Lemma offers_check_iff specs given x : zsh_offers specs given x <-> offers_check specs given x = true.
Proof.
  unfold offers_check. rewrite andb_true_iff, existsb_exists, forallb_forall. split.
  - intros (z & Hz & Hn & Hh & Hm & Hex). split.
    + exists (SpecOption z). split; [exact Hz |]. rewrite Hn, Hh. rewrite str_eqb_refl. cbn [negb andb].
      destruct (z_many z); [reflexivity |]. destruct Hm as [Hm | Hm]; [discriminate |]. cbn [orb]. apply negb_true_iff, not_true_iff_false. now rewrite mems_iff.
    + intros y Hy. apply forallb_forall. intros [z' |] Hz'; [| reflexivity]. destruct (str_eqb_spec (z_name z') y) as [E | E]; [| reflexivity]. cbn [negb orb].
      destruct (Hex y z' Hy Hz' E) as [H1 H2]. apply andb_true_iff. split; apply negb_true_iff, not_true_iff_false; now rewrite mems_iff.
  - intros [([z |] & Hz & H) H2]; [| discriminate]. apply andb_prop in H as [H H3]. apply andb_prop in H as [H H4].
    exists z. split; [exact Hz |]. split; [now destruct (str_eqb_spec (z_name z) x) |]. split; [now apply negb_true_iff |]. split.
    + apply orb_prop in H3 as [H3 | H3]; [now left | right]. apply negb_true_iff, not_true_iff_false in H3. now rewrite mems_iff in H3.
    + intros y z' Hy Hz' E. specialize (H2 y Hy). rewrite forallb_forall in H2. specialize (H2 _ Hz'). cbn beta iota in H2. rewrite E, str_eqb_refl in H2. cbn [negb orb] in H2.
      apply andb_prop in H2 as [A B]. apply negb_true_iff, not_true_iff_false in A, B. rewrite mems_iff in A, B. auto.
Qed.
Definition distinct_check (chain : list cmd) : bool :=
  pairwise (fun a b => overlap (o_strings (snd a)) (o_strings (snd b))) (flat_map (fun d => map (pair d) (c_options d)) chain).
Lemma distinct_ok chain : distinct_check chain = true -> distinct_strings chain.
Proof.
  intros H d1 o1 d2 o2 x [A1 A2] [B1 B2] Hx1 Hx2.
  assert (G : forall d o, In d chain -> In o (c_options d) -> In (d, o) (flat_map (fun d => map (pair d) (c_options d)) chain)).
  { intros d o Hd Ho. apply in_flat_map. exists d. split; [exact Hd | now apply in_map]. }
  assert (E : (d1, o1) = (d2, o2)) by (eapply (pairwise_eq _ _ H); auto; cbn [snd]; eapply overlap_In; eauto). now injection E.
Qed.

Example C94_example : distinct_strings (chain_of [z_tool] z_build) /\
  (forall owner o y, option_in (chain_of [z_tool] z_build) owner o -> In y (o_strings o) -> In y [s "--on"; s "-v"] ->
     usable_option (condition (fun _ => true) z_env) z_holds o) /\
  exists k words0 words specs, option_parsing z_action z_positional z_command (fun _ => true) z_env [z_tool] z_build = Ok (Some k) /\
    zsh_array (zc_array k) = Some words0 /\ array_after z_holds words0 (zc_conditional k) = Some words /\ read_specs words = Some specs /\
    (forall x, In x [s "-j"; s "--jobs"; s "-v"; s "--verbose"; s "--mode"; s "--color"; s "--version"] -> zsh_offers specs [s "--on"; s "-v"] x) /\
    (forall x, In x [s "--on"; s "--off"; s "--unknown"] -> ~ zsh_offers specs [s "--on"; s "-v"] x).
Proof.
  split; [apply distinct_ok; vm_compute; reflexivity |]. split.
  - intros owner o y [[<- | [<- | []]] Ho] Hy Hg; cbn in Ho.
    + destruct Ho as [<- | []]. now left.
    + destruct Ho as [<- | [<- | [<- | [<- | [<- | [<- | []]]]]]]; try (now left).
      exfalso. destruct Hy as [<- | []]. destruct Hg as [E | [E | []]]; vm_compute in E; discriminate.
  - eexists _, _, _, _. split; [vm_compute; reflexivity |]. split; [vm_compute; reflexivity |]. split; [vm_compute; reflexivity |]. split; [vm_compute; reflexivity |].
    split; intros x Hx; rewrite offers_check_iff; repeat (destruct Hx as [<- | Hx]; [vm_compute; (reflexivity || discriminate) |]); destruct Hx.
Qed.

(** What zsh scripts offer in a sub-command, against what the scripts for Bash and fish offer (see
    [SpecOffered.option_offered], C86, C85). *)
Definition zsh_script_offers (holds : str -> bool) (ps : list cmd) (c : cmd) (given : list str) (x : str) : Prop :=
  exists k words0 words specs, option_parsing z_action z_positional z_command (fun _ => true) z_env ps c = Ok (Some k) /\
    zsh_array (zc_array k) = Some words0 /\ array_after holds words0 (zc_conditional k) = Some words /\ read_specs words = Some specs /\
    zsh_offers specs given x.
Ltac by_check := eexists _, _, _, _; split; [vm_compute; reflexivity |]; split; [vm_compute; reflexivity |]; split; [vm_compute; reflexivity |];
  split; [vm_compute; reflexivity |]; apply offers_check_iff; vm_compute; reflexivity.
Ltac by_no_check :=
  let k := fresh in let a := fresh in let b := fresh in let d := fresh in let E1 := fresh in let E2 := fresh in let E3 := fresh in let E4 := fresh in let H := fresh in
  intros (k & a & b & d & E1 & E2 & E3 & E4 & H); vm_compute in E1; injection E1 as <-; vm_compute in E2; injection E2 as <-; vm_compute in E3; injection E3 as <-;
  vm_compute in E4; injection E4 as <-; apply offers_check_iff in H; vm_compute in H; discriminate.

(** The options of an ancestor that passes its options on are not offered if the sub-command itself
    does not pass on its options, and the other way round. *)
Definition z_parent (inherit : xbool) (sub : cmd) : cmd := Cmd (s "tool") None [] None XFalse XFalse inherit [z_verbose; z_version] [] (Some [sub]).
Definition z_sub (inherit : xbool) : cmd := Cmd (s "sub") None [] None XFalse XFalse inherit [z_jobs] [] None.
Theorem C94_inherit_refuted : exists root c x o,
  built root /\ located root [root] c /\ passes_on root /\ In o (c_options root) /\ In x (o_strings o) /\
  o_when o = None /\ o_hidden o = false /\ o_groups o = None /\ ~ zsh_script_offers z_holds [root] c [] x.
Proof.
  exists (z_parent XTrue (z_sub XFalse)), (z_sub XFalse), (s "--verbose"), z_verbose.
  split; [by_copy |]. split; [apply located_sub; [constructor | now left] |]. split; [discriminate |]. split; [now left |]. split; [right; now left |].
  repeat (split; [reflexivity |]). by_no_check.
Qed.
Print Assumptions C94_inherit_refuted.
Theorem C94_not_inherited_refuted : exists root c x o,
  built root /\ located root [root] c /\ ~ passes_on root /\ In o (c_options root) /\ In x (o_strings o) /\ ~ (exists p, In p (c_options c) /\ In x (o_strings p)) /\
  zsh_script_offers z_holds [root] c [] x.
Proof.
  exists (z_parent XFalse (z_sub XTrue)), (z_sub XTrue), (s "--verbose"), z_verbose.
  split; [by_copy |]. split; [apply located_sub; [constructor | now left] |]. split; [intros H; now apply H |]. split; [now left |]. split; [right; now left |]. split; [| by_check].
  intros (p & [<- | []] & Hp). vm_compute in Hp. intuition discriminate.
Qed.
Print Assumptions C94_not_inherited_refuted.
(** Behind a final option of an ancestor, the options of the sub-command are offered nevertheless. *)
Theorem C94_final_refuted : exists root c x f y,
  built root /\ located root [root] c /\ In f (c_options root) /\ o_final f = true /\ In y (o_strings f) /\ zsh_script_offers z_holds [root] c [y] x.
Proof.
  exists (z_parent XFalse (z_sub XFalse)), (z_sub XFalse), (s "--jobs"), z_version, (s "--version").
  split; [by_copy |]. split; [apply located_sub; [constructor | now left] |]. split; [right; now left |]. split; [reflexivity |]. split; [now left |]. by_check.
Qed.
Print Assumptions C94_final_refuted.
(** An option whose condition does not hold excludes nothing when it is given. *)
Definition z_off_when : opt := MkOpt [s "--off"] None None None false (Some [s "g"]) false XFalse false false (Some (s "has_option --color")) None SepBoth.
Theorem C94_condition_refuted : exists root o p x y,
  built root /\ In o (c_options root) /\ In p (c_options root) /\ share_group o p /\ opt_eqb p o = false /\ In x (o_strings o) /\ In y (o_strings p) /\
  zsh_script_offers (fun _ => false) [] root [y] x.
Proof.
  exists (Cmd (s "tool") None [] None XFalse XFalse XFalse [z_on; z_off_when] [] None), z_on, z_off_when, (s "--on"), (s "--off").
  split; [by_copy |]. split; [now left |]. split; [right; now left |]. split; [exists (s "g"), [s "g"], [s "g"]; repeat split; now left |]. split; [reflexivity |].
  split; [now left |]. split; [now left |]. by_check.
Qed.
Print Assumptions C94_condition_refuted.
