(** * Deciding the conditions on definitions for Bash, for the examples beside the theorems. *)
From Verif Require Import Base Value When Shell StrUtils SpecShell Cli SpecCli CliMore BashUtils PatternMore SpecGlob SpecWhen BashParser SpecParser ParserPaths ParserProofs
  ParserCheck SpecOffered BashOffers SpecBash BashStrings BashArguments BashDispatch BashDashes BashWhole.
Open Scope list_scope.

(** The conditions of a definition. *)
Definition whens (root : cmd) : list (cmd * str) :=
  flat_map (fun '(_, c) =>
    map (fun e => (c, e)) (flat_map (fun w => match w with Some e => [e] | None => [] end)
      (map o_when (c_options c) ++ map p_when (c_positionals c)))) (visit_commandlines [] root).
Lemma whens_In root ps c e : located root ps c ->
  (exists o, In o (c_options c) /\ o_when o = Some e) \/ (exists p, In p (c_positionals c) /\ p_when p = Some e) -> In (c, e) (whens root).
Proof.
  intros Hl He. unfold whens. apply in_flat_map. exists (ps, c). split; [apply visit_iff; exists ps; now rewrite app_nil_r |].
  apply in_map_iff. exists e. split; [reflexivity |]. apply in_flat_map. exists (Some e). split; [| now left].
  apply in_or_app. destruct He as [(o & Ho & E) | (p & Hp & E)]; [left | right]; rewrite <- E; now apply in_map.
Qed.

Section Check.
Variable ere : str -> bool.
Definition condition_names (c : cmd) (e : str) : bool :=
  match parse_when ere e with
  | Ok toks => forallb (fun tok =>
      match tok with
      | WObj t => forallb (fun x => existsb (fun o => mems x (o_strings o)) (c_options c)) (test_options t)
      | _ => true
      end) toks
  | Err _ => true
  end.
Definition settledb (c : cmd) : bool :=
  existsb (fun o => match arg_kind o with ArgRequired => true | ArgNone => false | ArgOptional => has_when o end) (c_options c) ||
  forallb (fun o => match arg_kind o with ArgNone => true | _ => false end) (c_options c).
Definition option_check (o : opt) : bool :=
  match o_complete o with Some [] => false | _ => true end &&
  match opt_variable o with
  | Ok v => nonempty v && forallb is_word v && negb (str_eqb v (s "POSITIONALS"))
  | Err _ => false
  end &&
  forallb (fun x => nonempty x && forallb (fun d => negb (posix_special d)) x) (o_strings o).
Definition bash_check (root : cmd) : bool :=
  tame_commands_check root && tame_options_check root && tame_option_numbers_check root &&
  forallb (fun '(_, c) => forallb option_check (c_options c) && settledb c) (visit_commandlines [] root) &&
  forallb (fun '(c, e) => condition_names c e) (whens root).

Lemma located_visit root ps c : located root ps c -> In (ps, c) (visit_commandlines [] root).
Proof. intros Hl. apply visit_iff. exists ps. now rewrite app_nil_r. Qed.

Lemma bash_check_ok root : built root -> bash_check root = true ->
  (forall c e, In (c, e) (whens root) -> exists cond, parse_when ere e = Ok (map wtok_of (conds_syms cond))) ->
  bash_ready ere root /\ bash_named ere root.
Proof.
  intros Hb H Hw. unfold bash_check in H. rewrite !andb_true_iff in H. destruct H as [[[[H1 H2] H3] H4] H5].
  rewrite forallb_forall in H4, H5.
  assert (Ho : forall ps c, located root ps c -> settledb c = true /\ forall o, In o (c_options c) -> option_check o = true).
  { intros ps c Hl. specialize (H4 _ (located_visit root ps c Hl)). cbn beta iota in H4. apply andb_prop in H4 as [A B]. split; [exact B |]. now apply forallb_forall. }
  assert (Hv : forall ps c o, located root ps c -> In o (c_options c) -> exists v, opt_variable o = Ok v /\ is_name v /\ v <> s "POSITIONALS").
  { intros ps c o Hl Hoc. destruct (Ho ps c Hl) as [_ K]. specialize (K o Hoc). unfold option_check in K. rewrite !andb_true_iff in K. destruct K as [[_ K] _].
    destruct (opt_variable o) as [er | v]; [discriminate |]. rewrite !andb_true_iff in K. destruct K as [[K1 K2] K3]. exists v. split; [reflexivity |].
    split; [split; [now destruct v | exact K2] |]. intros ->. now rewrite (proj2 (str_eqb_eq _ _)) in K3. }
  split; constructor.
  - exact Hb.
  - now apply tame_commands_ok.
  - now apply tame_options_ok.
  - intros ps c group Hl Hg. apply no_numbers. intros x (o & Hog & Hx). unfold tame_option_numbers_check in H3. rewrite forallb_forall in H3.
    specialize (H3 _ (located_visit root ps c Hl)). cbn [snd] in H3. rewrite forallb_forall in H3. specialize (H3 o (Hg o Hog)). rewrite forallb_forall in H3.
    now apply H3, spellings_In.
  - intros ps c o Hl Hoc E. destruct (Ho ps c Hl) as [_ K]. specialize (K o Hoc). unfold option_check in K. rewrite E in K. discriminate.
  - intros ps c o v Hl Hoc E. destruct (Hv ps c o Hl Hoc) as (v' & E' & K & _). rewrite E in E'. apply inr_inj in E'. now subst v'.
  - intros ps c o e Hl Hoc E. apply (Hw c). apply (whens_In root ps c e Hl). left. eauto.
  - intros ps c p e Hl Hpc E _. apply (Hw c). apply (whens_In root ps c e Hl). right. eauto.
  - intros ps c o x Hl Hoc Hx. destruct (Ho ps c Hl) as [_ K]. specialize (K o Hoc). unfold option_check in K. rewrite !andb_true_iff in K. destruct K as [_ K].
    rewrite forallb_forall in K. specialize (K x Hx). apply andb_prop in K as [K1 K2]. rewrite forallb_forall in K2. split; [now destruct x |].
    intros d Hd. specialize (K2 d Hd). now apply negb_true_iff in K2.
  - intros ps c Hl. destruct (Ho ps c Hl) as [K _]. unfold settledb in K. apply orb_prop in K as [K | K].
    + left. apply existsb_exists in K as (o & Hoc & K). exists o. split; [exact Hoc |]. destruct (arg_kind o); [discriminate | now left | right]. split; [discriminate | exact K].
    + right. intros o Hoc. rewrite forallb_forall in K. specialize (K o Hoc). now destruct (arg_kind o).
  - intros ps c o Hl Hoc. destruct (Hv ps c o Hl Hoc) as (v & E & _ & K). eauto.
  - intros ps c e cond t x Hl He Hp Ht Hx. specialize (H5 _ (whens_In root ps c e Hl He)). cbn beta iota in H5. unfold condition_names in H5. rewrite Hp in H5.
    rewrite forallb_forall in H5. specialize (H5 (WObj t)). assert (Hin : In (WObj t) (map wtok_of (conds_syms cond))) by (apply in_map_iff; exists (STest t); auto).
    specialize (H5 Hin). cbn beta iota in H5. rewrite forallb_forall in H5. specialize (H5 x Hx). apply existsb_exists in H5 as (o & Hoc & K).
    exists o. split; [exact Hoc | now apply mems_In].
Qed.
End Check.

(** ** Words *)
Definition unclaimed_check (here : place) (prev : str) : bool :=
  negb (starts_with [DASH] prev) ||
  forallb (fun o =>
    match arg_kind o with
    | ArgRequired => negb (mems prev (spellings here o)) &&
        (starts_with [DASH; DASH] prev || negb (mems [DASH; last prev 0%N] (spellings here o)))
    | _ => true
    end) (c_options (snd here)).
Lemma unclaimed_ok here prev : unclaimed_check here prev = true -> unclaimed here prev.
Proof.
  intros H Hd o Hk. unfold unclaimed_check in H. apply orb_prop in H as [H | H].
  { exfalso. apply negb_true_iff in H. apply starts_with_app in Hd. congruence. }
  rewrite forallb_forall in H.
  assert (K : In o (c_options (snd here)) -> negb (mems prev (spellings here o)) = true /\
    (starts_with [DASH; DASH] prev || negb (mems [DASH; last prev 0%N] (spellings here o))) = true).
  { intros Ho. specialize (H o Ho). rewrite Hk in H. now apply andb_prop in H. }
  split.
  - intros Hs. destruct (K (proj1 Hs)) as [A _]. apply spellings_In in Hs. apply negb_true_iff in A. apply mems_In in Hs. congruence.
  - destruct (starts_with [DASH; DASH] prev) eqn:E; [left; now apply starts_with_app |]. right. intros y ch Ep Hs. destruct (K (proj1 Hs)) as [_ B]. cbn [orb] in B.
    apply spellings_In in Hs. subst prev. rewrite last_last in B. apply negb_true_iff in B. apply mems_In in Hs. congruence.
Qed.
Definition no_argument_check (here : place) (cur : str) : bool :=
  negb (starts_with [DASH] cur) ||
  forallb (fun o =>
    match arg_kind o with
    | ArgNone => true
    | _ => forallb (fun x => negb (starts_with (x ++ [EQ]) cur)) (spellings here o) &&
        (starts_with [DASH; DASH] cur || forallb (fun ch => negb (mems [DASH; ch] (spellings here o))) cur)
    end) (c_options (snd here)).
Lemma no_argument_ok here cur : no_argument_check here cur = true -> no_argument here cur.
Proof.
  intros H Hd o Hk. unfold no_argument_check in H. apply orb_prop in H as [H | H].
  { exfalso. apply negb_true_iff in H. apply starts_with_app in Hd. congruence. }
  rewrite forallb_forall in H.
  assert (K : In o (c_options (snd here)) -> forallb (fun x => negb (starts_with (x ++ [EQ]) cur)) (spellings here o) = true /\
    (starts_with [DASH; DASH] cur || forallb (fun ch => negb (mems [DASH; ch] (spellings here o))) cur) = true).
  { intros Ho. specialize (H o Ho). destruct (arg_kind o); [now destruct Hk | |]; now apply andb_prop in H. }
  split.
  - intros x Hs Hp. destruct (K (proj1 Hs)) as [A _]. rewrite forallb_forall in A. apply spellings_In in Hs. specialize (A x Hs). apply negb_true_iff in A.
    apply starts_with_app in Hp. congruence.
  - destruct (starts_with [DASH; DASH] cur) eqn:E; [left; now apply starts_with_app |]. right. intros ch Hch Hs. destruct (K (proj1 Hs)) as [_ B]. cbn [orb] in B.
    rewrite forallb_forall in B. specialize (B ch Hch). apply spellings_In in Hs. apply negb_true_iff in B. apply mems_In in Hs. congruence.
Qed.
Definition quiet_check (st : situation) (p : place) : bool :=
  unclaimed_check p (st_prev st) && no_argument_check p (st_cur st) && forallb (fun q => negb (is_command_arg q)) (c_positionals (snd p)) &&
  is_worth_a_function (snd p) && nonempty (c_options (snd p)).
Lemma quiet_ok st p : quiet_check st p = true -> quiet st p.
Proof.
  intros H. unfold quiet_check in H. rewrite !andb_true_iff in H. destruct H as [[[[H1 H2] H3] H4] H5]. constructor.
  - now apply unclaimed_ok.
  - now apply no_argument_ok.
  - intros q Hq. rewrite forallb_forall in H3. specialize (H3 q Hq). now apply negb_true_iff in H3.
  - exact H4.
  - now destruct (c_options (snd p)).
Qed.
Lemma quiet_scope st here : forallb (quiet_check st) (scope here) = true -> forall p, in_scope here p -> quiet st p.
Proof. intros H p Hp. rewrite forallb_forall in H. apply quiet_ok, H. now apply scope_iff. Qed.
