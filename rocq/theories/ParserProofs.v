(** * The generated Bash parsers understand what users type. *)
From Verif Require Import Base Dict Shell StrUtils StrUtilsProofs Abbrev AbbrevProofs Cli SpecCli CliProofs CliMore PyStr
  BashPatterns BashPatternsProofs BashUtils PatternMore SpecShell SpecGlob GlobMatch BashParser SpecParser ParserPaths ParserTables.
From Coq Require Import Permutation.
Open Scope list_scope.

Lemma bind_ok {A B} (m : res A) (f : A -> res B) b : bind m f = Ok b -> exists a, m = Ok a /\ f a = Ok b.
Proof. destruct m as [e | a]; [discriminate |]. intros H. now exists a. Qed.

Lemma inr_inj {A B} (x y : B) : @inr A B x = inr y -> x = y.
Proof. intros H. now injection H. Qed.
Lemma pair_inj {A B} (a a' : A) (b b' : B) : (a, b) = (a', b') -> a = a' /\ b = b'.
Proof. intros H. now injection H. Qed.

(** ** Kinds of arguments *)
Lemma kind_optional o : has_optional_arg o = true <-> arg_kind o = ArgOptional.
Proof. unfold has_optional_arg, arg_kind. destruct (o_complete o), (o_optional_arg o); cbn; split; congruence. Qed.
Lemma kind_required o : has_required_arg o = true <-> arg_kind o = ArgRequired.
Proof. unfold has_required_arg, arg_kind. destruct (o_complete o), (o_optional_arg o); cbn; split; congruence. Qed.
Lemma kind_cases o :
  (arg_kind o = ArgOptional /\ has_optional_arg o = true /\ has_required_arg o = false) \/
  (arg_kind o = ArgRequired /\ has_optional_arg o = false /\ has_required_arg o = true) \/
  (arg_kind o = ArgNone /\ has_optional_arg o = false /\ has_required_arg o = false).
Proof. unfold has_optional_arg, has_required_arg, arg_kind. destruct (o_complete o), (o_optional_arg o); cbn; tauto. Qed.

(** ** Sub-commands *)
Lemma In_remove_str x y l : In x (remove_str y l) -> In x l.
Proof.
  induction l as [| z l IH]; [intros [] |]. cbn [remove_str]. destruct (str_eqb y z); [intros H; now right |].
  intros [-> | H]; [now left | right; now apply IH].
Qed.
Lemma remove_str_In x y l : In x l -> x <> y -> In x (remove_str y l).
Proof.
  induction l as [| z l IH]; [intros [] |]. cbn [remove_str]. intros [-> | H] Hn.
  - destruct (str_eqb_spec y x) as [-> | _]; [now destruct Hn | now left].
  - destruct (str_eqb y z); [exact H | right; now apply IH].
Qed.
Lemma variations_names c sub l : In sub (subs c) -> c_prog sub <> [] ->
  get_all_command_variations sub (Some c) = Ok l -> forall x, In x l <-> names c sub x.
Proof.
  intros Hs Hne H x. unfold get_all_command_variations in H. unfold names.
  assert (Hoff : c_abbrev_cmds sub = XFalse \/ (c_abbrev_cmds sub <> XFalse /\ exists a,
     get_abbreviations (command_abbreviations (map c_prog (subs c))) (c_prog sub) = Ok a /\ l = a ++ c_aliases sub)).
  { destruct (c_abbrev_cmds sub); [right | now left | right];
      (split; [discriminate |]; apply bind_ok in H as (a & Ha & Hl); exists a; split; [exact Ha |]; now injection Hl as <-). }
  destruct Hoff as [E | (Hon & a & Ha & ->)].
  - rewrite E in H. injection H as <-. cbn [In]. split; [intros [Q | Q]; auto |]. intros [Q | [Q | (Q & _)]]; auto. now destruct Q.
  - rewrite in_app_iff. unfold command_abbreviations in Ha. rewrite (abbreviations_iff 1 _ _ a Ha x). split.
    + intros [(Hp & Hlen & Hx) | Q]; [| auto]. destruct Hx as [-> | Hx]; [now left |]. right. right. split; [exact Hon |].
      split; [destruct x; [cbn in Hlen; lia | discriminate] |]. split; [exact Hp |].
      intros d Hd Hn. apply Hx; [now apply in_map | exact Hn].
    + intros [-> | [Q | (_ & Hx & Hp & Hu)]]; [| now right |].
      * left. split; [exists []; now rewrite app_nil_r |]. split; [destruct (c_prog sub); [now destruct Hne | cbn; lia] | now left].
      * left. split; [exact Hp |]. split; [destruct x; [now destruct Hx | cbn; lia] |]. right. intros w Hw Hn.
        apply in_map_iff in Hw as (d & <- & Hd). now apply Hu.
Qed.
Lemma names_good root ps c sub x : tame_commands root -> located root ps c -> In sub (subs c) -> names c sub x -> good_name x.
Proof.
  intros Ht Hl Hs [H | [H | (_ & Hx & (t & E) & _)]].
  - eapply (tame_names root Ht); [eassumption | eassumption | now left].
  - eapply (tame_names root Ht); [eassumption | eassumption | now right].
  - destruct (tame_names root Ht ps c sub (c_prog sub) Hl Hs (or_introl eq_refl)) as [_ Hg]. split; [exact Hx |].
    rewrite E, forallb_app in Hg. now apply andb_prop in Hg as [Hg _].
Qed.

Section Root.
Context (root : cmd) (Hb : built root) (Htc : tame_commands root).

Lemma switch_case_ok ps c sub clauses w : located root ps c -> In sub (subs c) -> names c sub w ->
  make_switch_case c = Ok clauses ->
  match find (fun '(pattern, _) => case_matchb pattern w) clauses with
  | Some (_, name) => name = c_prog sub
  | None => w = c_prog sub
  end.
Proof.
  intros Hl Hs Hw H. unfold make_switch_case in H. apply bind_ok in H as (l & Hm & H). injection H as <-.
  apply map_res_ok in Hm.
  assert (Hent : forall d aliases, In d (subs c) -> In (c_prog d, aliases) l -> aliases <> [] ->
     (forall x, In x aliases -> names c d x) /\ (forall x, names c d x -> x <> c_prog d -> In x aliases) /\
     (forall x, case_matches (make_pattern aliases) x <-> In x aliases)).
  { intros d aliases Hd Hin Hne. destruct (Forall2_In_r _ _ _ _ Hm Hin) as (d' & Hd' & E).
    apply bind_ok in E as (vs & Ev & E). injection E as E1 E2.
    assert (d' = d) as -> by (eapply nodup_prog; [eapply located_nodup; eassumption | exact Hd' | exact Hd | exact E1]).
    assert (Hg : good_name (c_prog d)) by (eapply (tame_names root Htc); [exact Hl | exact Hd | now left]).
    pose proof (variations_names c d vs Hd (proj1 Hg) Ev) as Hvs.
    assert (A1 : forall x, In x aliases -> names c d x) by (intros x Hx; subst aliases; apply Hvs; eapply In_remove_str; exact Hx).
    assert (A2 : forall x, names c d x -> x <> c_prog d -> In x aliases).
    { intros x Hx Hn. subst aliases. apply remove_str_In; [now apply Hvs | exact Hn]. }
    split; [exact A1 |]. split; [exact A2 |]. intros x.
    apply make_pattern_exact; [exact Hne | | ].
    - intros y Hy. apply A1 in Hy. apply (names_good root ps c d y Htc Hl Hd) in Hy.
      split; [apply Hy | apply safe_all_plain, name_safe, Hy].
    - apply (tame_numbers root Htc ps c d Hl Hd aliases A1). intros y [Hy Hn]. now apply A2. }
  destruct (find _ _) as [[pat name] |] eqn:Ef.
  - apply find_some in Ef as [Hin Hmt]. apply in_map_iff in Hin as ([name' aliases] & E & Hin). injection E as <- <-.
    apply filter_In in Hin as [Hin Hne]. destruct (Forall2_In_r _ _ _ _ Hm Hin) as (d & Hd & E).
    apply bind_ok in E as (vs & Ev & E). injection E as E1 E2. subst name'.
    destruct (Hent d aliases Hd Hin) as (A1 & _ & A3); [now destruct aliases |].
    apply case_matchb_iff, A3, A1 in Hmt. f_equal. eapply (tame_unique root Htc); eassumption.
  - destruct (list_eq_dec N.eq_dec w (c_prog sub)) as [E | Hn]; [exact E | exfalso].
    destruct (Forall2_In_l _ _ _ _ Hm Hs) as ([name aliases] & Hin & E).
    apply bind_ok in E as (vs & Ev & E). injection E as E1 E2. subst name.
    assert (Hne : aliases <> []).
    { intros ->. assert (Hg : good_name (c_prog sub)) by (eapply (tame_names root Htc); [exact Hl | exact Hs | now left]).
      pose proof (variations_names c sub vs Hs (proj1 Hg) Ev) as Hvs.
      assert (In w []); [rewrite <- E2; apply remove_str_In; [now apply Hvs | exact Hn] | contradiction]. }
    destruct (Hent sub aliases Hs Hin Hne) as (_ & A2 & A3).
    eapply find_none in Ef; [| apply in_map_iff; exists (c_prog sub, aliases); split; [reflexivity |]; apply filter_In; split; [exact Hin | now destruct aliases]].
    cbn in Ef. apply case_matchb_false in Ef. apply Ef, A3, A2; assumption.
Qed.

Lemma safe_no_pipe x : forallb is_safe x = true -> ~ In PIPE x /\ ~ In SQ x.
Proof. intros H. rewrite forallb_forall in H. split; intros Hi; specialize (H _ Hi); discriminate H. Qed.
Lemma split_pipe x y a b : ~ In PIPE x -> ~ In PIPE y -> x ++ s "|" ++ a = y ++ s "|" ++ b -> x = y /\ a = b.
Proof.
  revert y. induction x as [| c x IH]; intros [| d y] Hx Hy E; cbn [app] in E.
  - now injection E.
  - exfalso. injection E as E _. apply Hy. left. now symmetry.
  - exfalso. injection E as E _. apply Hx. now left.
  - injection E as -> E. destruct (IH y) as [-> ->]; [| | exact E | auto]; intros H; [apply Hx | apply Hy]; now right.
Qed.
Lemma digits_safe x : forallb is_digit x = true -> forallb is_safe x = true.
Proof.
  rewrite !forallb_forall. intros H c Hc. specialize (H c Hc). unfold is_safe, is_word. rewrite H.
  now rewrite orb_true_r, ?orb_true_l.
Qed.

(** The number of the sub-command selector of a command. *)
Lemma selector_number ps c : located root ps c ->
  (positional_index ps (subcommands_number c) + 1 = consumed c + sum (map consumed ps))%Z.
Proof.
  intros Hl. rewrite (positional_index_eq root ps c _ Hl). unfold subcommands_number, consumed. rewrite highest_eq. lia.
Qed.
Lemma label_case ps c w : located root ps c ->
  (case_matches (quote (get_subcommand_path ps c ++ s "|" ++ show_Z (positional_index ps (subcommands_number c) + 1)%Z)) w <->
   w = get_subcommand_path ps c ++ s "|" ++ show_Z (positional_index ps (subcommands_number c) + 1)%Z).
Proof.
  intros Hl. rewrite (selector_number ps c Hl). pose proof (consumed_pos c). pose proof (sum_nonneg ps).
  unfold show_Z. destruct (Z.ltb_spec (consumed c + sum (map consumed ps)) 0) as [C | _]; [lia |].
  pose proof (path_safe root ps c Htc Hl) as Hp. set (num := show_nat _).
  pose proof (digits_safe _ (show_nat_digits (Z.abs_nat (consumed c + sum (map consumed ps))))) as Hn. fold num in Hn.
  apply quoted_case.
  - destruct (get_subcommand_path ps c); discriminate.
  - intros Hi. apply in_app_or in Hi as [Hi | Hi]; [now apply (safe_no_pipe _ Hp) in Hi |].
    apply in_app_or in Hi as [[E | []] | Hi]; [discriminate |]. now apply (safe_no_pipe _ Hn) in Hi.
  - intros d Hd. apply in_app_or in Hd as [Hd | Hd]; [left; rewrite forallb_forall in Hp; now apply Hp |].
    apply in_app_or in Hd as [[E | []] | Hd]; [right; now symmetry |]. left. rewrite forallb_forall in Hn. now apply Hn.
Qed.
Lemma label_here ps c ps' c' k : located root ps c -> located root ps' c' ->
  get_subcommand_path ps c ++ s "|" ++ show_nat k =
  get_subcommand_path ps' c' ++ s "|" ++ show_Z (positional_index ps' (subcommands_number c') + 1)%Z ->
  (ps, c) = (ps', c') /\ Z.of_nat k = (consumed c + sum (map consumed ps))%Z.
Proof.
  intros Hl Hl' E. apply split_pipe in E as [E1 E2]; try (eapply safe_no_pipe, path_safe; eassumption).
  assert ((ps, c) = (ps', c')) as Ep by now apply (path_inj root). split; [exact Ep |]. injection Ep as <- <-.
  rewrite (selector_number ps c Hl) in E2. pose proof (consumed_pos c). pose proof (sum_nonneg ps).
  unfold show_Z in E2. destruct (Z.ltb_spec (consumed c + sum (map consumed ps)) 0) as [C | _]; [lia |].
  apply show_nat_inj in E2. lia.
Qed.

Context (switch : list (str * list (str * str))) (Hsw : make_subcommand_switch_code root = Ok switch).
Lemma switch_entries label clauses : In (label, clauses) switch ->
  exists ps c, located root ps c /\ c_subcommands c <> None /\ make_switch_case c = Ok clauses /\
    label = quote (get_subcommand_path ps c ++ s "|" ++ show_Z (positional_index ps (subcommands_number c) + 1)%Z).
Proof.
  intros Hin. unfold make_subcommand_switch_code in Hsw. apply map_res_ok in Hsw.
  destruct (Forall2_In_r _ _ _ _ Hsw Hin) as ([ps c] & Hp & E). apply filter_In in Hp as [Hp Hs].
  apply bind_ok in E as (cl & E & E'). apply inr_inj, pair_inj in E' as [E1 E2]. subst cl. exists ps, c.
  apply visit_iff in Hp as (rs & Er & Hl). rewrite app_nil_r in Er. subst rs.
  split; [exact Hl |]. split; [destruct (c_subcommands c); [discriminate | discriminate Hs] |]. split; [exact E | now symmetry].
Qed.
Lemma switch_entry ps c : located root ps c -> c_subcommands c <> None ->
  exists clauses, In (quote (get_subcommand_path ps c ++ s "|" ++ show_Z (positional_index ps (subcommands_number c) + 1)%Z), clauses) switch /\
    make_switch_case c = Ok clauses.
Proof.
  intros Hl Hs. unfold make_subcommand_switch_code in Hsw. apply map_res_ok in Hsw.
  assert (Hin : In (ps, c) (filter (fun '(_, c) => is_some (c_subcommands c)) (visit_commandlines [] root))).
  { apply filter_In. split; [apply visit_iff; exists ps; rewrite app_nil_r; auto |]. destruct (c_subcommands c); [reflexivity | now destruct Hs]. }
  destruct (Forall2_In_l _ _ _ _ Hsw Hin) as ([label clauses] & Hp & E).
  apply bind_ok in E as (cl & E & E'). apply inr_inj, pair_inj in E' as [E1 E2]. subst cl. exists clauses. rewrite E1. auto.
Qed.

Lemma switch_word ps c n k w : located root ps c -> Z.of_nat k = (Z.of_nat n + sum (map consumed ps))%Z ->
  c_subcommands c = None \/ Z.of_nat (S n) <> consumed c ->
  run_switch switch (get_subcommand_path ps c) (S k) w = get_subcommand_path ps c.
Proof.
  intros Hl Hk Hn. unfold run_switch. destruct (find _ switch) as [[label clauses] |] eqn:Ef; [exfalso | reflexivity].
  apply find_some in Ef as [Hin Hm]. destruct (switch_entries label clauses Hin) as (ps' & c' & Hl' & Hs & _ & ->).
  apply case_matchb_iff in Hm. apply label_case in Hm; [| exact Hl'].
  apply label_here in Hm as [Ep Ek]; try assumption. injection Ep as <- <-. destruct Hn as [Hn | Hn]; [now rewrite Hn in Hs |]. lia.
Qed.
Lemma switch_command ps c n k w sub : located root ps c -> Z.of_nat k = (Z.of_nat n + sum (map consumed ps))%Z ->
  Z.of_nat (S n) = consumed c -> In sub (subs c) -> names c sub w ->
  run_switch switch (get_subcommand_path ps c) (S k) w = get_subcommand_path (c :: ps) sub.
Proof.
  intros Hl Hk Hn Hs Hw. unfold run_switch.
  assert (Hsome : c_subcommands c <> None) by (intros E; unfold subs in Hs; now rewrite E in Hs).
  destruct (find _ switch) as [[label clauses] |] eqn:Ef.
  - apply find_some in Ef as [Hin Hm]. destruct (switch_entries label clauses Hin) as (ps' & c' & Hl' & _ & Hcl & ->).
    apply case_matchb_iff in Hm. apply label_case in Hm; [| exact Hl'].
    apply label_here in Hm as [Ep _]; try assumption. injection Ep as <- <-.
    pose proof (switch_case_ok ps c sub clauses w Hl Hs Hw Hcl) as H. rewrite path_sub.
    destruct (find _ clauses) as [[pat name] |]; now rewrite H.
  - exfalso. destruct (switch_entry ps c Hl Hsome) as (clauses & Hin & _).
    eapply find_none in Ef; [| exact Hin]. cbn beta iota in Ef. apply case_matchb_false in Ef. apply Ef.
    apply label_case; [exact Hl |]. rewrite (selector_number ps c Hl). do 2 f_equal.
    pose proof (consumed_pos c). pose proof (sum_nonneg ps). unfold show_Z.
    destruct (Z.ltb_spec (consumed c + sum (map consumed ps)) 0) as [C | _]; [lia |]. f_equal. lia.
Qed.
End Root.

(** ** Clauses *)
Section Options.
Context (root : cmd) (Hb : built root) (Htc : tame_commands root) (Hps : plain_options root).
Definition without_action (o : opt) : action := if has_required_arg o then TakeNext else SetFlag.
Definition char_action (o : opt) : action :=
  if has_optional_arg o then TakeRestOrFlag else if has_required_arg o then TakeRestOrNext else SetFlag.
(** What a clause for long options may say about a word. *)
Definition means_long (p : place) (w : str) (va : str * action) : Prop :=
  exists o, opt_variable o = Ok (fst va) /\
   ((spelling p o w /\ 3 <= List.length w /\ snd va = without_action o) \/
    (exists x t, w = x ++ [EQ] ++ t /\ spelling p o x /\ 3 <= List.length x /\ arg_kind o <> ArgNone /\ snd va = TakeBehindEquals)).
Definition means_char (p : place) (c : N) (va : str * action) : Prop :=
  exists o, opt_variable o = Ok (fst va) /\ spelling p o [DASH; c] /\ snd va = char_action o.

Lemma long_case_means p words o v : words <> [] ->
  (forall x, In x words <-> spelling p o x /\ 3 <= List.length x) -> (forall x, In x words -> plain_word x) ->
  opt_variable o = Ok v ->
  (forall pat va w, In (pat, va) (make_long_option_case words o v) -> case_matches pat w -> means_long p w va) /\
  (forall w, (In w words \/ arg_kind o <> ArgNone /\ exists x t, In x words /\ w = x ++ [EQ] ++ t) ->
     exists pat va, In (pat, va) (make_long_option_case words o v) /\ case_matches pat w).
Proof.
  intros Hn Hw Hp Hv. unfold make_long_option_case, means_long, without_action.
  pose proof (long_without_arg words) as L1. pose proof (long_with_arg words) as L2.
  assert (M1 : forall w, case_matches (for_long_without_arg words) w -> spelling p o w /\ 3 <= List.length w).
  { intros w Hm. apply L1 in Hm; [now apply Hw | exact Hn | exact Hp]. }
  assert (M2 : forall w, case_matches (for_long_with_arg words) w -> exists x t, w = x ++ [EQ] ++ t /\ spelling p o x /\ 3 <= List.length x).
  { intros w Hm. apply L2 in Hm; [| exact Hn | exact Hp]. destruct Hm as (x & t & Hx & ->). exists x, t. now apply Hw in Hx. }
  split.
  - intros pat va w Hin Hm. exists o. destruct (kind_cases o) as [(K & K1 & K2) | [(K & K1 & K2) | (K & K1 & K2)]]; rewrite K1, ?K2 in Hin; rewrite K2.
    + destruct Hin as [E | [E | []]]; apply pair_inj in E as [<- <-]; cbn [fst snd]; (split; [exact Hv |]).
      * left. apply M1 in Hm. tauto.
      * right. apply M2 in Hm as (x & t & H1 & H2 & H3). exists x, t. repeat (split; [assumption |]). split; [congruence | reflexivity].
    + destruct Hin as [E | [E | []]]; apply pair_inj in E as [<- <-]; cbn [fst snd]; (split; [exact Hv |]).
      * left. apply M1 in Hm. tauto.
      * right. apply M2 in Hm as (x & t & H1 & H2 & H3). exists x, t. repeat (split; [assumption |]). split; [congruence | reflexivity].
    + destruct Hin as [E | []]; apply pair_inj in E as [<- <-]; cbn [fst snd]; (split; [exact Hv |]).
      left. apply M1 in Hm. tauto.
  - intros w [H | (Hk & x & t & Hx & E)].
    + exists (for_long_without_arg words), (v, without_action o). split; [| now apply L1].
      unfold without_action. destruct (kind_cases o) as [(K & K1 & K2) | [(K & K1 & K2) | (K & K1 & K2)]]; rewrite K1, ?K2; now left.
    + exists (for_long_with_arg words), (v, TakeBehindEquals). split; [| apply L2; [exact Hn | exact Hp |]; exists x, t; auto].
      destruct (kind_cases o) as [(K & K1 & K2) | [(K & K1 & K2) | (K & K1 & K2)]]; rewrite K1, ?K2; [now right; left .. |]. now destruct Hk.
Qed.

Lemma generated_clauses ps c long short : located root ps c -> generate_option_cases ps c = Ok (long, short) ->
  (forall pat va w, In (pat, va) long -> case_matches pat w -> means_long (ps, c) w va) /\
  (forall w va, means_long (ps, c) w va -> exists pat va', In (pat, va') long /\ case_matches pat w) /\
  (forall pat va w, In (pat, va) short -> case_matches pat w -> exists d, w = [d] /\ means_char (ps, c) d va) /\
  (forall d va, means_char (ps, c) d va -> exists pat va', In (pat, va') short /\ case_matches pat [d]).
Proof.
  intros Hl H. unfold generate_option_cases in H. apply bind_ok in H as (a & Ha & H). apply bind_ok in H as (l & Hm & H).
  apply inr_inj, pair_inj in H as [<- <-]. apply map_res_ok in Hm.
  assert (Hone : forall o lo sh, In o (c_options c) -> option_cases a o = Ok (lo, sh) ->
     exists words v, opt_variable o = Ok v /\ (forall x, In x words <-> spelling (ps, c) o x /\ 3 <= List.length x) /\
       lo = (if nonempty words then make_long_option_case words o v else []) /\
       sh = (if nonempty (get_short_option_strings (o_strings o))
             then make_short_option_case (get_short_option_strings (o_strings o)) o v else [])).
  { intros o lo sh Ho E. unfold option_cases in E. apply bind_ok in E as (l1 & E1 & E). apply bind_ok in E as (l2 & E2 & E).
    apply bind_ok in E as (v & Ev & E). apply inr_inj, pair_inj in E as [<- <-]. exists (l1 ++ l2), v.
    split; [exact Ev |]. split; [| auto]. eapply spelled_words; eassumption. }
  assert (Hplain : forall o x, spelling (ps, c) o x -> plain_word x).
  { intros o x Hx. destruct (spelling_chars root ps c o x Hps Hl Hx) as [Hp _]. destruct (spelling_dash root ps c o x Hb Hl Hx) as (y & -> & _).
    split; [discriminate | exact Hp]. }
  repeat split.
  - intros pat va w Hin Hmt. apply in_flat_map in Hin as ([lo sh] & Hin & Hc). cbn [fst] in Hc.
    destruct (Forall2_In_r _ _ _ _ Hm Hin) as (o & Ho & E). apply (get_options_own root ps c o Hb Hl) in Ho.
    destruct (Hone o lo sh Ho E) as (words & v & Hv & Hw & -> & _). destruct words as [| x words]; [destruct Hc |].
    eapply (proj1 (long_case_means (ps, c) (x :: words) o v ltac:(discriminate) Hw ltac:(intros y Hy; apply Hw in Hy; apply (Hplain o), Hy) Hv)); eassumption.
  - intros w va (o & Hv & Hs).
    assert (Ho : In o (c_options c)) by (destruct Hs as [[Hs _] | (x & t & _ & Hs & _)]; apply Hs).
    pose proof Ho as Ho'. apply (get_options_own root ps c o Hb Hl) in Ho'.
    destruct (Forall2_In_l _ _ _ _ Hm Ho') as ([lo sh] & Hin & E).
    destruct (Hone o lo sh Ho E) as (words & v & Hv' & Hw & El & _).
    assert (exists pat va, In (pat, va) lo /\ case_matches pat w) as (pat & va' & H1 & H2).
    { assert (Hne : words <> []).
      { destruct Hs as [(Hs & H3 & _) | (x & t & _ & Hs & H3 & _)]; [assert (In w words) by now apply Hw | assert (In x words) by now apply Hw];
          now destruct words. }
      rewrite El. replace (nonempty words) with true by now destruct words.
      apply (long_case_means (ps, c) words o v Hne Hw); [intros y Hy; apply Hw in Hy; apply (Hplain o), Hy | exact Hv' |].
      destruct Hs as [(Hs & H3 & _) | (x & t & Ex & Hs & H3 & H4 & _)]; [left; now apply Hw |].
      right. split; [exact H4 |]. exists x, t. split; [now apply Hw | exact Ex]. }
    exists pat, va'. split; [| exact H2]. apply in_flat_map. exists (lo, sh). auto.
  - intros pat va w Hin Hmt. apply in_flat_map in Hin as ([lo sh] & Hin & Hc). cbn [snd] in Hc.
    destruct (Forall2_In_r _ _ _ _ Hm Hin) as (o & Ho & E). apply (get_options_own root ps c o Hb Hl) in Ho.
    destruct (Hone o lo sh Ho E) as (words & v & Hv & Hw & _ & ->).
    pose proof (spelled_short root ps c o) as Hss.
    set (shorts := get_short_option_strings (o_strings o)) in *. destruct shorts as [| x shorts'] eqn:Es; [destruct Hc |].
    cbn [nonempty] in Hc. rewrite <- Es in Hc, Hss.
    assert (E1 : pat = for_short shorts /\ va = (v, char_action o)).
    { unfold make_short_option_case, char_action in *. destruct (has_optional_arg o), (has_required_arg o);
        (destruct Hc as [Hc | []]; apply pair_inj in Hc as [<- <-]; auto). }
    destruct E1 as [-> ->]. apply short_chars in Hmt.
    + destruct Hmt as (d & -> & Hd). exists d. split; [reflexivity |]. exists o. split; [exact Hv |]. split; [| reflexivity].
      now apply Hss in Hd.
    + rewrite Es. discriminate.
    + intros y Hy. apply Hss in Hy as [Hy H2]; [| assumption ..]. destruct (spelling_dash root ps c o y Hb Hl Hy) as (z & -> & Hz & _).
      destruct z as [| d [| ? ?]]; [now destruct Hz | | cbn in H2; lia]. exists d. split; [reflexivity |].
      destruct (spelling_chars root ps c o _ Hps Hl Hy) as [Hp _]. cbn [forallb] in Hp. rewrite andb_true_iff in Hp. destruct Hp as [_ Hp].
      rewrite andb_true_iff in Hp. apply Hp.
  - intros d va (o & Hv & Hs & Hva). pose proof (proj1 Hs) as Ho. cbn [snd] in Ho.
    pose proof Ho as Ho'. apply (get_options_own root ps c o Hb Hl) in Ho'.
    destruct (Forall2_In_l _ _ _ _ Hm Ho') as ([lo sh] & Hin & E).
    destruct (Hone o lo sh Ho E) as (words & v & Hv' & Hw & _ & Esh).
    pose proof (spelled_short root ps c o) as Hss.
    set (shorts := get_short_option_strings (o_strings o)) in *.
    assert (Hd : In [DASH; d] shorts) by (apply Hss; auto).
    exists (for_short shorts), (v, char_action o). split.
    + apply in_flat_map. exists (lo, sh). split; [exact Hin |]. cbn [snd]. rewrite Esh.
      replace (nonempty shorts) with true by (now destruct shorts). unfold make_short_option_case, char_action.
      destruct (has_optional_arg o), (has_required_arg o); now left.
    + apply short_chars; [intros E'; now rewrite E' in Hd | | exists d; auto].
      intros y Hy. apply Hss in Hy as [Hy H2]; [| assumption ..]. destruct (spelling_dash root ps c o y Hb Hl Hy) as (z & -> & Hz & _).
      destruct z as [| e [| ? ?]]; [now destruct Hz | | cbn in H2; lia]. exists e. split; [reflexivity |].
      destruct (spelling_chars root ps c o _ Hps Hl Hy) as [Hp _]. cbn [forallb] in Hp. rewrite andb_true_iff in Hp. destruct Hp as [_ Hp].
      rewrite andb_true_iff in Hp. apply Hp.
Qed.

Lemma first_some {A} (clauses : list (str * A)) w a : first_clause clauses w = Some a ->
  exists pat, In (pat, a) clauses /\ case_matches pat w.
Proof.
  unfold first_clause. destruct (find _ clauses) as [[pat b] |] eqn:E; [| discriminate]. intros H. injection H as ->.
  apply find_some in E as [Hin Hm]. exists pat. split; [exact Hin |]. now apply case_matchb_iff.
Qed.
Lemma first_none {A} (clauses : list (str * A)) w : first_clause clauses w = None ->
  forall pat a, In (pat, a) clauses -> ~ case_matches pat w.
Proof.
  unfold first_clause. destruct (find _ clauses) as [[pat b] |] eqn:E; [discriminate |]. intros _ pat a Hin.
  eapply find_none in E; [| exact Hin]. now apply case_matchb_false.
Qed.

(** Spellings have no [=] in them. *)
Lemma spelling_before p o x t : located root (fst p) (snd p) -> spelling p o x ->
  before_equals (x ++ EQ :: t) = x /\ behind_equals (x ++ EQ :: t) = t /\ before_equals x = x /\ has_equals x = false.
Proof.
  destruct p as [ps c]. cbn [fst snd]. intros Hl Hs. destruct (spelling_chars root ps c o x Hps Hl Hs) as [_ Hn]. clear Hs.
  induction x as [| d x IH]; [repeat split |].
  destruct IH as (I1 & I2 & I3 & I4); [intros H; apply Hn; now right |]. cbn [app before_equals behind_equals].
  destruct (N.eqb_spec d EQ) as [-> | Hd]; [exfalso; apply Hn; now left |]. unfold has_equals, memc in *. cbn [existsb].
  rewrite I1, I2, I3, I4. repeat split. apply orb_false_iff. split; [| reflexivity]. apply N.eqb_neq. congruence.
Qed.
Lemma spelling_not_attached p p' o o' x y t : located root (fst p) (snd p) -> located root (fst p') (snd p') ->
  spelling p o x -> spelling p' o' y -> x <> y ++ [EQ] ++ t.
Proof.
  intros Hl Hl' Hx Hy E. destruct (spelling_before p o x [] Hl Hx) as (_ & _ & H1 & H2).
  subst x. change ([EQ] ++ t) with (EQ :: t) in *. destruct (spelling_before p' o' y t Hl' Hy) as (E1 & _ & _ & _).
  unfold has_equals, memc in H2. rewrite existsb_app in H2. cbn [existsb] in H2. rewrite orb_false_iff in H2. destruct H2 as [_ H2]. discriminate H2.
Qed.
Lemma attached_inj p p' o o' x y t u : located root (fst p) (snd p) -> located root (fst p') (snd p') ->
  spelling p o x -> spelling p' o' y -> x ++ [EQ] ++ t = y ++ [EQ] ++ u -> x = y /\ t = u.
Proof.
  intros Hl Hl' Hx Hy E. change (x ++ EQ :: t = y ++ EQ :: u) in E.
  destruct (spelling_before p o x t Hl Hx) as (A1 & A2 & _). destruct (spelling_before p' o' y u Hl' Hy) as (B1 & B2 & _).
  rewrite E in A1, A2. split; congruence.
Qed.

Context (Hto : tame_options root).
Lemma means_unique ps c p1 p2 w va1 va2 : located root ps c -> in_scope (ps, c) p1 -> in_scope (ps, c) p2 ->
  means_long p1 w va1 -> means_long p2 w va2 -> va1 = va2.
Proof.
  intros Hl H1 H2 (o1 & V1 & M1) (o2 & V2 & M2).
  pose proof (in_scope_located _ _ _ _ Hl H1) as L1. pose proof (in_scope_located _ _ _ _ Hl H2) as L2.
  destruct va1 as [v1 a1], va2 as [v2 a2]. cbn [fst snd] in *.
  destruct M1 as [(S1 & _ & ->) | (x1 & t1 & E1 & S1 & _ & _ & ->)], M2 as [(S2 & _ & ->) | (x2 & t2 & E2 & S2 & _ & _ & ->)].
  - destruct (tame_spelling root Hto ps c p1 p2 o1 o2 w Hl H1 H2 S1 S2) as [_ <-]. congruence.
  - exfalso. now apply (spelling_not_attached p1 p2 o1 o2 w x2 t2 L1 L2 S1 S2).
  - exfalso. now apply (spelling_not_attached p2 p1 o2 o1 w x1 t1 L2 L1 S2 S1).
  - rewrite E1 in E2. destruct (attached_inj p1 p2 o1 o2 x1 x2 t1 t2 L1 L2 S1 S2 E2) as [<- <-].
    destruct (tame_spelling root Hto ps c p1 p2 o1 o2 x1 Hl H1 H2 S1 S2) as [_ <-]. congruence.
Qed.

(** ** Version 1 *)
Context (sc : script1) (Hsc : generate1 root = Ok sc).
Lemma generated1 : exists cases : list (str * (list clause * list clause)),
  make_subcommand_switch_code root = Ok (s1_switch sc) /\
  Forall2 (fun p b => located root (fst p) (snd p) /\ generate_option_cases (fst p) (snd p) = Ok (snd b) /\
    fst b = get_subcommand_path (fst p) (snd p) ++ (if inherits (snd p) then s "*" else [])) (rev (visit_commandlines [] root)) cases /\
  s1_long sc = filter (fun b => nonempty (snd b)) (map (fun b => (fst b, fst (snd b))) cases) /\
  s1_short sc = filter (fun b => nonempty (snd b)) (map (fun b => (fst b, snd (snd b))) cases).
Proof.
  unfold generate1 in Hsc. apply bind_ok in Hsc as (sw & Esw & E). apply bind_ok in E as (cases & Ec & E).
  apply inr_inj in E. exists cases. rewrite <- E. cbn [s1_switch s1_long s1_short]. split; [exact Esw |].
  apply map_res_ok in Ec. split.
  - assert (Hin : forall p, In p (rev (visit_commandlines [] root)) -> located root (fst p) (snd p)).
    { intros [ps c] Hp. apply in_rev in Hp. apply visit_iff in Hp as (rs & Er & Hl). rewrite app_nil_r in Er. now subst rs. }
    clear - Ec Hin. induction Ec as [| [ps c] b l l' H Ec IH]; [constructor |]. constructor.
    + split; [apply Hin; now left |]. apply bind_ok in H as (cs & H1 & H2). apply inr_inj in H2. subst b. now split.
    + apply IH. intros p Hp. apply Hin. now right.
  - split; f_equal; apply map_ext; intros [q [l1 l2]]; reflexivity.
Qed.

Lemma run_long_filter blocks cmd arg : run_long (filter (fun b => nonempty (snd b)) blocks) cmd arg = run_long blocks cmd arg.
Proof.
  induction blocks as [| [q cl] blocks IH]; [reflexivity |]. cbn [filter snd]. destruct cl as [| x cl]; cbn [nonempty run_long].
  - rewrite IH. cbn [first_clause find]. now destruct (case_matchb q cmd).
  - now rewrite IH.
Qed.
Lemma run_long_some blocks cmd arg va : run_long blocks cmd arg = Some va ->
  exists q cl, In (q, cl) blocks /\ case_matches q cmd /\ exists pat, In (pat, va) cl /\ case_matches pat arg.
Proof.
  induction blocks as [| [q cl] blocks IH]; [discriminate |]. cbn [run_long]. intros H.
  assert (Hrec : run_long blocks cmd arg = Some va -> exists q0 cl0, In (q0, cl0) ((q, cl) :: blocks) /\
     case_matches q0 cmd /\ exists pat, In (pat, va) cl0 /\ case_matches pat arg).
  { intros H'. destruct (IH H') as (q' & cl' & Hin & R). exists q', cl'. split; [now right | exact R]. }
  destruct (case_matchb q cmd) eqn:Eq; [| now apply Hrec]. destruct (first_clause cl arg) as [va' |] eqn:Ef; [| now apply Hrec].
  injection H as ->. apply first_some in Ef. exists q, cl. split; [now left |]. split; [now apply case_matchb_iff | exact Ef].
Qed.
Lemma run_long_none blocks cmd arg : run_long blocks cmd arg = None ->
  forall q cl, In (q, cl) blocks -> case_matches q cmd -> forall pat va, In (pat, va) cl -> ~ case_matches pat arg.
Proof.
  induction blocks as [| [q cl] blocks IH]; [intros _ q cl [] |]. cbn [run_long]. intros H q' cl' Hin Hq.
  assert (Hrec : run_long blocks cmd arg = None /\ (case_matchb q cmd = true -> first_clause cl arg = None)).
  { destruct (case_matchb q cmd); [| now split]. destruct (first_clause cl arg); [discriminate | now split]. }
  destruct Hin as [E | Hin]; [| now apply (IH (proj1 Hrec) q' cl')]. apply pair_inj in E as [<- <-].
  apply first_none, Hrec. now apply case_matchb_iff.
Qed.

Lemma long_some ps c w va : located root ps c ->
  run_long (s1_long sc) (get_subcommand_path ps c) w = Some va ->
  exists p, in_scope (ps, c) p /\ means_long p w va.
Proof.
  intros Hl H. destruct generated1 as (cases & _ & HF & El & _). rewrite El, run_long_filter in H.
  apply run_long_some in H as (q & cl & Hin & Hq & pat & Hpat & Hm).
  apply in_map_iff in Hin as ([q' [l sh]] & E & Hin). apply pair_inj in E as [E1 E2]. cbn [fst snd] in E1, E2. subst q' l.
  destruct (Forall2_In_r _ _ _ _ HF Hin) as (p & _ & Hlp & Hg & Hfq). cbn [fst snd] in *. subst q.
  exists p. destruct p as [ps' c']. cbn [fst snd] in *. split; [now apply (command_case root ps c ps' c') in Hq |].
  now apply (proj1 (generated_clauses ps' c' cl sh Hlp Hg) pat).
Qed.
Lemma long_none ps c w : located root ps c ->
  run_long (s1_long sc) (get_subcommand_path ps c) w = None ->
  forall p va, in_scope (ps, c) p -> ~ means_long p w va.
Proof.
  intros Hl H p va Hp Hmean. destruct generated1 as (cases & _ & HF & El & _). rewrite El, run_long_filter in H.
  pose proof (in_scope_located _ _ _ _ Hl Hp) as Hlp. destruct p as [ps' c']. cbn [fst snd] in *.
  assert (Hin : In (ps', c') (rev (visit_commandlines [] root))).
  { apply in_rev. rewrite rev_involutive. apply visit_iff. exists ps'. rewrite app_nil_r. auto. }
  destruct (Forall2_In_l _ _ _ _ HF Hin) as ([q [l sh]] & Hb' & _ & Hg & Hq). cbn [fst snd] in *. subst q.
  destruct (proj1 (proj2 (generated_clauses ps' c' l sh Hlp Hg)) w va Hmean) as (pat & va' & Hpat & Hm).
  refine (run_long_none _ _ _ H _ l _ _ pat va' Hpat Hm).
  - apply in_map_iff. exists (get_subcommand_path ps' c' ++ (if inherits c' then s "*" else []), (l, sh)). split; [reflexivity | exact Hb'].
  - now apply (command_case root ps c ps' c').
Qed.
Lemma long_word ps c w p va : located root ps c -> in_scope (ps, c) p -> means_long p w va ->
  run_long (s1_long sc) (get_subcommand_path ps c) w = Some va.
Proof.
  intros Hl Hp Hm. destruct (run_long (s1_long sc) (get_subcommand_path ps c) w) as [va' |] eqn:E.
  - f_equal. apply long_some in E as (p' & Hp' & Hm'); [| exact Hl]. exact (means_unique ps c p' p w va' va Hl Hp' Hp Hm' Hm).
  - exfalso. exact (long_none ps c w Hl E p va Hp Hm).
Qed.
Lemma long_no_word ps c w : located root ps c -> no_word (ps, c) w ->
  run_long (s1_long sc) (get_subcommand_path ps c) w = None.
Proof.
  intros Hl Hn. destruct (run_long (s1_long sc) (get_subcommand_path ps c) w) as [va' |] eqn:E; [exfalso | reflexivity].
  apply long_some in E as (p' & Hp' & o & _ & M); [| exact Hl]. destruct M as [(S1 & H3 & _) | (x & t & E & S1 & H3 & _)].
  - now apply (proj1 (Hn w o (ex_intro _ p' (conj Hp' S1)) H3)).
  - apply (proj2 (Hn x o (ex_intro _ p' (conj Hp' S1)) H3)). exists t. rewrite E. now rewrite app_assoc.
Qed.

(** *** Short options *)
Definition hit (cmd : str) (char : str) (b : block) : option (str * action) :=
  if case_matchb (fst b) cmd then first_clause (snd b) char else None.
Lemma run_char_cons q cl blocks cmd char rest : run_char ((q, cl) :: blocks) cmd char rest =
  match hit cmd char (q, cl) with
  | Some (v, TakeRestOrFlag) => ([Append v (if nonempty rest then rest else OPT_ISSET)], Leave)
  | Some (v, TakeRestOrNext) => if nonempty rest then ([Append v rest], Leave) else ([], LeaveWithNext v)
  | Some (v, _) => let '(es, f) := run_char blocks cmd char rest in (Append v OPT_ISSET :: es, f)
  | None => run_char blocks cmd char rest
  end.
Proof. reflexivity. Qed.
Lemma run_char_filter blocks cmd char rest :
  run_char (filter (fun b => nonempty (snd b)) blocks) cmd char rest = run_char blocks cmd char rest.
Proof.
  induction blocks as [| [q cl] blocks IH]; [reflexivity |]. cbn [filter snd]. destruct cl as [| x cl]; cbn [nonempty].
  - rewrite IH, run_char_cons. unfold hit. cbn [first_clause find fst snd]. now destruct (case_matchb q cmd).
  - rewrite !run_char_cons. now rewrite IH.
Qed.
Lemma run_char_misses b1 blocks cmd char rest : (forall b, In b b1 -> hit cmd char b = None) ->
  run_char (b1 ++ blocks) cmd char rest = run_char blocks cmd char rest.
Proof.
  induction b1 as [| [q cl] b1 IH]; [reflexivity |]. intros H. cbn [app]. rewrite run_char_cons, H by now left.
  apply IH. intros b Hb'. apply H. now right.
Qed.
Definition char_result (v : str) (a : action) (rest : str) : list event * flow :=
  match a with
  | TakeRestOrFlag => ([Append v (if nonempty rest then rest else OPT_ISSET)], Leave)
  | TakeRestOrNext => if nonempty rest then ([Append v rest], Leave) else ([], LeaveWithNext v)
  | _ => ([Append v OPT_ISSET], Stay)
  end.
Lemma run_char_hit b1 b b2 cmd char rest v a : (forall b, In b (b1 ++ b2) -> hit cmd char b = None) ->
  hit cmd char b = Some (v, a) -> run_char (b1 ++ b :: b2) cmd char rest = char_result v a rest.
Proof.
  intros Hn Hh. rewrite run_char_misses by (intros x Hx; apply Hn, in_or_app; now left). destruct b as [q cl].
  rewrite run_char_cons, Hh. assert (E : run_char b2 cmd char rest = ([], Stay)).
  { rewrite <- (app_nil_r b2). rewrite run_char_misses; [reflexivity |]. intros x Hx. apply Hn, in_or_app. now right. }
  rewrite E. now destruct a.
Qed.

Lemma hit_means ps c p (b : str * (list clause * list clause)) d va : located root ps c -> located root (fst p) (snd p) ->
  generate_option_cases (fst p) (snd p) = Ok (snd b) ->
  fst b = get_subcommand_path (fst p) (snd p) ++ (if inherits (snd p) then s "*" else []) ->
  hit (get_subcommand_path ps c) [d] (fst b, snd (snd b)) = Some va -> in_scope (ps, c) p /\ means_char p d va.
Proof.
  intros Hl Hlp Hg Hq H. unfold hit in H. cbn [fst snd] in H. destruct (case_matchb _ _) eqn:E; [| discriminate].
  destruct p as [ps' c'], b as [q [l sh]]. cbn [fst snd] in *. subst q. apply case_matchb_iff in E.
  split; [now apply (command_case root ps c ps' c') in E |]. apply first_some in H as (pat & Hpat & Hm).
  destruct (generated_clauses ps' c' l sh Hlp Hg) as (_ & _ & G & _). apply (G pat va [d] Hpat) in Hm as (d' & Ed & Hm).
  injection Ed as <-. exact Hm.
Qed.
Lemma char_unique ps c p1 p2 d va1 va2 : located root ps c -> in_scope (ps, c) p1 -> in_scope (ps, c) p2 ->
  means_char p1 d va1 -> means_char p2 d va2 -> p1 = p2 /\ va1 = va2.
Proof.
  intros Hl H1 H2 (o1 & V1 & S1 & A1) (o2 & V2 & S2 & A2).
  destruct (tame_spelling root Hto ps c p1 p2 o1 o2 _ Hl H1 H2 S1 S2) as [-> <-]. split; [reflexivity |].
  destruct va1, va2. cbn [fst snd] in *. congruence.
Qed.
Lemma char_known ps c d p va rest : located root ps c -> in_scope (ps, c) p -> means_char p d va ->
  run_char (s1_short sc) (get_subcommand_path ps c) [d] rest = char_result (fst va) (snd va) rest.
Proof.
  intros Hl Hp Hm. destruct generated1 as (cases & _ & HF & _ & Es). rewrite Es, run_char_filter.
  pose proof (in_scope_located _ _ _ _ Hl Hp) as Hlp.
  assert (Hin : In p (rev (visit_commandlines [] root))).
  { apply in_rev. rewrite rev_involutive. destruct p as [ps' c']. apply visit_iff. exists ps'. rewrite app_nil_r. auto. }
  assert (Hnd : NoDup (rev (visit_commandlines [] root))).
  { apply NoDup_rev, visit_nodup, built_wfc, Hb. }
  apply in_split in Hin as (l1 & l2 & Hv). rewrite Hv in HF, Hnd.
  apply Forall2_app_inv_l in HF as (b1 & b2 & F1 & F2 & Ec). inversion F2 as [| ? b ? b2' F0 F3]; subst. clear F2.
  apply NoDup_remove_2 in Hnd. destruct F0 as (_ & Hg & Hq).
  rewrite map_app. cbn [map]. apply run_char_hit.
  - intros x Hx. rewrite <- map_app in Hx. apply in_map_iff in Hx as (y & <- & Hy).
    destruct (hit _ _ _) as [va' |] eqn:Eh; [exfalso | reflexivity].
    assert (exists p', In p' (l1 ++ l2) /\ located root (fst p') (snd p') /\ generate_option_cases (fst p') (snd p') = Ok (snd y) /\
      fst y = get_subcommand_path (fst p') (snd p') ++ (if inherits (snd p') then s "*" else [])) as (p' & Hp' & L' & G' & Q').
    { apply in_app_or in Hy as [Hy | Hy]; [destruct (Forall2_In_r _ _ _ _ F1 Hy) as (p' & H1 & H2) | destruct (Forall2_In_r _ _ _ _ F3 Hy) as (p' & H1 & H2)];
        exists p'; (split; [apply in_or_app; auto | exact H2]). }
    destruct (hit_means ps c p' y d va' Hl L' G' Q' Eh) as [Hs' Hm'].
    destruct (char_unique ps c p p' d va va' Hl Hp Hs' Hm Hm') as [<- _]. now apply Hnd.
  - destruct (hit (get_subcommand_path ps c) [d] (fst b, snd (snd b))) as [va' |] eqn:Eh.
    + destruct (hit_means ps c p b d va' Hl Hlp Hg Hq Eh) as [_ Hm'].
      destruct (char_unique ps c p p d va va' Hl Hp Hp Hm Hm') as [_ <-]. now destruct va.
    + exfalso. destruct p as [ps' c'], b as [q [l sh]]. cbn [fst snd] in *. subst q. unfold hit in Eh. cbn [fst snd] in Eh.
      apply (command_case root ps c ps' c') in Hp; try assumption. apply case_matchb_iff in Hp. rewrite Hp in Eh.
      destruct (generated_clauses ps' c' l sh Hlp Hg) as (_ & _ & _ & G). destruct (G d va Hm) as (pat & va' & H1 & H2).
      now apply (first_none _ _ Eh pat va').
Qed.

Lemma cluster_run ps c cs es w : located root ps c -> cluster (ps, c) cs es w ->
  exists f, run_chars (s1_short sc) (get_subcommand_path ps c) cs = (es, f) /\
    match w with Some v => f = LeaveWithNext v | None => f = Stay \/ f = Leave end.
Proof.
  intros Hl H.
  assert (Hc : forall d o v rest, known (ps, c) [DASH; d] o -> opt_variable o = Ok v ->
    run_char (s1_short sc) (get_subcommand_path ps c) [d] rest = char_result v (char_action o) rest).
  { intros d o v rest (p & Hp & Hs) Hv. apply (char_known ps c d p (v, char_action o) rest Hl Hp). exists o. auto. }
  induction H as [| d o v cs es w Hk Ha Hv _ IH | d o v Hk Ha Hv | d o v t Hk Ha Hv Ht _ | d o v Hk Ha Hv]; cbn [run_chars].
  - exists Stay. auto.
  - rewrite (Hc d o v cs Hk Hv). destruct IH as (f & E & Hf). rewrite E. exists f. split; [| exact Hf].
    unfold char_action. destruct (kind_cases o) as [(K & K1 & K2) | [(K & K1 & K2) | (K & K1 & K2)]]; try congruence. rewrite K1, K2. reflexivity.
  - rewrite (Hc d o v [] Hk Hv). exists Leave. split; [| now right].
    unfold char_action. destruct (kind_cases o) as [(K & K1 & K2) | [(K & K1 & K2) | (K & K1 & K2)]]; try congruence. rewrite K1. reflexivity.
  - rewrite (Hc d o v t Hk Hv). exists Leave. split; [| now right]. destruct t as [| e t]; [now destruct Ht |].
    unfold char_action. destruct (kind_cases o) as [(K & K1 & K2) | [(K & K1 & K2) | (K & K1 & K2)]]; try congruence; rewrite K1, ?K2; reflexivity.
  - rewrite (Hc d o v [] Hk Hv). exists (LeaveWithNext v). split; [| reflexivity].
    unfold char_action. destruct (kind_cases o) as [(K & K1 & K2) | [(K & K1 & K2) | (K & K1 & K2)]]; try congruence. rewrite K1, K2. reflexivity.
Qed.

(** *** The loop *)
Lemma dashed_option_like w : dashed w = true <-> option_like w.
Proof.
  unfold dashed, option_like. destruct w as [| d [| e w]]; split; try discriminate.
  - intros (c & w' & E). discriminate.
  - intros (c & w' & E). discriminate.
  - intros H. apply N.eqb_eq in H as ->. now exists e, w.
  - intros (c & w' & E). injection E as -> _ _. apply N.eqb_refl.
Qed.
Lemma dashed_word p o x t : located root (fst p) (snd p) -> spelling p o x -> 3 <= List.length x ->
  dashed (x ++ t) = true /\ str_eqb (x ++ t) (s "--") = false.
Proof.
  destruct p as [ps c]. intros Hl Hs H3. destruct (spelling_dash root ps c o x Hb Hl Hs) as (y & -> & Hy & _).
  destruct y as [| d [| e y]]; [now destruct Hy | cbn in H3; lia |]. split; [reflexivity |].
  destruct (str_eqb_spec ((DASH :: d :: e :: y) ++ t) (s "--")); [discriminate | reflexivity].
Qed.
Lemma dashed_cluster ps c cs es w : located root ps c -> cluster (ps, c) cs es w -> cs <> [] ->
  dashed (DASH :: cs) = true /\ str_eqb (DASH :: cs) (s "--") = false.
Proof.
  intros Hl H Hn. assert (exists d o cs', cs = d :: cs' /\ known (ps, c) [DASH; d] o) as (d & o & cs' & -> & p & Hp & Hs).
  { destruct H; [now destruct Hn | ..]; eauto. }
  split; [reflexivity |]. destruct p as [ps' c']. pose proof (in_scope_located _ _ _ _ Hl Hp) as Hlp. cbn [fst snd] in Hlp.
  destruct (spelling_dash root ps' c' o _ Hb Hlp Hs) as (y & E & _ & Hd). injection E as <-.
  destruct (str_eqb_spec (DASH :: d :: cs') (s "--")) as [E | _]; [| reflexivity]. exfalso. apply Hd. injection E as -> _. reflexivity.
Qed.

Lemma loop1_word ps c k w ws after p va : located root ps c -> in_scope (ps, c) p -> means_long p w va ->
  loop1 sc (get_subcommand_path ps c) k (w :: ws) after =
  match snd va with
  | TakeNext => match ws with
                | [] => [Append (fst va) (hd [] after)]
                | x :: rest' => Append (fst va) x :: loop1 sc (get_subcommand_path ps c) k rest' after
                end
  | TakeBehindEquals => Append (fst va) (behind_equals w) :: loop1 sc (get_subcommand_path ps c) k ws after
  | _ => Append (fst va) OPT_ISSET :: loop1 sc (get_subcommand_path ps c) k ws after
  end.
Proof.
  intros Hl Hp Hm. assert (dashed w = true /\ str_eqb w (s "--") = false) as [D E].
  { pose proof (in_scope_located _ _ _ _ Hl Hp) as Hlp.
    destruct Hm as (o & _ & [(S1 & H3 & _) | (x & t & -> & S1 & H3 & _)]).
    - destruct (dashed_word p o w [] Hlp S1 H3) as [A B]. rewrite app_nil_r in A, B. auto.
    - now apply (dashed_word p o x ([EQ] ++ t) Hlp S1 H3). }
  cbn [loop1]. rewrite E, D, (long_word ps c w p va Hl Hp Hm). destruct va as [v []]; reflexivity.
Qed.

Theorem understood1 here n ws es e : usage here n ws es e -> located root (fst here) (snd here) ->
  forall k w behind res, Z.of_nat k = (Z.of_nat n + sum (map consumed (fst here)))%Z -> rest_events e w behind res ->
  loop1 sc (get_subcommand_path (fst here) (snd here)) k ws (w :: behind) = es ++ res.
Proof.
  destruct generated1 as (cases & Hsw & _).
  intros H. induction H as [here n | here n ws | here n x o v ws es e Hk H3 Ha Hv _ IH | here n x o v t ws es e Hk H3 Ha Hv _ IH
    | here n x o v t ws es e Hk H3 Ha Hv _ IH | here n x o v Hk H3 Ha Hv | here n cs es0 ws es e Hne Hc Hn _ IH
    | here n cs es0 v t ws es e Hc Hn _ IH | here n cs es0 v Hc Hn | ps c n w0 ws es e Ho Hn _ IH | ps c n sub w0 ws es e Ho Hn Hs Hw _ IH];
    intros Hl k w behind res Hcount Hres.
  - cbn [loop1 app]. unfold at_cursor. cbn [hd]. destruct Hres as [[H ->] | [H ->]].
    + apply dashed_option_like in H. now rewrite H.
    + destruct (dashed w) eqn:D; [exfalso; apply H; now apply dashed_option_like | reflexivity].
  - cbn [loop1]. replace (str_eqb (s "--") (s "--")) with true by reflexivity. cbn [rest_events] in Hres. subst res.
    rewrite map_app. reflexivity.
  - destruct here as [ps c], Hk as (p & Hp & Hs). cbn [fst snd] in *.
    rewrite (loop1_word ps c k x ws _ p (v, SetFlag) Hl Hp).
    + cbn [fst snd app]. f_equal. now apply IH.
    + exists o. split; [exact Hv |]. left. split; [exact Hs |]. split; [exact H3 |]. unfold without_action.
      destruct (kind_cases o) as [(K & K1 & K2) | [(K & K1 & K2) | (K & K1 & K2)]]; try congruence; now rewrite K2.
  - destruct here as [ps c], Hk as (p & Hp & Hs). cbn [fst snd] in *. pose proof (in_scope_located _ _ _ _ Hl Hp) as Hlp.
    rewrite (loop1_word ps c k _ ws _ p (v, TakeBehindEquals) Hl Hp).
    + cbn [fst snd]. change ([EQ] ++ t) with (EQ :: t). destruct (spelling_before p o x t Hlp Hs) as (_ & -> & _).
      cbn [app]. f_equal. now apply IH.
    + exists o. split; [exact Hv |]. right. exists x, t. auto.
  - destruct here as [ps c], Hk as (p & Hp & Hs). cbn [fst snd] in *.
    rewrite (loop1_word ps c k x (t :: ws) _ p (v, TakeNext) Hl Hp).
    + cbn [fst snd app]. f_equal. now apply IH.
    + exists o. split; [exact Hv |]. left. split; [exact Hs |]. split; [exact H3 |]. unfold without_action.
      destruct (kind_cases o) as [(K & K1 & K2) | [(K & K1 & K2) | (K & K1 & K2)]]; try congruence; now rewrite K2.
  - destruct here as [ps c], Hk as (p & Hp & Hs). cbn [fst snd] in *.
    rewrite (loop1_word ps c k x [] _ p (v, TakeNext) Hl Hp).
    + cbn [rest_events] in Hres. subst res. reflexivity.
    + exists o. split; [exact Hv |]. left. split; [exact Hs |]. split; [exact H3 |]. unfold without_action.
      destruct (kind_cases o) as [(K & K1 & K2) | [(K & K1 & K2) | (K & K1 & K2)]]; try congruence; now rewrite K2.
  - destruct here as [ps c]. cbn [fst snd] in *. destruct (dashed_cluster ps c cs es0 None Hl Hc Hne) as [D E].
    cbn [loop1]. rewrite E, D, (long_no_word ps c _ Hl Hn). cbn [tl].
    destruct (cluster_run ps c cs es0 None Hl Hc) as (f & -> & Hf). rewrite <- app_assoc. f_equal.
    destruct Hf as [-> | ->]; now apply IH.
  - destruct here as [ps c]. cbn [fst snd] in *. assert (Hne : cs <> []) by (intros ->; inversion Hc).
    destruct (dashed_cluster ps c cs es0 _ Hl Hc Hne) as [D E].
    cbn [loop1]. rewrite E, D, (long_no_word ps c _ Hl Hn). cbn [tl].
    destruct (cluster_run ps c cs es0 _ Hl Hc) as (f & -> & ->). rewrite <- app_assoc. f_equal. cbn [app]. f_equal. now apply IH.
  - destruct here as [ps c]. cbn [fst snd] in *. assert (Hne : cs <> []) by (intros ->; inversion Hc).
    destruct (dashed_cluster ps c cs es0 _ Hl Hc Hne) as [D E].
    cbn [loop1]. rewrite E, D, (long_no_word ps c _ Hl Hn). cbn [tl].
    destruct (cluster_run ps c cs es0 _ Hl Hc) as (f & -> & ->). f_equal. cbn [rest_events] in Hres. now subst res.
  - cbn [fst snd] in *. assert (D : dashed w0 = false).
    { destruct (dashed w0) eqn:D; [exfalso; apply Ho; now apply dashed_option_like | reflexivity]. }
    cbn [loop1]. rewrite D. replace (str_eqb w0 (s "--")) with false.
    2: { symmetry. destruct (str_eqb_spec w0 (s "--")) as [-> | _]; [discriminate D | reflexivity]. }
    cbn [app]. f_equal. rewrite (switch_word root Hb Htc _ Hsw ps c n k w0 Hl Hcount Hn). apply IH; [exact Hl | lia | exact Hres].
  - cbn [fst snd] in *. assert (D : dashed w0 = false).
    { destruct (dashed w0) eqn:D; [exfalso; apply Ho; now apply dashed_option_like | reflexivity]. }
    cbn [loop1]. rewrite D. replace (str_eqb w0 (s "--")) with false.
    2: { symmetry. destruct (str_eqb_spec w0 (s "--")) as [-> | _]; [discriminate D | reflexivity]. }
    cbn [app]. f_equal. rewrite (switch_command root Hb Htc _ Hsw ps c n k w0 sub Hl Hcount Hn Hs Hw). apply IH; [now constructor | | exact Hres].
    cbn [map sum fold_right]. unfold sum in *. cbn [map fold_right]. lia.
Qed.
End Options.
