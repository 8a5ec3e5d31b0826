(** * Proofs: the commands for one (sub-)command, from the command line to the offers. *)
From Coq Require Import Permutation.
From Verif Require Import Base Value Dict Abbrev AbbrevProofs Algo AlgoProofs StrUtils StrUtilsProofs Shell SpecShell ShellProofs ShellParser When SpecWhen WhenProofs WhenTests
  Cli SpecCli CliProofs CliMore SpecParser ParserProofs ParserTables
  FishUtils SpecFish FishProofs FishConditions FishEval FishCommand FishRuntime SpecOffered SpecFishOffers FishOffered FishOffers.
Open Scope list_scope.

Lemma command_args_none : forall c ps, no_command_arg c -> command_arg_numbers ps c = [].
Proof.
  fix IH 1. intros [prog help aliases wraps a b inh options positionals subcommands] ps H.
  set (c := Cmd prog help aliases wraps a b inh options positionals subcommands) in *.
  assert (E : filter (fun p => is_command_arg (p_complete p)) positionals = []).
  { assert (K : forall p, In p positionals -> is_command_arg (p_complete p) = false) by (intros p Hp; apply (H [] c p); [constructor | exact Hp]).
    clear -K. induction positionals as [| p l IHl]; [reflexivity |]. cbn [filter]. rewrite (K p (or_introl eq_refl)). apply IHl. intros x Hx. apply K. now right. }
  unfold c. cbn [command_arg_numbers]. rewrite E. cbn [map]. rewrite app_nil_r. destruct subcommands as [l |]; [| reflexivity].
  fold c. assert (Hs : forall sub, In sub l -> no_command_arg sub).
  { intros sub Hsub rs d p Hd Hp. apply (H (rs ++ [c]) d p); [apply located_down with (sub := sub); [exact Hsub | exact Hd] | exact Hp]. }
  clear H E. clearbody c. revert l Hs. fix go 1. intros [| sub l] Hs; [reflexivity |].
  rewrite (IH sub (c :: ps)) by (apply Hs; now left). apply go. intros x Hx. apply Hs. now right.
Qed.
Lemma fix_none d : fix_command_arg [] d = d.
Proof. destruct d as [sh lo ol p de ra ko args conditions w]. unfold fix_command_arg. cbn [map]. rewrite app_nil_r. now destruct (sh ++ lo ++ ol). Qed.

Lemma map_res_ok {A B} (f : A -> res B) l : forall r, map_res f l = Ok r -> Forall2 (fun x y => f x = Ok y) l r.
Proof.
  induction l as [| x l IH]; intros r H; cbn [map_res] in H; [injection H as <-; constructor |].
  apply bind_ok in H as (y & Hy & H). apply bind_ok in H as (ys & Hys & H). injection H as <-. constructor; auto.
Qed.

Lemma prefix_clean x y : is_prefix x y -> clean [y] -> clean [x].
Proof. intros [t ->] H z [<- | []]. destruct (H _ (or_introl eq_refl)) as [H1 H2]. split; intros K; [apply H1 | apply H2]; apply in_or_app; now left. Qed.
Lemma contains_clean root ps : forall c l, located root ps c -> sound_names ps c -> positional_contains ps c = Ok l ->
  forall x, In x l -> clean (cond_strings x).
Proof.
  induction ps as [| p ps IH]; intros c l Hl Hn H; cbn [positional_contains] in H.
  - injection H as <-. intros x [].
  - apply bind_ok in H as (conds & Hc & H). apply bind_ok in H as (cmds & Hv & H). injection H as <-.
    destruct (located_cons_inv root p ps c Hl) as [Hp Hs]. destruct Hn as (Hne & _ & Hcl & Hnp).
    intros x Hx. apply in_app_or in Hx as [Hx | [<- | []]]; [now apply (IH p conds Hp Hnp Hc) |]. cbn [cond_strings].
    intros y Hy. apply (variations_names p c cmds Hs Hne Hv) in Hy as [-> | [Hy | (_ & _ & Hy & _)]].
    + apply Hcl. now left.
    + apply Hcl. now right.
    + apply (prefix_clean _ _ Hy); [| now left]. intros z [<- | []]. apply Hcl. now left.
Qed.

Lemma when_parsed_spec ere w d cond : when_parsed ere w = Ok d -> sound_when ere w cond ->
  match d with Some (t :: ts) => exists l, cond = Some l /\ t :: ts = map wtok_of (conds_syms l) /\
      (forall o, In (STest o) (conds_syms l) -> sound_test o /\ clean (test_arguments o)) | _ => cond = None end.
Proof.
  destruct w as [[| c x] |]; cbn [when_parsed sound_when]; intros H Hw; try (injection H as <-; exact Hw).
  apply bind_ok in H as (ts & Hts & H). injection H as <-. destruct Hw as (l & -> & Hp & Hl). rewrite Hp in Hts. injection Hts as <-.
  destruct (map wtok_of (conds_syms l)) as [| t ts] eqn:E; [| eauto].
  exfalso. apply map_eq_nil in E. revert E. apply conds_syms_nonempty.
Qed.

Section Block.
Variable matches : str -> bool -> str -> bool.
Variable incomplete : list str -> bool.
Variable q : query.
Variable e : env.
Hypothesis He : good_names e.
Variable prog : str.
Hypothesis Hprog : e (s "prog") = Some prog.
Variable root : cmd.
Hypothesis Hb : built root.
Variable ere : str -> bool.
Variable completer : list value -> list str.
Notation truth := (fish_truth matches incomplete q e).
Notation P := (q_positionals q).
Notation G := (q_options q).
Notation offers := (offers matches incomplete q e prog).
Notation option_says := (option_says matches incomplete q e prog ere).
Notation positional_says := (positional_says matches incomplete q e prog ere).
Notation subcommands_says := (subcommands_says matches incomplete q e prog).

Lemma offers_says d k cond (offered : Prop) :
  (forall x, In x (d_conditions d) -> clean (cond_strings x)) ->
  match d_when d with Some (t :: ts) => exists l, cond = Some l /\ t :: ts = map wtok_of (conds_syms l) /\
      (forall o, In (STest o) (conds_syms l) -> sound_test o /\ clean (test_arguments o)) | _ => cond = None end ->
  ((forall x, In x (d_conditions d) -> cond_true truth e x = true) /\ when_holds matches q cond <-> offered) ->
  says e prog (helper e (s "P")) d k -> offers k offered.
Proof.
  intros Hcl Hw Ho [S1 _ _ _ _ _ (texts & Hk & Hf)]. split; [exact S1 |]. rewrite Hk. split.
  - rewrite <- Ho. apply (texts_hold matches incomplete q e He ere d texts cond Hcl Hw Hf).
  - intros x [<- | Hx].
    + exists true. rewrite prepare_eval by exact He. change truth with (T matches incomplete q e). rewrite (truth_of matches incomplete q e He (s "P") []) by (cbn; tauto). reflexivity.
    + clear -Hcl Hw Hf Hx He ere. unfold get_conditions in Hf. apply Forall2_app_inv_l in Hf as (t1 & t2 & H1 & H2 & ->). apply in_app_or in Hx as [Hx | Hx].
      * assert (Hcl' : forall x, In x (optimized_conditions (d_conditions d)) -> clean (cond_strings x)).
        { intros y Hy. apply Hcl. now apply (Permutation_in _ (optimized_perm _)). }
        clear -H1 Hx Hcl' He. revert t1 H1 Hx. induction (optimized_conditions (d_conditions d)) as [| c l IH]; intros t1 H1 Hx; cbn [map] in H1; inversion H1 as [| ? v ? t1' Hv Hr]; subst; [destruct Hx |].
        destruct Hx as [<- | Hx]; [| apply (IH (fun y Hy => Hcl' y (or_intror Hy)) t1' Hr Hx)].
        destruct (cond_eval truth e He c (Hcl' c (or_introl eq_refl))) as (text & Ht & Ev). rewrite Hv in Ht. injection Ht as <-. eauto.
      * destruct (d_when d) as [[| t ts] |]; [inversion H2; subst; destruct Hx | | inversion H2; subst; destruct Hx].
        destruct Hw as (l & -> & Ew & Hl). inversion H2 as [| ? v ? t2' Hv Hr]; subst. inversion Hr; subst. destruct Hx as [<- | []]. rewrite Ew in Hv.
        destruct (when_means truth e He l (fun o Ho => proj2 (Hl o Ho))) as (text & Ht & Ev). rewrite Hv in Ht. injection Ht as <-. eauto.
Qed.

Lemma option_definition ps c o d k : located root ps c -> clean_scope completer ps c -> In o (c_options c) ->
  complete_option ere completer ps c o = Ok d -> says e prog (helper e (s "P")) d k -> option_says ps c o k.
Proof.
  intros Hl Hs Ho H Hk. pose proof (fun Hp => option_conditions matches incomplete q e He root Hb ere completer ps c o d Hl (scope_names _ _ _ Hs) Ho H Hp) as Hoc.
  specialize (Hoc (scope_before _ _ _ Hs)).
  unfold complete_option in H. apply bind_ok in H as (confl & Hcf & H). apply bind_ok in H as (contains & Hct & H). apply bind_ok in H as (w & Hw & H).
  injection H as <-. pose proof Hk as [_ S2 S3 _ S5 S6 _]. cbn [d_short d_long d_old d_description d_requires_argument d_keep_order d_conditions d_when] in *.
  destruct (getters_partition (o_strings o) (fun x Hx => located_option_valid root ps c o Hb Hl Ho x Hx)) as (Hperm & _).
  split; [| split; [exact S3 | split; [exact S5 | split; [exact S6 |]]]].
  - etransitivity; [apply S2 | exact Hperm].
    + eapply Permutation_Forall; [symmetry; exact Hperm | apply (scope_dashes _ _ _ Hs o Ho)].
    + apply Forall_forall. intros x Hx. now apply filter_In in Hx.
    + apply Forall_forall. intros x Hx. now apply filter_In in Hx.
    + apply Forall_forall. intros x Hx. now apply filter_In in Hx.
  - intros cond Hcond. eapply (offers_says _ _ cond); [| | | exact Hk].
    + cbn [d_conditions]. intros x Hx. 
      destruct (conflicting_spec (c_options c) o Ho) as (r & Er & Hr1 & _). rewrite Hcf in Er. injection Er as <-.
      assert (Hcs : forall c' f, In c' (c :: ps) -> In f (c_options c') -> clean (o_strings f)) by (intros; eapply (scope_strings _ _ _ Hs); eassumption).
      apply in_app_or in Hx as [Hx | Hx]; [| apply in_app_or in Hx as [Hx | Hx]; [| apply in_app_or in Hx as [Hx | Hx]]].
      * set (not_has := flat_map o_strings (get_final_options ps c) ++ flat_map o_strings confl ++ (if xtrue (o_repeatable o) then [] else o_strings o)) in *.
        assert (K : x = FNot (FHasOption (uniq str_eqb not_has))) by (destruct not_has; [destruct Hx | now destruct Hx as [<- | []]]). rewrite K. cbn [cond_strings].
        intros y Hy. apply (proj1 (uniq_In str_eqb (list_eq_dec N.eq_dec) str_eqb_spec _ _)) in Hy. unfold not_has in Hy. rewrite !in_app_iff in Hy.
        destruct Hy as [Hy | [Hy | Hy]].
        -- apply in_flat_map in Hy as (f & Hf & Hy). unfold get_final_options in Hf. apply in_flat_map in Hf as (c' & Hc' & Hf). apply filter_In in Hf as [Hf _]. now apply (Hcs c' f).
        -- apply in_flat_map in Hy as (f & Hf & Hy). apply Hr1 in Hf as [Hf _]. apply (Hcs c f); [now left | exact Hf | exact Hy].
        -- destruct (xtrue (o_repeatable o)); [destruct Hy |]. apply (Hcs c o); [now left | exact Ho | exact Hy].
      * destruct (o_hidden o); [| destruct Hx]. destruct Hx as [<- | []]. apply (Hcs c o); [now left | exact Ho].
      * destruct (negb (xtrue (c_inherit c)) && is_some (c_subcommands c)); [| destruct Hx]. destruct Hx as [<- | []]. intros y [].
      * apply (contains_clean root ps c contains Hl (scope_names _ _ _ Hs) Hct x Hx).
    + cbn [d_when]. apply (when_parsed_spec ere (o_when o)); assumption.
    + cbn [d_conditions]. rewrite Hoc. clear. split; [intros [[A B] C]; exact (conj A (conj B C)) | intros [A [B C]]; exact (conj (conj A B) C)].
Qed.
Lemma positional_definition ps c p d k : located root ps c -> clean_scope completer ps c -> In p (c_positionals c) ->
  complete_positional ere completer ps c p = Ok d -> says e prog (helper e (s "P")) d k -> positional_says ps c p k.
Proof.
  intros Hl Hs Hp H Hk. pose proof (positional_conditions matches incomplete q e He root ere completer ps c p d Hl (scope_names _ _ _ Hs) H) as Hoc.
  unfold complete_positional in H. apply bind_ok in H as (contains & Hct & H). apply bind_ok in H as (w & Hw & H).
  injection H as <-. pose proof Hk as [_ S2 S3 _ S5 S6 _]. cbn [d_short d_long d_old d_description d_requires_argument d_keep_order d_conditions d_when] in *.
  split; [| split; [exact S3 | split; [exact S5 | split; [exact S6 |]]]].
  - apply Permutation_nil. symmetry. apply S2; constructor.
  - intros cond Hcond. eapply (offers_says _ _ cond); [| | | exact Hk].
    + cbn [d_conditions]. intros x Hx. apply in_app_or in Hx as [Hx | [<- | []]]; [| intros y []]. apply (contains_clean root ps c contains Hl (scope_names _ _ _ Hs) Hct x Hx).
    + cbn [d_when]. apply (when_parsed_spec ere (p_when p)); assumption.
    + cbn [d_conditions]. rewrite Hoc. reflexivity.
Qed.
Lemma subcommands_definition ps c d k : located root ps c -> clean_scope completer ps c ->
  complete_subcommands completer ps c = Ok d -> says e prog (helper e (s "P")) d k -> subcommands_says ps c k.
Proof.
  intros Hl Hs H Hk. pose proof (subcommands_conditions matches incomplete q e He root completer ps c d Hl (scope_names _ _ _ Hs) H) as Hoc.
  unfold complete_subcommands in H. apply bind_ok in H as (contains & Hct & H).
  injection H as <-. pose proof Hk as [_ S2 S3 _ S5 S6 _]. cbn [d_short d_long d_old d_description d_requires_argument d_keep_order d_conditions d_when] in *.
  split.
  - apply Permutation_nil. symmetry. apply S2; constructor.
  - eapply (offers_says _ _ None); [| | | exact Hk].
    + cbn [d_conditions]. intros x [<- | Hx]; [intros y [] |]. apply (contains_clean root ps c contains Hl (scope_names _ _ _ Hs) Hct x Hx).
    + cbn [d_when]. reflexivity.
    + cbn [d_conditions]. rewrite Hoc. cbn [when_holds]. tauto.
Qed.

Theorem block_offers ps c st ds cmds : located root ps c -> clean_scope completer ps c ->
  definitions ere completer ps c = Ok ds -> Forall2 (fun d k => get_complete_cmd st d = Ok k) ds cmds ->
  exists argss os k1 k2 k3,
    run e (generator_block true cmds) = Some (e, argss) /\
    Forall2 (fun args k => complete_args args = Some k) argss (k1 ++ k2 ++ k3) /\
    Permutation os (c_options c) /\ Forall2 (option_says ps c) os k1 /\
    Forall2 (positional_says ps c) (c_positionals c) k2 /\
    match c_subcommands c with None => k3 = [] | Some _ => exists k, k3 = [k] /\ subcommands_says ps c k end.
Proof.
  intros Hl Hs H Hc. unfold definitions in H. rewrite (command_args_none c ps (scope_command_arg _ _ _ Hs)) in H.
  apply bind_ok in H as (d1 & H1 & H). apply bind_ok in H as (d2 & H2 & H). apply bind_ok in H as (d3 & H3 & H). injection H as <-.
  rewrite (map_id_on (fix_command_arg []) _ (fun d _ => fix_none d)) in Hc.
  apply map_res_ok in H1, H2.
  assert (H3' : match c_subcommands c with None => d3 = [] | Some _ => exists d, d3 = [d] /\ complete_subcommands completer ps c = Ok d end).
  { destruct (c_subcommands c); cbn [is_some] in H3; [| now injection H3]. apply bind_ok in H3 as (d & Hd & H3). injection H3 as <-. eauto. }
  clear H3.
  destruct (get_options_visible root ps c Hb Hl) as (_ & _ & _ & Hperm).
  assert (Hown : forall o, In o (get_options ps c false false) -> In o (c_options c)) by (intros o Ho; exact (Permutation_in _ Hperm Ho)).
  assert (Hcl : forall d, In d (d1 ++ d2 ++ d3) -> clean_definition d).
  { intros d Hd. apply in_app_or in Hd as [Hd | Hd]; [| apply in_app_or in Hd as [Hd | Hd]].
    - clear -Hd H1 Hs Hown Hb Hl. induction H1 as [| o d0 os ds0 Ho _ IH]; [destruct Hd |]. destruct Hd as [<- | Hd]; [| apply IH; [intros; apply Hown; now right | exact Hd]].
      specialize (Hown o (or_introl eq_refl)). unfold complete_option in Ho. apply bind_ok in Ho as (? & _ & Ho). apply bind_ok in Ho as (? & _ & Ho). apply bind_ok in Ho as (? & _ & Ho). injection Ho as <-.
      split; [| split; [exact (proj1 (scope_help _ _ _ Hs) o Hown) | apply (scope_completer _ _ _ Hs)]]. cbn [d_short d_long d_old].
      destruct (getters_partition (o_strings o) (fun x Hx => located_option_valid root ps c o Hb Hl Hown x Hx)) as (Hp & _). intros y Hy. apply (Permutation_in _ Hp) in Hy. apply (scope_strings _ _ _ Hs c o); [now left | exact Hown | exact Hy].
    - assert (Hin : forall p, In p (c_positionals c) -> In p (c_positionals c)) by auto.
      assert (K : forall l, Forall2 (fun x y => complete_positional ere completer ps c x = Ok y) l d2 -> (forall p, In p l -> In p (c_positionals c)) -> clean_definition d).
      { clear -Hd Hs. intros l Hf. induction Hf as [| p d0 l ds0 Ho _ IH]; intros Hin; [destruct Hd |]. destruct Hd as [<- | Hd]; [| apply IH; [exact Hd | intros; apply Hin; now right]].
        specialize (Hin p (or_introl eq_refl)). unfold complete_positional in Ho. apply bind_ok in Ho as (? & _ & Ho). apply bind_ok in Ho as (? & _ & Ho). injection Ho as <-.
        split; [intros ? [] | split; [exact (proj2 (scope_help _ _ _ Hs) p Hin) | apply (scope_completer _ _ _ Hs)]]. }
      exact (K _ H2 Hin).
    - destruct (c_subcommands c); [| subst d3; destruct Hd]. destruct H3' as (d' & -> & Ho). destruct Hd as [<- | []].
      unfold complete_subcommands in Ho. apply bind_ok in Ho as (? & _ & Ho). injection Ho as <-.
      split; [intros ? [] | split; [| apply (scope_completer _ _ _ Hs)]]. cbn [d_description]. intros z Hz. injection Hz as <-. intros y [<- | []]. split; intros K; cbn in K; repeat (destruct K as [K | K]; [discriminate |]); exact K. }
  assert (HP : exists p, e (s "P") = Some p /\ helper e (s "P") = p).
  { destruct He as [Hn _]. destruct (Hn (s "P")) as (f & Hf & _); [cbn; tauto |]. exists f. split; [exact Hf |]. unfold helper. now rewrite Hf. }
  destruct HP as (p & HP & HPh).
  destruct (block_says e prog p st _ cmds (good_helpers e He) Hprog HP Hcl Hc) as (argss & Hrun & Hsay).
  rewrite <- HPh in Hsay.
  apply Forall2_app_inv_l in Hsay as (a1 & a' & F1 & F' & ->). apply Forall2_app_inv_l in F' as (a2 & a3 & F2 & F3 & ->).
  assert (K1 : exists k1, Forall2 (fun args k => complete_args args = Some k) a1 k1 /\ Forall2 (option_says ps c) (get_options ps c false false) k1).
  { clear -F1 H1 Hs Hown Hl Hb He. revert a1 F1. induction H1 as [| o d os ds0 Ho _ IH]; intros a1 F1; inversion F1 as [| ? args ? a1' (k & Hk & Hsay) Hr]; subst; [exists []; split; constructor |].
    destruct (IH (fun o Ho => Hown o (or_intror Ho)) a1' Hr) as (k1 & I1 & I2). exists (k :: k1). split; constructor; try assumption.
    apply (option_definition ps c o d k Hl Hs (Hown o (or_introl eq_refl)) Ho Hsay). }
  assert (K2 : exists k2, Forall2 (fun args k => complete_args args = Some k) a2 k2 /\ Forall2 (positional_says ps c) (c_positionals c) k2).
  { assert (Hin : forall p, In p (c_positionals c) -> In p (c_positionals c)) by auto.
    assert (K : forall l, Forall2 (fun x y => complete_positional ere completer ps c x = Ok y) l d2 -> (forall p, In p l -> In p (c_positionals c)) ->
      exists k2, Forall2 (fun args k => complete_args args = Some k) a2 k2 /\ Forall2 (positional_says ps c) l k2).
    { clear -F2 Hs Hl He. intros l Hf. revert a2 F2. induction Hf as [| o d os ds0 Ho _ IH]; intros a2 F2 Hin; inversion F2 as [| ? args ? a2' (k & Hk & Hsay) Hr]; subst; [exists []; split; constructor |].
      destruct (IH a2' Hr (fun o Ho => Hin o (or_intror Ho))) as (k2 & I1 & I2). exists (k :: k2). split; constructor; try assumption.
      apply (positional_definition ps c o d k Hl Hs (Hin o (or_introl eq_refl)) Ho Hsay). }
    exact (K _ H2 Hin). }
  assert (K3 : exists k3, Forall2 (fun args k => complete_args args = Some k) a3 k3 /\
     match c_subcommands c with None => k3 = [] | Some _ => exists k, k3 = [k] /\ subcommands_says ps c k end).
  { destruct (c_subcommands c).
    - destruct H3' as (d & -> & Ho). inversion F3 as [| ? args ? a3' (k & Hk & Hsay) Hr]; subst. inversion Hr; subst. exists [k]. split; [repeat constructor; exact Hk |].
      exists k. split; [reflexivity |]. exact (subcommands_definition ps c d k Hl Hs Ho Hsay).
    - subst d3. inversion F3; subst. exists []. split; [constructor | reflexivity]. }
  destruct K1 as (k1 & A1 & B1), K2 as (k2 & A2 & B2), K3 as (k3 & A3 & B3).
  exists (a1 ++ a2 ++ a3), (get_options ps c false false), k1, k2, k3. split; [exact Hrun |].
  split; [apply Forall2_app; [exact A1 | apply Forall2_app; assumption] |]. auto.
Qed.
End Block.
