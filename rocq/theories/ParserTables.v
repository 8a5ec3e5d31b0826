(** * The clauses of the generated Bash parsers. *)
From Verif Require Import Base Dict Shell StrUtils StrUtilsProofs Abbrev AbbrevProofs Cli SpecCli CliProofs CliMore PyStr
  BashPatterns BashPatternsProofs BashUtils PatternMore SpecShell SpecGlob GlobMatch BashParser SpecParser ParserPaths.
From Coq Require Import Permutation.
Open Scope list_scope.

(** ** Patterns of commands *)
Lemma safe_plain c : is_safe c = true -> plain c = true.
Proof.
  intros H. unfold plain, posix_special, memc. apply negb_true_iff. destruct (existsb _ _) eqn:Ex; [| reflexivity].
  apply existsb_exists in Ex as (d & Hd & Ed). apply N.eqb_eq in Ed. subst d. exfalso.
  cbn in Hd. repeat (destruct Hd as [Hd | Hd]; [subst c; discriminate H |]). destruct Hd.
Qed.
Lemma name_safe x : good_name x -> forallb is_safe x = true.
Proof.
  intros [_ H]. rewrite forallb_forall in *. intros c Hc. specialize (H c Hc). apply andb_prop in H. apply H.
Qed.
Lemma colons_safe l : Forall good_name l -> forallb is_safe (colons l) = true.
Proof.
  induction 1 as [| x l Hx H IH]; [reflexivity |]. cbn [colons]. rewrite !forallb_app, (name_safe x Hx), IH. reflexivity.
Qed.
Lemma path_safe root ps c : tame_commands root -> located root ps c -> forallb is_safe (get_subcommand_path ps c) = true.
Proof. intros Ht H. rewrite path_colons, forallb_app. rewrite (colons_safe _ (good_trail _ _ _ Ht H)). reflexivity. Qed.
Lemma safe_all_plain x : forallb is_safe x = true -> forallb plain x = true.
Proof. rewrite !forallb_forall. intros H c Hc. apply safe_plain, H, Hc. Qed.
Lemma path_nonempty ps c : get_subcommand_path ps c <> [].
Proof. rewrite path_colons. discriminate. Qed.
Lemma quote_safe x : x <> [] -> forallb is_safe x = true -> quote x = x.
Proof. intros Hn H. unfold quote, quote_gen, needs_quote. destruct x as [| c x]; [now destruct Hn |]. cbn [andb]. now rewrite H. Qed.

Lemma plain_case x w : x <> [] -> forallb plain x = true -> (case_matches x w <-> w = x).
Proof.
  intros Hn H. rewrite (case_one x (map Char x)); [apply seq_matches_chars | now apply reads_chars | now apply map_Char_nonempty].
Qed.
Lemma plain_star_case x w : forallb plain x = true -> (case_matches (x ++ s "*") w <-> is_prefix x w).
Proof.
  intros H. rewrite (case_one (x ++ s "*") (map Char x ++ [AnyText])).
  - rewrite seq_matches_app. split.
    + intros (u & v & -> & Hu & _). apply seq_matches_chars in Hu. subst u. now exists v.
    + intros (t & ->). exists x, t. split; [reflexivity |]. split; [now apply seq_matches_chars |]. now apply seq_matches_one.
  - apply reads_app; [now apply reads_chars | exact reads_star].
  - now destruct (map Char x).
Qed.
Lemma command_case root ps c ps' c' : built root -> tame_commands root -> located root ps c -> located root ps' c' ->
  (case_matches (get_subcommand_path ps' c' ++ (if inherits c' then s "*" else [])) (get_subcommand_path ps c) <->
   in_scope (ps, c) (ps', c')).
Proof.
  intros Hb Ht H H'. rewrite (path_scope root) by assumption. pose proof (safe_all_plain _ (path_safe root ps' c' Ht H')) as Hp.
  destruct (inherits c'); [now apply plain_star_case |]. rewrite app_nil_r. apply plain_case; [apply path_nonempty | exact Hp].
Qed.

(** A text in single quotes stands for itself. *)
Lemma read_single x : ~ In SQ x -> forall cur rest, read true GSingle [] [] (Some cur) None (x ++ SQ :: rest) =
  read true GPlain [] [] (Some (cur ++ map Char x)) None rest.
Proof.
  induction x as [| c x IH]; intros Hn cur rest; cbn [app map].
  - rewrite app_nil_r. cbn [read]. change (N.eqb SQ SQ) with true. reflexivity.
  - assert (E : N.eqb c SQ = false) by (apply N.eqb_neq; intros ->; apply Hn; now left).
    cbn [read]. rewrite E. cbn [literal]. change (glob_push (Some cur) (Char c)) with (Some (cur ++ [Char c])). rewrite IH by (intros Hi; apply Hn; now right).
    now rewrite <- app_assoc.
Qed.
Lemma quoted_case x w : x <> [] -> ~ In SQ x -> (forall c, In c x -> is_safe c = true \/ c = PIPE) ->
  (case_matches (quote x) w <-> w = x).
Proof.
  intros Hn Hq Hc. unfold quote, quote_gen. destruct x as [| c x]; [now destruct Hn |]. cbn [andb negb].
  destruct (needs_quote (c :: x)) eqn:E; cbn [negb].
  - assert (Em : memc SQ (c :: x) = false).
    { unfold memc. destruct (existsb _ _) eqn:Ex; [| reflexivity]. apply existsb_exists in Ex as (d & Hd & Ed).
      apply N.eqb_eq in Ed. subst d. contradiction. }
    rewrite Em. cbn [negb]. unfold case_matches, read_case.
    assert (R : read true GPlain [] [] None None ([SQ] ++ (c :: x) ++ [SQ]) = Some [map Char (c :: x)]).
    { change ([SQ] ++ (c :: x) ++ [SQ]) with (SQ :: ((c :: x) ++ SQ :: [])). rewrite read_plain.
      change (N.eqb SQ SQ) with true. cbn iota. change (glob_start None) with (Some (@nil glob)). rewrite (read_single _ Hq). reflexivity. }
    rewrite R. split.
    + intros (alts & Ea & Hm). injection Ea as <-. apply any_matches_iff in Hm as (a & [<- | []] & Hm).
      exact (proj1 (seq_matches_chars (c :: x) w) Hm).
    + intros ->. eexists. split; [reflexivity |]. apply any_matches_iff. eexists. split; [now left |].
      now apply (seq_matches_chars (c :: x)).
  - unfold needs_quote in E. apply negb_false_iff in E. apply plain_case; [discriminate |]. now apply safe_all_plain.
Qed.

(** ** Option strings *)
Lemma valid_long_old x : is_valid_option_string x = true ->
  (is_long_option_string x || is_old_option_string x = true <-> 3 <= List.length x).
Proof.
  intros Hv. destruct (option_style x Hv) as (Hs & Hl & Ho). rewrite orb_true_iff, Hl, Ho. split.
  - intros [(y & Hy & ->) | (c & d & y & _ & ->)]; [destruct y; [congruence |] |]; cbn; lia.
  - intros Hlen. apply valid_option_string_iff in Hv as [y [-> [Hn [Hd _]]]]. destruct y as [| c [| d y]]; cbn in Hlen; try lia.
    destruct (N.eq_dec c DASH) as [-> | Hc]; [left; exists (d :: y); split; [discriminate | reflexivity] | right; exists c, d, y; auto].
Qed.
Lemma valid_short x : is_valid_option_string x = true -> (is_short_option_string x = true <-> List.length x = 2).
Proof. intros _. unfold is_short_option_string. apply Nat.eqb_eq. Qed.
Lemma long_old_strings l x : (forall y, In y l -> is_valid_option_string y = true) ->
  (In x (get_long_option_strings l ++ get_old_option_strings l) <-> In x l /\ 3 <= List.length x).
Proof.
  intros Hv. rewrite in_app_iff. unfold get_long_option_strings, get_old_option_strings. rewrite !filter_In. split.
  - intros [[Hi H] | [Hi H]]; (split; [exact Hi |]); apply (valid_long_old x (Hv x Hi)); rewrite H; [reflexivity | apply orb_true_r].
  - intros [Hi H]. apply (valid_long_old x (Hv x Hi)) in H. apply orb_prop in H. tauto.
Qed.
Lemma short_strings l x : In x (get_short_option_strings l) <-> In x l /\ List.length x = 2.
Proof. unfold get_short_option_strings. rewrite filter_In. unfold is_short_option_string. now rewrite Nat.eqb_eq. Qed.

Lemma located_option_valid root ps c o : built root -> located root ps c -> In o (c_options c) ->
  forall x, In x (o_strings o) -> is_valid_option_string x = true.
Proof.
  intros Hb Hl Ho x Hx. destruct (built_valid root ps c Hb Hl) as (_ & _ & Hopt & _).
  destruct (Hopt o Ho) as (_ & Hs & _). apply valid_option_string_iff. exact (Hs x Hx).
Qed.
Lemma get_options_own root ps c o : built root -> located root ps c ->
  (In o (get_options ps c false false) <-> In o (c_options c)).
Proof.
  intros Hb Hl. destruct (get_options_visible root ps c Hb Hl) as (_ & _ & _ & P).
  split; intros H; [exact (Permutation_in _ P H) | exact (Permutation_in _ (Permutation_sym P) H)].
Qed.
Lemma same_strings_In a b x : same_strings a b = true -> In x (o_strings a) -> In x (o_strings b).
Proof.
  unfold same_strings. rewrite forallb_forall. intros H Hx. specialize (H x (in_or_app _ _ _ (or_introl Hx))).
  apply Nat.eqb_eq in H. apply (count_occ_In str_eq_dec) in Hx. apply (count_occ_In str_eq_dec). lia.
Qed.
Lemma visible_strings chain : forall seen x,
  ((exists o, In o (visible seen chain) /\ In x (o_strings o)) \/ (exists o, In o seen /\ In x (o_strings o))) <->
  ((exists d o, In d chain /\ In o (c_options d) /\ In x (o_strings o)) \/ (exists o, In o seen /\ In x (o_strings o))).
Proof.
  induction chain as [| c chain IH]; intros seen x; cbn [visible].
  - split; (intros [H | H]; [exfalso | now right]); [destruct H as (o & [] & _) | destruct H as (d & o & [] & _)].
  - specialize (IH (seen ++ c_options c) x). split.
    + intros [(o & Ho & Hx) | H]; [| now right]. apply in_app_or in Ho as [Ho | Ho].
      * apply filter_In in Ho as [Ho _]. left. exists c, o. split; [now left | auto].
      * destruct (proj1 IH (or_introl (ex_intro _ o (conj Ho Hx)))) as [(d & o' & Hd & H') | (o' & Ho' & Hx')].
        -- left. exists d, o'. split; [now right | exact H'].
        -- apply in_app_or in Ho' as [Ho' | Ho']; [right; now exists o' |]. left. exists c, o'. split; [now left | auto].
    + assert (Own : forall o, In o (c_options c) -> In x (o_strings o) ->
        (exists o, In o (filter (fun o => negb (existsb (same_strings o) seen)) (c_options c) ++
           visible (seen ++ c_options c) chain) /\ In x (o_strings o)) \/ (exists o, In o seen /\ In x (o_strings o))).
      { intros o Ho Hx. destruct (existsb (same_strings o) seen) eqn:E.
        - apply existsb_exists in E as (o' & Ho' & Es). right. exists o'. split; [exact Ho' | now apply (same_strings_In o)].
        - left. exists o. split; [| exact Hx]. apply in_or_app. left. apply filter_In. now rewrite E. }
      intros [(d & o & [-> | Hd] & Ho & Hx) | H]; [now apply (Own o) | | now right].
      destruct (proj2 IH (or_introl (ex_intro _ d (ex_intro _ o (conj Hd (conj Ho Hx)))))) as [(o' & Ho' & Hx') | (o' & Ho' & Hx')].
      * left. exists o'. split; [apply in_or_app; now right | exact Hx'].
      * apply in_app_or in Ho' as [Ho' | Ho']; [right; now exists o' | now apply (Own o')].
Qed.

Definition abbreviated_words (ps : list cmd) (c : cmd) : list str :=
  flat_map (fun o => get_long_option_strings (o_strings o) ++ get_old_option_strings (o_strings o))
    (get_options ps c (negb (xbool_eqb (c_inherit c) XFalse)) false).
Lemma located_parent root ps c d : located root ps c -> In d (c :: ps) -> exists qs, located root qs d.
Proof.
  intros H. induction H as [| ps c sub H IH Hi]; [intros [<- | []]; exists []; constructor |].
  intros [<- | Hd]; [exists (c :: ps); now constructor | now apply IH].
Qed.
Lemma words_considered root ps c x : built root -> located root ps c ->
  (In x (abbreviated_words ps c) <-> considered (ps, c) x).
Proof.
  intros Hb Hl. unfold abbreviated_words, considered. rewrite in_flat_map. cbn [fst snd].
  assert (Hv : forall d o, In d (c :: ps) -> In o (c_options d) -> forall y, In y (o_strings o) -> is_valid_option_string y = true).
  { intros d o Hd Ho. destruct (located_parent root ps c d Hl Hd) as (qs & Hq). now apply (located_option_valid root qs d). }
  destruct (get_options_visible root ps c Hb Hl) as (P & _ & _ & P'). unfold passes_on.
  destruct (xbool_eqb (c_inherit c) XFalse) eqn:Ei; cbn [negb].
  - assert (Ec : c_inherit c = XFalse) by (destruct (c_inherit c); [discriminate | reflexivity | discriminate]). split.
    + intros (o & Ho & Hx). apply (Permutation_in _ P') in Ho.
      apply long_old_strings in Hx as [Hx Hlen]; [| now apply (Hv c o (or_introl eq_refl))]. exists c, o. auto.
    + intros (d & o & Ho & Hx & Hlen & [-> | [Hn _]]); [| now rewrite Ec in Hn]. exists o.
      split; [exact (Permutation_in _ (Permutation_sym P') Ho) |]. apply long_old_strings; [| auto].
      now apply (Hv c o (or_introl eq_refl)).
  - assert (Ec : c_inherit c <> XFalse) by (intros E; now rewrite E in Ei). split.
    + intros (o & Ho & Hx). apply (Permutation_in _ P) in Ho.
      assert (Hvis : exists d, In d (c :: ps) /\ In o (c_options d)).
      { revert Ho. generalize (@nil opt). generalize (c :: ps). clear. induction l as [| d l IH]; intros seen H; [destruct H |].
        cbn [visible] in H. apply in_app_or in H as [H | H]; [apply filter_In in H as [H _]; exists d; split; [now left | exact H] |].
        destruct (IH _ H) as (e & He & Ho). exists e. split; [now right | exact Ho]. }
      destruct Hvis as (d & Hd & Hod). apply long_old_strings in Hx as [Hx Hlen]; [| now apply (Hv d o Hd)].
      exists d, o. split; [exact Hod |]. split; [exact Hx |]. split; [exact Hlen |].
      destruct Hd as [<- | Hd]; [now left | right; auto].
    + intros (d & o & Ho & Hx & Hlen & Hd).
      assert (Hd' : In d (c :: ps)) by (destruct Hd as [-> | [_ Hd]]; [now left | now right]).
      destruct (proj2 (visible_strings (c :: ps) [] x) (or_introl (ex_intro _ d (ex_intro _ o (conj Hd' (conj Ho Hx))))))
        as [(o' & Ho' & Hx') | (o' & [] & _)].
      exists o'. split; [exact (Permutation_in _ (Permutation_sym P) Ho') |].
      assert (Hvis : exists d, In d (c :: ps) /\ In o' (c_options d)).
      { revert Ho'. generalize (@nil opt). generalize (c :: ps). clear. induction l as [| d l IH]; intros seen H; [destruct H |].
        cbn [visible] in H. apply in_app_or in H as [H | H]; [apply filter_In in H as [H _]; exists d; split; [now left | exact H] |].
        destruct (IH _ H) as (e & He & Ho). exists e. split; [now right | exact Ho]. }
      destruct Hvis as (d' & Hd2 & Hod). apply long_old_strings; [now apply (Hv d' o' Hd2) | auto].
Qed.

Lemma many_in d words : forall l, get_many_abbreviations d words = Ok l ->
  forall a, In a l <-> exists w la, In w words /\ get_abbreviations d w = Ok la /\ In a la.
Proof.
  induction words as [| w words IH]; intros l H a; cbn [get_many_abbreviations] in H.
  - injection H as <-. split; [intros [] | intros (w & la & [] & _)].
  - destruct (get_abbreviations d w) as [e | la] eqn:E; [discriminate |]. cbn in H.
    destruct (get_many_abbreviations d words) as [e | r]; [discriminate |]. cbn in H. injection H as <-.
    rewrite in_app_iff, (IH r eq_refl). split.
    + intros [Ha | (w' & la' & Hw & H)]; [exists w, la; split; [now left | auto] | exists w', la'; split; [now right | exact H]].
    + intros (w' & la' & [<- | Hw] & E' & Ha); [left; rewrite E in E'; now injection E' as <- | right; exists w', la'; auto].
Qed.

(** The long and old-style spellings that the generators compute. *)
Lemma spelled_words root ps c a o l1 l2 : built root -> located root ps c -> In o (c_options c) ->
  get_option_abbreviator ps c = Ok a ->
  many_abbreviations a (get_long_option_strings (o_strings o)) = Ok l1 ->
  many_abbreviations a (get_old_option_strings (o_strings o)) = Ok l2 ->
  forall x, In x (l1 ++ l2) <-> spelling (ps, c) o x /\ 3 <= List.length x.
Proof.
  intros Hb Hl Ho Ha H1 H2 x. pose proof (located_option_valid root ps c o Hb Hl Ho) as Hv.
  unfold spelling. cbn [snd]. unfold get_option_abbreviator in Ha. fold (abbreviated_words ps c) in Ha.
  assert (Hoff : c_abbrev_opts c = XFalse \/ exists d, a = Some d /\ option_abbreviations (abbreviated_words ps c) = Ok d /\ c_abbrev_opts c <> XFalse).
  { destruct (c_abbrev_opts c); [right | now left | right];
      (destruct (option_abbreviations (abbreviated_words ps c)) as [e | d]; [discriminate |]; injection Ha as <-; exists d; split; [reflexivity |]; split; [reflexivity | discriminate]). }
  destruct Hoff as [Eoff | (d & -> & Ed & Eon)].
  - rewrite Eoff in Ha. injection Ha as <-. injection H1 as <-. injection H2 as <-.
    rewrite (long_old_strings _ _ Hv). split; [intros [Hx Hlen]; auto |]. intros [[_ [Hx | (Hn & _)]] Hlen]; [auto | now rewrite Eoff in Hn].
  - unfold option_abbreviations in Ed. destruct (forallb option_word_ok _); [| discriminate]. injection Ed as <-.
    cbn [many_abbreviations] in H1, H2. rewrite in_app_iff, (many_in _ _ _ H1), (many_in _ _ _ H2).
    assert (E : ((exists w la, In w (get_long_option_strings (o_strings o)) /\
               get_abbreviations (general_abbreviations 3 (abbreviated_words ps c)) w = Ok la /\ In x la) \/
            (exists w la, In w (get_old_option_strings (o_strings o)) /\
               get_abbreviations (general_abbreviations 3 (abbreviated_words ps c)) w = Ok la /\ In x la)) <->
            (exists w la, In w (get_long_option_strings (o_strings o) ++ get_old_option_strings (o_strings o)) /\
               get_abbreviations (general_abbreviations 3 (abbreviated_words ps c)) w = Ok la /\ In x la)).
    { split; [intros [(w & la & Hw & H) | (w & la & Hw & H)]; exists w, la; (split; [apply in_or_app; auto | exact H]) |].
      intros (w & la & Hw & H). apply in_app_or in Hw as [Hw | Hw]; [left | right]; exists w, la; auto. }
    rewrite E. clear E. split.
    + intros (w & la & Hw & E & Hx). apply (long_old_strings _ _ Hv) in Hw as [Hw Hlen].
      apply (abbreviations_iff 3 _ w la E x) in Hx as (Hp & Hl3 & Hx). split; [| exact Hl3]. split; [exact Ho |].
      destruct Hx as [-> | Hx]; [now left |]. right. split; [exact Eon |]. split; [exact Hl3 |]. exists w. split; [exact Hw |].
      split; [exact Hp |]. intros z Hz. apply Hx. now apply (words_considered root).
    + intros [[_ Hs] Hlen].
      assert (Hy : exists y, In y (o_strings o) /\ 3 <= List.length y /\ is_prefix x y /\
                (x = y \/ forall z, considered (ps, c) z -> z <> y -> ~ is_prefix x z)).
      { destruct Hs as [Hx | (_ & _ & y & Hy & Hp & Hu)].
        - exists x. split; [exact Hx |]. split; [exact Hlen |]. split; [exists []; now rewrite app_nil_r | now left].
        - exists y. split; [exact Hy |]. split; [destruct Hp as (t & ->); rewrite app_length; lia |]. split; [exact Hp | now right]. }
      destruct Hy as (y & Hy & Hly & Hp & Hu).
      assert (Hw : In y (abbreviated_words ps c)).
      { apply (words_considered root); try assumption. exists c, o. cbn [fst snd]. auto. }
      destruct (abbreviations_complete 3 (abbreviated_words ps c) y Hw) as (la & E & _).
      exists y, la. split; [now apply (long_old_strings _ _ Hv) |]. split; [exact E |].
      apply (abbreviations_iff 3 _ y la E x). split; [exact Hp |]. split; [exact Hlen |].
      destruct Hu as [-> | Hu]; [now left | right]. intros z Hz. apply Hu. now apply (words_considered root).
Qed.
Lemma spelled_short root ps c o x : built root -> located root ps c -> In o (c_options c) ->
  (In x (get_short_option_strings (o_strings o)) <-> spelling (ps, c) o x /\ List.length x = 2).
Proof.
  intros Hb Hl Ho. rewrite short_strings. unfold spelling. cbn [snd]. split.
  - intros [Hx Hlen]. auto.
  - intros [[_ [Hx | (_ & H3 & _)]] Hlen]; [auto | lia].
Qed.
Lemma spelling_length root ps c o x : built root -> located root ps c -> spelling (ps, c) o x ->
  List.length x = 2 \/ 3 <= List.length x.
Proof.
  intros Hb Hl [Ho [Hx | (_ & H3 & _)]]; [| now right].
  pose proof (located_option_valid root ps c o Hb Hl Ho x Hx) as Hv.
  destruct x as [| a [| b [| d x]]]; try discriminate Hv; [now left | right; cbn; lia].
Qed.
(** Spellings consist of the characters of option strings. *)
Lemma spelling_chars root ps c o x : plain_options root -> located root ps c -> spelling (ps, c) o x ->
  forallb plain x = true /\ ~ In EQ x.
Proof.
  intros Ht Hl [Ho Hx]. assert (H : forall d, In d x -> plain d = true /\ d <> EQ).
  { intros d Hd. destruct Hx as [Hx | (_ & _ & y & Hy & (t & ->) & _)].
    - apply (Ht ps c o x d Hl Ho Hx Hd).
    - apply (Ht ps c o (x ++ t) d Hl Ho Hy). apply in_or_app. now left. }
  split; [apply forallb_forall; intros d Hd; apply H, Hd |]. intros Hd. now destruct (H _ Hd).
Qed.
Lemma spelling_dash root ps c o x : built root -> located root ps c -> spelling (ps, c) o x ->
  exists y, x = DASH :: y /\ y <> [] /\ y <> [DASH].
Proof.
  intros Hb Hl [Ho Hx]. destruct Hx as [Hx | (_ & H3 & y & Hy & (t & ->) & _)].
  - pose proof (located_option_valid root ps c o Hb Hl Ho x Hx) as Hv.
    apply valid_option_string_iff in Hv as [y [-> [Hn [Hd _]]]]. exists y. auto.
  - pose proof (located_option_valid root ps c o Hb Hl Ho _ Hy) as Hv.
    apply valid_option_string_iff in Hv as [y [E [Hn [Hd _]]]]. destruct x as [| a x]; [cbn in H3; lia |].
    cbn [app] in E. injection E as -> E. exists x. split; [reflexivity |].
    split; intros ->; cbn in H3; lia.
Qed.
