(** * Theorems about file patterns: C40, C74-C76. *)
From Verif Require Import Base SpecShell SpecGlob SpecPattern SpecRegex SpecZshGlob Pattern PatternProofs RegexProofs
  FishFiles BashUtils RegexMore ZshGlobProofs PatternErrors.
Open Scope list_scope.

Lemma inl_inj {A B} (a b : A) : @inl A B a = inl b -> a = b.
Proof. intros H. now injection H. Qed.

(** ** C40 *)

(** The regular expression made for Fish matches the names that the Bash pattern matches, for
    patterns whose literal text has no backslash, [^] or [$]. *)
Theorem C40_regex_partial : forall ps, pattern_ok reg_kinds ps = true ->
  exists r, bash_glob_to_regex (pattern_text ps) = Ok r /\
  forall w, ~ In LF w -> (regex_full r w <-> glob_matches (pattern_text ps) w).
Proof.
  intros ps H. apply andb_prop in H as [Hn Hok]. assert (Hne : ps <> []) by (destruct ps; discriminate).
  eexists. split; [now apply regex_translated |]. intros w Hw. unfold regex_full, glob_matches, pattern_text.
  rewrite (rreads_whole _ _ (regex_read ps Hok)), (pattern_read reg_kinds ps Hne Hok).
  pose proof (sim_seq _ (pieces_sim ps Hok) [] w [] Hw) as K. split.
  - intros (alts & E & Hm). injection E as <-. destruct Hm as [Hm | []]. exists (flat_map gl_of ps). split; [reflexivity |]. now apply K.
  - intros (gs & E & Hm). injection E as <-. eexists. split; [reflexivity |]. left. now apply K.
Qed.
Print Assumptions C40_regex_partial.

(** The same for Zsh, for patterns with no other group than [@(..)] and whose characters need
    no quotes. *)
Theorem C40_zsh_partial : forall ps, pattern_ok zsh_kinds ps = true -> forallb unquoted_ok ps = true ->
  exists z, bash_glob_to_zsh_glob (pattern_text ps) = Ok z /\
  forall w, zsh_matches z w <-> glob_matches (pattern_text ps) w.
Proof.
  intros ps H Hu. apply andb_prop in H as [Hn Hok]. assert (Hne : ps <> []) by (destruct ps; discriminate).
  eexists. split; [now apply zsh_translated |]. intros w. unfold zsh_matches, glob_matches, pattern_text.
  now rewrite (zsh_read ps Hok Hu), (pattern_read zsh_kinds ps Hne Hok).
Qed.
Print Assumptions C40_zsh_partial.

(** [a*.@(tar|[!b-d]?|"x")] *)
Definition sample : list piece :=
  [Lit (LPlain 97); Some_text; Lit (LPlain DOT);
   Group ExactlyOne [[Lit (LPlain 116); Lit (LPlain 97); Lit (LPlain 114)];
                     [Bracket true [LPlain 98; LPlain DASH; LPlain 100]; Any]; [Lit (LDouble (s "x"))]]].
Example C40_example :
  pattern_ok reg_kinds sample = true /\ pattern_ok zsh_kinds sample = true /\ forallb unquoted_ok sample = true /\
  pattern_text sample = s "a*.@(tar|[!b-d]?|" ++ [DQ] ++ s "x" ++ [DQ] ++ s ")" /\
  bash_glob_to_regex (pattern_text sample) = Ok (s "a.*\.(tar|[^b-d].|x)") /\
  bash_glob_to_zsh_glob (pattern_text sample) = Ok (s "a*.(tar|[!b-d]?|x)").
Proof. vm_compute. repeat split; reflexivity. Qed.
(** Quoted text with characters that are special in regular expressions. *)
Example C40_quoted_example :
  let ps := [Group AtLeastOne [[Lit (LSingle (s "(.*)|+"))]; []]] in
  pattern_ok reg_kinds ps = true /\ pattern_text ps = s "+('(.*)|+'|)" /\
  bash_glob_to_regex (pattern_text ps) = Ok (s "(\(\.\*\)\|\+|)+").
Proof. vm_compute. repeat split; reflexivity. Qed.

(** Without the restriction the claim is false: a dollar sign in quotes stays an anchor, so the
    file [a$] is not matched and the file [a] is, ... *)
Theorem C40_dollar_refuted :
  bash_glob_to_regex (s "'a$'") = Ok (s "a$") /\
  glob_matches (s "'a$'") (s "a$") /\ ~ regex_full (s "a$") (s "a$") /\
  ~ glob_matches (s "'a$'") (s "a") /\ regex_full (s "a$") (s "a").
Proof.
  split; [reflexivity |]. split; [| split; [| split]].
  - exists [Char 97; Char DOLLAR]. split; [reflexivity |]. exists [97%N], [DOLLAR]. split; [reflexivity |]. split; [reflexivity |].
    exists [DOLLAR], []. repeat split; reflexivity.
  - intros (alts & E & H). vm_compute in E. injection E as <-. destruct H as [(u & v & E1 & -> & u2 & v2 & -> & [-> _] & Hv) | []].
    cbn in Hv. subst v2. discriminate.
  - intros (gs & E & H). vm_compute in E. injection E as <-. destruct H as (u & v & E1 & -> & u2 & v2 & -> & -> & Hv). discriminate.
  - exists [[RChar 97; REnd]]. split; [reflexivity |]. left. exists [97%N], []. split; [reflexivity |]. split; [reflexivity |].
    exists [], []. split; [reflexivity |]. split; [split; [reflexivity | now left] | reflexivity].
Qed.
Print Assumptions C40_dollar_refuted.

(** ... a backslash in quotes stays an escape character, so ['\d'] matches every digit, ... *)
Theorem C40_backslash_refuted :
  bash_glob_to_regex (s "'\d'") = Ok (s "\d") /\
  ~ glob_matches (s "'\d'") (s "7") /\ regex_full (s "\d") (s "7").
Proof.
  split; [reflexivity |]. split.
  - intros (gs & E & H). vm_compute in E. injection E as <-. destruct H as (u & v & E1 & -> & u2 & v2 & -> & -> & Hv). discriminate.
  - exists [[RSet false [(48, 57)%N]]]. split; [reflexivity |]. left. exists (s "7"), []. split; [reflexivity |].
    split; [| reflexivity]. exists 55%N. split; reflexivity.
Qed.
Print Assumptions C40_backslash_refuted.

(** ... a star behind a backslash is taken for a wildcard, ... *)
Theorem C40_escaped_star_refuted :
  bash_glob_to_regex (s "\*") = Ok (s "\.*") /\
  glob_matches (s "\*") (s "*") /\ ~ regex_full (s "\.*") (s "*").
Proof.
  split; [reflexivity |]. split.
  - exists [Char STAR]. split; [reflexivity |]. exists [STAR], []. repeat split; reflexivity.
  - intros (alts & E & H). vm_compute in E. injection E as <-. destruct H as [(u & v & E1 & Hs & Hv) | []].
    cbn in Hv. subst v. rewrite app_nil_r in E1. subst u. cbn [rmatch] in Hs.
    remember (s "*") as w eqn:Ew. destruct Hs as [| b u v a Hu _]; [discriminate |]. cbn in Hu. subst u. discriminate.
Qed.
Print Assumptions C40_escaped_star_refuted.

(** ... [[^a]] matches [a] in Fish, ... *)
Theorem C40_caret_refuted :
  bash_glob_to_regex (s "[^a]") = Ok (s "[\\^a]") /\
  ~ glob_matches (s "[^a]") (s "a") /\ regex_full (s "[\\^a]") (s "a").
Proof.
  split; [reflexivity |]. split.
  - intros (gs & E & H). vm_compute in E. injection E as <-. destruct H as (u & v & E1 & (c & -> & Hc) & Hv).
    cbn in Hv. subst v. injection E1 as <-. discriminate.
  - eexists. split; [vm_compute; reflexivity |]. left. exists (s "a"), []. split; [reflexivity |]. split; [| reflexivity].
    exists 97%N. split; reflexivity.
Qed.
Print Assumptions C40_caret_refuted.

(** ... and parentheses in quotes become a group in Zsh. *)
Theorem C40_zsh_parentheses_refuted :
  bash_glob_to_zsh_glob (s "'(x)'") = Ok (s "(x)") /\
  ~ glob_matches (s "'(x)'") (s "x") /\ zsh_matches (s "(x)") (s "x").
Proof.
  split; [reflexivity |]. split.
  - intros (gs & E & H). vm_compute in E. injection E as <-. destruct H as (u & v & E1 & -> & _). discriminate.
  - eexists. split; [vm_compute; reflexivity |]. exists (s "x"), []. split; [reflexivity |]. split; [| reflexivity].
    left. exists (s "x"), []. repeat split; reflexivity.
Qed.
Print Assumptions C40_zsh_parentheses_refuted.

(** ** C74 *)

(** Fish leaves out exactly the paths whose file name matches one of the patterns to be ignored. *)
Theorem C74_fish_ignore_partial : forall pss path,
  pss <> [] -> (forall ps, In ps pss -> pattern_ok reg_kinds ps = true) -> ~ In LF path ->
  exists arg, ignore_regex (map pattern_text pss) = Ok arg /\
  (regex_found (remove_regex arg) path <->
   exists ps u v, In ps pss /\ path = u ++ v /\ directory u /\ glob_matches (pattern_text ps) v).
Proof.
  intros pss path Hn Hok Hlf. apply removed; [exact Hn | | | exact Hlf].
  - rewrite forallb_forall. intros ps Hps. specialize (Hok ps Hps). now apply andb_prop in Hok as [_ Hok].
  - intros ps Hps ->. specialize (Hok [] Hps). discriminate.
Qed.
Print Assumptions C74_fish_ignore_partial.
Example C74_example :
  let tilde := [Some_text; Lit (LSingle (s "~"))] in
  (forall ps, In ps [sample; tilde] -> pattern_ok reg_kinds ps = true) /\
  ignore_regex (map pattern_text [sample; tilde]) = Ok (s "(a.*\.(tar|[^b-d].|x))|(.*~)") /\
  glob_matches (pattern_text tilde) (s "x~").
Proof.
  split; [intros ps [<- | [<- | []]]; reflexivity |]. split; [reflexivity |].
  exists [AnyText; Char TILDE]. split; [reflexivity |]. exists (s "x"), (s "~"). split; [reflexivity |]. split; [exact I |].
  exists (s "~"), []. repeat split; reflexivity.
Qed.

(** ** C75 *)

(** Fish offers directories and exactly those files that end in a dot and one of the extensions,
    whatever the case of the letters; with [fuzzy] more text may follow. *)
Theorem C75_fish_extensions_partial : forall exts (fuzzy : bool) path,
  exts <> [] -> (forall x, In x exts -> forallb plain x = true) -> ~ In LF path ->
  (regex_found (select_regex (get_extension_regex exts fuzzy)) path <->
   (exists u, path = u ++ s "/") \/
   exists x u v t, In x exts /\ path = u ++ s "." ++ v ++ t /\ lower v = lower x /\ (fuzzy = true \/ t = [])).
Proof. exact selected. Qed.
Print Assumptions C75_fish_extensions_partial.
Example C75_example :
  get_extension_regex [s "c++"; s "tar.gz"] false = s "(.*\.[cC]\+\+)|(.*\.[tT][aA][rR]\.[gG][zZ])" /\
  forallb plain (s "c++") = true /\ forallb plain (s "tar.gz") = true /\ lower (s "GZ") = lower (s "gz").
Proof. repeat split; reflexivity. Qed.

(** Other characters are not escaped: the extension [b$], a valid one, selects the files that end
    in [.b]. *)
Theorem C75_dollar_refuted :
  let path := s "a.b$" in
  select_regex (get_extension_regex [s "b$"] false) = s "(.*/$)|((.*\.[bB]$))$" /\
  ~ regex_found (select_regex (get_extension_regex [s "b$"] false)) path.
Proof.
  intros path. split; [reflexivity |].
  assert (H : forall alts before u after rs, read_regex (select_regex (get_extension_regex [s "b$"] false)) = Some alts ->
    path = before ++ u ++ after -> rany alts before u after -> rs = alts -> False); [| intros (alts & b & u & a & E & Ep & Hm); exact (H alts b u a alts E Ep Hm eq_refl)].
  intros alts before u after rs E Ep Hm _. vm_compute in E. injection E as <-.
  destruct Hm as [Hm | [Hm | []]].
  - apply rseq_one, rmatch_group1 in Hm. destruct Hm as (u1 & v1 & -> & _ & u2 & v2 & -> & -> & _).
    assert (Hin : In SLASH path). { rewrite Ep, !in_app_iff. right. left. right. left. now left. }
    cbn in Hin. repeat (destruct Hin as [Hin | Hin]; [discriminate |]). destruct Hin.
  - destruct Hm as (u1 & v1 & -> & Hg & u2 & v2 & -> & [-> Ha] & Hv). cbn in Hv. subst v2.
    apply rmatch_group1, rseq_one, rmatch_group1 in Hg.
    destruct Hg as (w1 & x1 & -> & _ & w2 & x2 & -> & -> & w3 & x3 & -> & (c & -> & Hc) & w4 & x4 & -> & [-> Hb] & Hx).
    cbn in Hx. subst x4. rewrite ?app_nil_r in Ep. cbn [app] in Ha, Hb, Ep.
    assert (El : last path 0%N = c \/ last path 0%N = LF).
    { rewrite Ep. destruct Ha as [-> | ->].
      - left. rewrite app_nil_r. change (w1 ++ DOT :: [c]) with (w1 ++ [DOT] ++ [c]). rewrite !app_assoc. apply last_last.
      - right. rewrite !app_assoc. apply last_last. }
    destruct El as [El | El]; [| discriminate]. rewrite <- El in Hc. discriminate.
Qed.
Print Assumptions C75_dollar_refuted.

(** ** C76 *)

(** Whatever the text, the translations end: with a pattern, with the exception for invalid
    patterns, or with [AttributeError]. *)
Theorem C76_ends_partial : forall x,
  (forall e, bash_glob_to_regex x = Err e -> e = AttributeError \/ exists m, e = ValueError m) /\
  (forall e, bash_glob_to_zsh_glob x = Err e -> e = AttributeError \/ exists m, e = ValueError m).
Proof.
  intros x. destruct (translations_settled x) as [H1 H2].
  split; intros e E; [destruct H1 as [(y & K) | [(m & K) | K]] | destruct H2 as [(y & K) | [(m & K) | K]]]; rewrite K in E;
    (discriminate || (apply inl_inj in E; subst e; eauto)).
Qed.
Print Assumptions C76_ends_partial.

(** Not every invalid pattern is reported as one: a stray bracket ends the program with an
    [AttributeError], and so does the valid pattern [!x]. *)
Theorem C76_stray_refuted :
  bash_glob_to_regex (s "a]") = Err AttributeError /\ bash_glob_to_regex (s "!x") = Err AttributeError /\
  glob_matches (s "!x") (s "!x").
Proof.
  split; [reflexivity |]. split; [reflexivity |]. exists [Char BANG; Char 120]. split; [reflexivity |].
  exists (s "!"), (s "x"). split; [reflexivity |]. split; [reflexivity |]. exists (s "x"), []. repeat split; reflexivity.
Qed.
Print Assumptions C76_stray_refuted.
Example C76_example :
  (exists m, bash_glob_to_regex (s "@(a") = Err (ValueError m)) /\ (exists m, bash_glob_to_regex (s "[]") = Err (ValueError m)) /\
  (exists m, bash_glob_to_regex (s "'a") = Err (ValueError m)) /\ (exists m, bash_glob_to_zsh_glob (s "*(a)") = Err (ValueError m)) /\
  (exists m, bash_glob_to_regex (s "a!(b)") = Err (ValueError m)).
Proof. repeat split; eexists; reflexivity. Qed.
