(** * C128: the files and directories that are offered *)
From Verif Require Import Base PyStr SpecShell SpecGlob SpecPattern SpecRegex SpecZshGlob Shell Pattern BashUtils FishFiles RegexMore
  PropertiesRegex BashStrings SpecDict DictSourceProofs FileCompleter SpecFileCompleter FileCompleterProofs.
Require Import Lia.
Open Scope string_scope.
Open Scope list_scope.

(** ** Bash *)

(** The code in a Bash script is read as lines that offer exactly the files that bash-completion lists in
    the directory of the definition, for its extensions, except for those whose name matches one of the
    patterns to be ignored; afterwards the working directory is the one from before.  The patterns must not
    contain quotation marks, blanks and the like. *)
Theorem C128_bash_partial : forall enter lists matches filedir filter start o,
  plain_word filter ->
  (forall p c, In p (f_ignore o) -> In c p -> ~ In c literal_in_values) ->
  (forall p w, In p (f_ignore o) -> matches p w = true <-> value_matches p w) ->
  exists code texts,
    bash_file_text filedir filter o = join [LF] texts /\ Forall2 (line_text filter) code texts /\
    let st := run_lines enter lists matches code (ShellState start []) in
    here st = start /\
    forall path, In path (reply st) <->
      exists there, place enter start (f_directory o) = Some there /\
        In path (lists there (match f_extensions o with [] => [filedir] | exts => [filedir; make_file_extension_pattern exts (f_fuzzy o)] end)) /\
        forall p name, In p (f_ignore o) -> file_name path name -> ~ glob_matches p name.
Proof.
  intros enter lists matches filedir filter start o Hf Hq Hm. exists (bash_file filedir o), (map (show_line filter) (bash_file filedir o)).
  split; [reflexivity |]. split.
  { induction (bash_file filedir o) as [| l ls IH]; constructor; [now apply line_shown | exact IH]. }
  cbv zeta. rewrite bash_run. split; [reflexivity |]. intros path. cbn [reply]. rewrite file_filter_in.
  assert (Ea : bash_file_args filedir o = match f_extensions o with [] => [filedir] | exts => [filedir; make_file_extension_pattern exts (f_fuzzy o)] end)
    by (unfold bash_file_args; destruct (f_extensions o); reflexivity).
  rewrite <- Ea.
  assert (G : any_pattern matches (without_directory path) (f_ignore o) = false <->
    forall p name, In p (f_ignore o) -> file_name path name -> ~ glob_matches p name).
  { rewrite <- Bool.not_true_iff_false, any_pattern_true. split.
    - intros H p name Hp Hn Hg. apply H. exists p. split; [exact Hp |]. apply Hm; [exact Hp |].
      unfold value_matches. rewrite (value_text_same p) by (intros c; exact (Hq p c Hp)).
      now rewrite (file_name_unique path _ _ (without_directory_name path) Hn).
    - intros H (p & Hp & E). apply (H p _ Hp (without_directory_name path)). apply (Hm p _ Hp) in E. unfold value_matches in E.
      now rewrite (value_text_same p) in E by (intros c; exact (Hq p c Hp)). }
  rewrite G. destruct (place enter start (f_directory o)) as [there |].
  - split; [intros [H1 H2]; exists there; tauto |]. intros (t & E & H1 & H2). injection E as <-. tauto.
  - split; [intros [[] _] | intros (t & E & _); discriminate].
Qed.
Print Assumptions C128_bash_partial.

Definition sources := FileOptions (Some (s "src dir")) [s "c"; s "h"] false [s "*~"].
Definition ends_in_tilde (p w : str) : bool := ends_with (s "~") w.
Lemma tilde_matches w : ends_in_tilde (s "*~") w = true <-> glob_matches (s "*~") w.
Proof.
  unfold ends_in_tilde. rewrite ends_with_app. split.
  - intros (u & ->). exists [AnyText; Char TILDE]. split; [reflexivity |]. exists u, (s "~"). split; [reflexivity |]. split; [exact I |].
    exists (s "~"), []. repeat split; reflexivity.
  - intros (gs & E & H). vm_compute in E. injection E as <-. destruct H as (u & v & -> & _ & u2 & v2 & -> & -> & Hv). cbn in Hv. subst v2.
    exists u. now rewrite app_nil_r.
Qed.
Example C128_bash_example :
  let text := bash_file_text (s "_filedir") (s "_prog_file_filter") sources in
  text = s "builtin pushd 'src dir' &>/dev/null && {" ++ [LF] ++ s "  _filedir '@([cC]|[hH])'" ++ [LF]
         ++ s "  builtin popd >/dev/null" ++ [LF] ++ s "}" ++ [LF] ++ s "_prog_file_filter '*~'" /\
  plain_word (s "_prog_file_filter") /\
  (forall p c, In p (f_ignore sources) -> In c p -> ~ In c literal_in_values) /\
  (forall p w, In p (f_ignore sources) -> ends_in_tilde p w = true <-> value_matches p w) /\
  reply (run_lines (fun h d => Some (h ++ [SLASH] ++ d)) (fun _ _ => [s "a.c"; s "lib/b.h"; s "lib/b.h~"]) ends_in_tilde
    (bash_file (s "_filedir") sources) (ShellState (s "/home") [])) = [s "a.c"; s "lib/b.h"].
Proof.
  split; [reflexivity |]. split; [split; [discriminate |]; intros c Hc; vm_compute in Hc; repeat (destruct Hc as [<- | Hc]; [reflexivity |]); destruct Hc |].
  split; [intros p c [<- | []] Hc; vm_compute in Hc; destruct Hc as [<- | [<- | []]]; apply memc_false; reflexivity |]. split; [| reflexivity].
  intros p w [<- | []]. unfold value_matches. exact (tilde_matches w).
Qed.

(** A pattern may be quoted to stand for itself, but Bash takes the quotation marks of the pattern as
    characters of the name. *)
Theorem C128_bash_quotes_refuted :
  let p := s "'a b'" in
  (exists r z, bash_glob_to_regex p = Ok r /\ bash_glob_to_zsh_glob p = Ok z) /\
  glob_matches p (s "a b") /\ ~ value_matches p (s "a b") /\ value_matches p (s "'a b'").
Proof.
  intros p. split; [exists (s "a b"); eexists; split; reflexivity |]. split; [| split].
  - eexists. split; [vm_compute; reflexivity |].
    exists (s "a"), (s " b"). split; [reflexivity |]. split; [reflexivity |]. exists (s " "), (s "b"). split; [reflexivity |]. split; [reflexivity |].
    exists (s "b"), []. repeat split; reflexivity.
  - intros (gs & E & H). vm_compute in E. injection E as <-. destruct H as (u & v & E & -> & _). discriminate.
  - eexists. split; [vm_compute; reflexivity |].
    repeat (eexists [_], _; split; [reflexivity |]; split; [reflexivity |]). reflexivity.
Qed.
Print Assumptions C128_bash_quotes_refuted.

(** ** Fish *)

(** The call in a Fish script offers exactly the files that Fish lists in the directory of the definition,
    for its extensions, except for those whose path, behind a slash or from the beginning, matches one of
    the patterns to be ignored -- if there is at least one of them. *)
Theorem C128_fish_partial : forall enter lists found start o pss,
  f_ignore o = map pattern_text pss ->
  (forall ps, In ps pss -> pattern_ok reg_kinds ps = true) ->
  (forall x, In x (f_extensions o) -> forallb plain x = true) ->
  (forall there path, place enter start (f_directory o) = Some there -> In path (lists there) -> ~ In LF path) ->
  (forall path, ~ In LF path -> found (select_regex (get_extension_regex (f_extensions o) (f_fuzzy o))) path = true <->
                regex_found (select_regex (get_extension_regex (f_extensions o) (f_fuzzy o))) path) ->
  (forall arg path, ignore_regex (f_ignore o) = Ok arg -> ~ In LF path -> found (remove_regex arg) path = true <-> regex_found (remove_regex arg) path) ->
  let offered path :=
    (exists there, place enter start (f_directory o) = Some there /\ In path (lists there)) /\ wanted o path /\
    forall p u v, In p (f_ignore o) -> path = u ++ v -> directory u -> ~ glob_matches p v in
  exists args fl, fish_file_args o = Ok args /\ filedir_parse (S (List.length args)) (Flags false None None None) args = Some fl /\
    ((exists path, offered path) ->
     forall line, In line (filedir enter lists found start fl) <-> exists path, line = path ++ [TAB] /\ offered path).
Proof.
  intros enter lists found start o pss Hi Hok Hx Hlf Hs Hr offered.
  assert (Harg : exists ignore, fish_ignore_args (f_ignore o) =
      Ok (match ignore with Some i => [s "-i"; i] | None => [] end) /\
    (forall path, ~ In LF path -> (match ignore with Some i => negb (found (remove_regex i) path) = true | None => True end <->
       forall p u v, In p (f_ignore o) -> path = u ++ v -> directory u -> ~ glob_matches p v))).
  { destruct pss as [| ps0 pss'].
    - exists None. rewrite Hi. split; [reflexivity |]. intros path _. split; [intros _ p u v [] | easy].
    - destruct (C74_fish_ignore_partial (ps0 :: pss') [] ltac:(discriminate) Hok ltac:(easy)) as (arg & Ea & _).
      rewrite <- Hi in Ea. exists (Some arg). split.
      + unfold fish_ignore_args. rewrite Ea. destruct (f_ignore o) as [| p l] eqn:E; [rewrite Hi in E; discriminate | reflexivity].
      + intros path Hl. destruct (C74_fish_ignore_partial (ps0 :: pss') path ltac:(discriminate) Hok Hl) as (arg' & Ea' & K).
        rewrite <- Hi in Ea'. rewrite Ea in Ea'. injection Ea' as <-. rewrite Bool.negb_true_iff, <- Bool.not_true_iff_false, (Hr arg path Ea Hl), K. split.
        * intros H p u v Hp E Hd Hg. apply H. rewrite Hi in Hp. apply in_map_iff in Hp as (ps & <- & Hp). now exists ps, u, v.
        * intros H (ps & u & v & Hp & E & Hd & Hg). apply (H (pattern_text ps) u v); try assumption. rewrite Hi. now apply in_map. }
  destruct Harg as (ignore & Ei & Hig).
  eexists. exists (Flags false (f_directory o) (match f_extensions o with [] => None | _ => Some (get_extension_regex (f_extensions o) (f_fuzzy o)) end) ignore).
  split; [unfold fish_file_args; rewrite Ei; reflexivity |]. split.
  { rewrite <- fish_parse. f_equal; destruct (f_extensions o); reflexivity. }
  set (fl := Flags _ _ _ _).
  assert (Hin : forall path, In path (remaining enter lists found start fl) <-> offered path).
  { intros path. unfold remaining. rewrite !keep_in, filter_In. cbn [fl fl_ignore fl_regex fl_directories fl_cd negb orb].
    assert (Ep : In path (match place enter start (f_directory o) with Some there => lists there | None => [] end) <->
      exists there, place enter start (f_directory o) = Some there /\ In path (lists there)).
    { destruct (place enter start (f_directory o)) as [there |]; split.
      - intros H. now exists there.
      - intros (t & E & H). now injection E as <-.
      - intros [].
      - intros (t & E & _). discriminate. }
    rewrite Ep. unfold offered.
    assert (W : (exists there, place enter start (f_directory o) = Some there /\ In path (lists there)) -> ~ In LF path)
      by (intros (there & E & H); exact (Hlf there path E H)).
    split.
    - intros [[[H1 _] H2] H3]. specialize (W H1). split; [exact H1 |]. split; [| now apply Hig]. unfold wanted.
      destruct (f_extensions o) as [| x l] eqn:E; [now left |]. right. apply Hs in H2; [| exact W]. apply C75_fish_extensions_partial in H2; [exact H2 | discriminate | exact Hx | exact W].
    - intros (H1 & H2 & H3). specialize (W H1). split; [split; [split; [exact H1 | reflexivity] |] | now apply Hig].
      unfold wanted in H2. destruct (f_extensions o) as [| x l] eqn:E; [exact I |]. destruct H2 as [H2 | H2]; [discriminate |].
      apply Hs; [exact W |]. apply C75_fish_extensions_partial; [discriminate | exact Hx | exact W | exact H2]. }
  intros (path0 & H0) line. rewrite filedir_lines.
  - rewrite in_map_iff. split; intros (path & E & H); exists path; (split; [now symmetry |]); now apply Hin.
  - intros E. apply Hin in H0. rewrite E in H0. destruct H0.
Qed.
Print Assumptions C128_fish_partial.

Definition c_files := FileOptions None [s "c"] false [].
Definition c_or_directory (_ path : str) : bool := ends_with (s "/") path || ends_with (s ".c") path || ends_with (s ".C") path.
Example C128_fish_example :
  (forall x, In x (f_extensions c_files) -> forallb plain x = true) /\
  (forall path, ~ In LF path -> c_or_directory [] path = true <->
                regex_found (select_regex (get_extension_regex (f_extensions c_files) (f_fuzzy c_files))) path) /\
  filedir (fun _ _ => None) (fun _ => [s "a.c"; s "b.h"; s "lib/"]) c_or_directory [] (Flags false None (Some (s "x")) None) = [s "a.c" ++ [TAB]; s "lib/" ++ [TAB]].
Proof.
  split; [intros x [<- | []]; reflexivity |]. split; [| reflexivity].
  intros path Hl. rewrite C75_fish_extensions_partial by (discriminate || (intros x [<- | []]; reflexivity) || exact Hl).
  unfold c_or_directory. rewrite !Bool.orb_true_iff, !ends_with_app. split.
  - intros [[(u & ->) | (u & ->)] | (u & ->)]; [left; now exists u | right | right].
    + exists (s "c"), u, (s "c"), []. repeat split; [now left | now right].
    + exists (s "c"), u, (s "C"), []. repeat split; [now left | now right].
  - intros [(u & ->) | (x & u & v & t & [<- | []] & -> & E & [C | ->])]; [left; left; now exists u | discriminate |].
    rewrite app_nil_r. destruct v as [| c [| d v]]; [discriminate | | discriminate].
    assert (Hc : c = 99%N \/ c = 67%N).
    { cbn in E. injection E as E. unfold lower_c in E. destruct (is_upper c) eqn:U; [right | left; exact E]. assert (E' : (c + 32)%N = 99%N) by exact E. lia. }
    destruct Hc as [-> | ->]; [left; right | right]; now exists u.
Qed.

(** If all files are ignored, one empty item is offered. *)
Theorem C128_fish_empty_refuted :
  let files := [s "a~"; s "b~"] in
  let found (_ path : str) := ends_with (s "~") path in
  fish_file_args (FileOptions None [] false [s "*~"]) = Ok [s "-i"; s "(.*~)"] /\
  filedir (fun _ _ => None) (fun _ => files) found [] (Flags false None None (Some (s "(.*~)"))) = [[]].
Proof. split; reflexivity. Qed.
Print Assumptions C128_fish_empty_refuted.

(** A pattern to be ignored is compared with the path, not with the name of the file: in a directory
    that matches, no file is offered. *)
Theorem C128_fish_path_refuted :
  let path := s "build/main.c" in
  exists arg, ignore_regex [s "b*"] = Ok arg /\ regex_found (remove_regex arg) path /\
    file_name path (s "main.c") /\ ~ glob_matches (s "b*") (s "main.c").
Proof.
  intros path.
  destruct (C74_fish_ignore_partial [[Lit (LPlain 98); Some_text]] path) as (arg & E & K);
    [discriminate | intros ps [<- | []]; reflexivity | apply memc_false; reflexivity |].
  exists arg. split; [exact E |]. split; [| split].
  - apply K. exists [Lit (LPlain 98); Some_text], [], path. split; [now left |]. split; [reflexivity |]. split; [now left |].
    eexists. split; [vm_compute; reflexivity |]. exists (s "b"), (s "uild/main.c"). split; [reflexivity |]. split; [reflexivity |].
    exists (s "uild/main.c"), []. repeat split; reflexivity.
  - split; [apply memc_false; reflexivity |]. exists (s "build/"). split; [reflexivity |]. right. now exists (s "build").
  - intros (gs & E' & H). vm_compute in E'. injection E' as <-. destruct H as (u & v & E1 & -> & _). discriminate.
Qed.
Print Assumptions C128_fish_path_refuted.

(** ** Zsh *)

(** The call in a Zsh function is read as: the files of the directory of the definition (relative to the
    working directory), a pattern that selects the files with one of the extensions, and the patterns to be
    ignored, each of which matches the same names as the one of the definition.  The patterns must not
    contain blanks, the extensions no characters that are special in patterns. *)
Theorem C128_zsh_partial : forall relative pwd o pss,
  relative <> s "_files" -> relative <> s "_directories" -> relative <> s "_path_files" ->
  f_ignore o = map pattern_text pss ->
  (forall ps, In ps pss -> pattern_ok zsh_kinds ps = true /\ forallb unquoted_ok ps = true) ->
  (forall p z, In p (f_ignore o) -> bash_glob_to_zsh_glob p = Ok z -> no_blank z) ->
  (forall x, In x (f_extensions o) -> forallb plain x = true) ->
  exists words call, zsh_file_args relative o = Ok words /\
    read_call relative (path_files_relative pwd) words = Some call /\
    w_directory call = option_map (absolute pwd) (f_directory o) /\
    (forall name, selected call name <-> f_extensions o = [] \/ has_extension o name) /\
    w_only_directories call = false /\
    Forall2 (fun p z => forall w, zsh_matches z w <-> glob_matches p w) (f_ignore o) (w_ignored call).
Proof.
  intros relative pwd o pss Hr1 Hr2 Hr3 Hi Hok Hb Hx.
  assert (Hz : exists zs, map_res bash_glob_to_zsh_glob (f_ignore o) = Ok zs /\
    Forall2 (fun p z => forall w, zsh_matches z w <-> glob_matches p w) (f_ignore o) zs /\ Forall no_blank zs).
  { rewrite Hi in *. clear Hi Hr1 Hr2 Hr3. induction pss as [| ps pss IH]; [exists []; repeat constructor |].
    destruct IH as (zs & E & H1 & H2); [intros q Hq; apply Hok; now right | intros p z Hp; apply Hb; now right |].
    destruct (Hok ps (or_introl eq_refl)) as [K1 K2]. destruct (C40_zsh_partial ps K1 K2) as (z & Ez & Hm).
    exists (z :: zs). cbn [map map_res bind]. rewrite Ez. cbn [bind]. rewrite E. split; [reflexivity |]. split; constructor; try assumption.
    apply (Hb (pattern_text ps) z); [now left | exact Ez]. }
  destruct Hz as (zs & Ez & Hm & Hn).
  assert (Nr : forall w, str_eqb w relative = true -> w = relative) by (intros w; apply str_eqb_eq).
  assert (Er : str_eqb (s "_files") relative = false).
  { destruct (str_eqb (s "_files") relative) eqn:E; [apply Nr in E; congruence | reflexivity]. }
  assert (Es : str_eqb relative relative = true) by now apply str_eqb_eq.
  assert (Hf : exists ign, zsh_ignore_args (f_ignore o) = Ok ign /\
     ((ign = [] /\ f_ignore o = []) \/ (ign = [s "-F"; s "(" ++ join [SP] zs ++ s ")"] /\ zs <> []))).
  { unfold zsh_ignore_args. rewrite Ez. destruct (f_ignore o) as [| p l] eqn:E; [exists []; split; [reflexivity | left; now split] |].
    eexists. split; [reflexivity |]. right. split; [reflexivity |]. intros ->. inversion Hm. }
  destruct Hf as (ign & Ei & Hf).
  assert (Hread : forall c0 fuel, (List.length ign < fuel)%nat -> read_files fuel c0 ign = Some (FilesCall (w_directory c0) (w_pattern c0)
     (match ign with [] => w_ignored c0 | _ => zs end) (w_only_directories c0))).
  { intros c0 fuel Hl. destruct Hf as [[-> _] | [-> Hne]].
    - destruct fuel; [lia |]. now destruct c0.
    - destruct fuel as [| [| fuel]]; [lia | cbn in Hl; lia |]. rewrite read_F; [| exact Hne | rewrite Forall_forall in Hn; exact Hn]. apply read_end. }
  assert (Hi2 : match ign with [] => [] | _ => zs end = zs).
  { destruct Hf as [[-> E] | [-> _]]; [| reflexivity]. rewrite E in Hm. now inversion Hm. }
  assert (Hsel : forall d zs b name, selected (FilesCall d (match f_extensions o with [] => None | exts => Some (zsh_extension_pattern exts (f_fuzzy o)) end) zs b) name <->
    f_extensions o = [] \/ has_extension o name).
  { intros d0 zs0 b0 name. unfold selected. cbn [w_pattern]. pose proof (extension_matches o name) as K.
    destruct (f_extensions o) as [| x0 l0] eqn:Ex0; [split; [now left | easy] |].
    rewrite K by (discriminate || exact Hx). split; [now right | intros [C | C]; [discriminate | exact C]]. }
  unfold zsh_file_args. rewrite Ei. cbn [bind].
  destruct (f_directory o) as [d |]; cbn [option_map].
  - unfold absolute. destruct (starts_with [SLASH] d) eqn:Ed.
    + eexists. exists (FilesCall (Some d) (match f_extensions o with [] => None | exts => Some (zsh_extension_pattern exts (f_fuzzy o)) end) zs false).
      split; [reflexivity |]. split; [| split; [reflexivity | split; [intros name; apply Hsel | split; [reflexivity | exact Hm]]]].
      destruct (f_extensions o) as [| x l] eqn:Ex; cbn [app]; unfold read_call; rewrite Er; cbn [List.length];
        change (str_eqb (s "_files") (s "_files")) with true; cbn [orb];
        rewrite ?read_W, ?read_g, Hread by (cbn [List.length]; lia); cbn [w_directory w_pattern w_ignored w_only_directories]; now rewrite Hi2.
    + eexists. exists (FilesCall (Some (pwd ++ [SLASH] ++ d)) (match f_extensions o with [] => None | exts => Some (zsh_extension_pattern exts (f_fuzzy o)) end) zs false).
      split; [reflexivity |]. split; [| split; [reflexivity | split; [intros name; apply Hsel | split; [reflexivity | exact Hm]]]].
      destruct (f_extensions o) as [| x l] eqn:Ex; cbn [app]; unfold read_call; rewrite Es; cbn [path_files_relative app];
        change (str_eqb (s "_path_files") (s "_files") || str_eqb (s "_path_files") (s "_path_files")) with true; cbn [List.length];
        rewrite ?read_W, ?read_g, Hread by (cbn [List.length]; lia); cbn [w_directory w_pattern w_ignored w_only_directories]; now rewrite Hi2.
  - eexists. exists (FilesCall None (match f_extensions o with [] => None | exts => Some (zsh_extension_pattern exts (f_fuzzy o)) end) zs false).
    split; [reflexivity |]. split; [| split; [reflexivity | split; [intros name; apply Hsel | split; [reflexivity | exact Hm]]]].
    destruct (f_extensions o) as [| x l] eqn:Ex; cbn [app]; unfold read_call; rewrite Er; cbn [List.length];
      change (str_eqb (s "_files") (s "_files")) with true; cbn [orb];
      rewrite ?read_W, ?read_g, Hread by (cbn [List.length]; lia); cbn [w_directory w_pattern w_ignored w_only_directories]; now rewrite Hi2.
Qed.
Print Assumptions C128_zsh_partial.

Definition zsh_sources := FileOptions (Some (s "src")) [s "c"; s "h"] false [s "*.o"].
Example C128_zsh_example :
  f_ignore zsh_sources = map pattern_text [[Some_text; Lit (LPlain 46); Lit (LPlain 111)]] /\
  pattern_ok zsh_kinds [Some_text; Lit (LPlain 46); Lit (LPlain 111)] = true /\ forallb unquoted_ok [Some_text; Lit (LPlain 46); Lit (LPlain 111)] = true /\
  zsh_file_args (s "_prog_relative") zsh_sources = Ok [s "_prog_relative"; s "src"; s "-g"; s "*.(#i)(c|h)"; s "-F"; s "(*.o)"] /\
  path_files_relative (s "/home") [s "src"; s "-g"; s "x"] = [s "_path_files"; s "-W"; s "/home/src"; s "-g"; s "x"] /\
  (forall x, In x (f_extensions zsh_sources) -> forallb plain x = true) /\ has_extension zsh_sources (s "main.C").
Proof.
  repeat (split; [reflexivity |]). split; [intros x [<- | [<- | []]]; reflexivity |].
  exists (s "c"), (s "main"), (s "C"), []. repeat split; [now left | now right].
Qed.

(** A pattern that contains a blank becomes two patterns. *)
Theorem C128_zsh_blank_refuted :
  let o := FileOptions None [] false [s "'a b'"] in
  exists words call, zsh_file_args (s "_relative") o = Ok words /\ read_call (s "_relative") (path_files_relative (s "/")) words = Some call /\
    w_ignored call = [s "a'"; s "'b"] /\ glob_matches (s "'a b'") (s "a b") /\ ~ glob_matches (s "'a b'") (s "a").
Proof.
  intros o. eexists. eexists. split; [reflexivity |]. split; [reflexivity |]. split; [reflexivity |]. split.
  - apply C128_bash_quotes_refuted.
  - intros (gs & E & H). vm_compute in E. injection E as <-. destruct H as (u & v & E & -> & u2 & v2 & -> & -> & _). discriminate.
Qed.
Print Assumptions C128_zsh_blank_refuted.

(** ** Directories *)

(** For directories, the scripts ask for directories only, in the directory of the definition. *)
Theorem C128_directories : forall enter lists listed matches found filedir_name relative start d (inside : bool) listing,
  relative <> s "_files" -> relative <> s "_directories" -> relative <> s "_path_files" ->
  listing = place enter start (Some d) ->
  reply (run_lines enter lists matches (bash_directory filedir_name (Some d)) (ShellState start [])) =
    match listing with Some there => lists there [filedir_name; s "-d"] | None => [] end /\
  (exists fl, filedir_parse 4 (Flags false None None None) (tl (fish_directory_args filedir_name inside (Some d))) = Some fl /\
     forall there path, listing = Some there ->
       In (path ++ [TAB]) (filedir enter listed found start fl) <-> In path (listed there) /\ exists u, path = u ++ s "/") /\
  exists call, read_call relative (path_files_relative start) (zsh_directory_args relative (Some d)) = Some call /\
    w_directory call = Some (absolute start d) /\ w_only_directories call = true.
Proof.
  intros enter lists listed matches found filedir_name relative start d inside listing Hr1 Hr2 Hr3 ->. split; [| split].
  - cbn [bash_directory run_lines fold_left run_line here place]. destruct (enter start d); reflexivity.
  - eexists. split; [reflexivity |]. intros there path E.
    set (fl := Flags _ _ _ _).
    assert (Er : remaining enter listed found start fl = filter (ends_with [SLASH]) (listed there)).
    { unfold remaining. cbn [fl fl_ignore fl_regex fl_directories fl_cd keep negb orb]. now rewrite E. }
    destruct (remaining enter listed found start fl) as [| f l] eqn:Ek.
    + split.
      * intros H. exfalso. unfold filedir in H. cbn [fl fl_ignore fl_regex fl_directories fl_cd keep] in H. cbn [place] in E. rewrite E in H. cbn [option_map] in H.
        rewrite <- Er in H. destruct (listed there); [destruct H |]. destruct H as [H | []]. symmetry in H. apply app_eq_nil in H as [_ H]. discriminate.
      * intros [H (u & ->)]. assert (K : In (u ++ s "/") (filter (ends_with [SLASH]) (listed there))) by (apply filter_In; split; [exact H | apply ends_with_app; now exists u]).
        rewrite <- Er in K. destruct K.
    + rewrite filedir_lines by (rewrite Ek; discriminate). rewrite Ek, Er, in_map_iff. split.
      * intros (x & Ex & Hx). apply app_inv_tail in Ex as ->. apply filter_In in Hx as [H1 H2]. split; [exact H1 |]. now apply ends_with_app in H2.
      * intros [H1 H2]. exists path. split; [reflexivity |]. apply filter_In. split; [exact H1 | now apply ends_with_app].
  - unfold zsh_directory_args, absolute.
    assert (Er : str_eqb (s "_directories") relative = false).
    { destruct (str_eqb (s "_directories") relative) eqn:E; [apply str_eqb_eq in E; congruence | reflexivity]. }
    assert (Es : str_eqb relative relative = true) by now apply str_eqb_eq.
    destruct (starts_with [SLASH] d); eexists; unfold read_call; rewrite ?Er, ?Es; (split; [reflexivity | split; reflexivity]).
Qed.
Print Assumptions C128_directories.
Example C128_directories_example :
  fish_directory_args (s "filedir") false (Some (s "/etc")) = [s "filedir"; s "-D"; s "-C"; s "/etc"] /\
  zsh_directory_args (s "relative") (Some (s "/etc")) = [s "_directories"; s "-W"; s "/etc"] /\
  filedir (fun _ d => Some d) (fun _ => [s "apt/"; s "passwd"]) (fun _ _ => false) (s "/") (Flags true (Some (s "/etc")) None None) = [s "apt/" ++ [TAB]].
Proof. repeat split; reflexivity. Qed.
