(** * Proofs about the completion of files and directories (C128) *)
From Verif Require Import Base PyStr SpecShell SpecGlob SpecPattern SpecRegex Shell Pattern BashUtils FishFiles RegexMore
  SpecZshGlob BashPatternsProofs ZshGlobProofs ShellProofs BashStrings SpecDict DictSourceProofs FileCompleter SpecFileCompleter.
Require Import Lia.
Open Scope string_scope.
Open Scope list_scope.

(** ** Bash *)
Lemma pieces_no_sep c x p : In p (split_c c x) -> ~ In c p.
Proof. apply split_c_pieces. Qed.
Lemma join_last c l : l <> [] -> exists u, join [c] l = u ++ last l [] /\ (u = [] \/ exists u', u = u' ++ [c]).
Proof.
  induction l as [| a l IH]; [easy |]. intros _. destruct l as [| b l].
  - exists []. split; [reflexivity | now left].
  - destruct IH as (u & E & Hu); [discriminate |]. exists (a ++ [c] ++ u). split.
    + rewrite join_cons. change (last (a :: b :: l) []) with (last (b :: l) []). rewrite E. now rewrite <- !app_assoc.
    + right. destruct Hu as [-> | (u' & ->)]; [exists a; now rewrite app_nil_r | exists (a ++ [c] ++ u'); now rewrite <- !app_assoc].
Qed.
Lemma last_in {A} (l : list A) d : l <> [] -> In (last l d) l.
Proof.
  induction l as [| a l IH]; [easy |]. intros _. destruct l as [| b l]; [now left |]. right. apply IH. discriminate.
Qed.
Lemma without_directory_name path : file_name path (without_directory path).
Proof.
  unfold without_directory, file_name. split.
  - apply (pieces_no_sep SLASH path), last_in, split_c_nonnil.
  - destruct (join_last SLASH (split_c SLASH path) (split_c_nonnil _ _)) as (u & E & Hu). rewrite join_split_c in E.
    exists u. split; [exact E |]. destruct Hu as [-> | (u' & ->)]; [now left | right; now exists u'].
Qed.
Lemma suffix_unique (u v a b : str) : u ++ a = v ++ b -> ~ In SLASH a -> ~ In SLASH b -> directory u -> directory v -> a = b.
Proof.
  intros E Ha Hb Hu Hv.
  assert (G : forall u v a b : str, u ++ a = v ++ b -> ~ In SLASH a -> directory v -> (List.length u <= List.length v)%nat -> a = b).
  { clear. intros u v a b E Ha Hv Hl. revert v E Hv Hl. induction u as [| c u IH]; intros v E Hv Hl.
    - cbn in E. subst a. destruct Hv as [-> | (v' & ->)]; [reflexivity |]. exfalso. apply Ha. rewrite !in_app_iff. left. right. now left.
    - destruct v as [| d v]; [cbn in Hl; lia |]. injection E as <- E. apply (IH v E); [| cbn in Hl; lia].
      destruct Hv as [Hv | (v' & Hv)]; [discriminate |]. destruct v' as [| e v'].
      + injection Hv as -> ->. left. reflexivity.
      + injection Hv as -> ->. right. now exists v'. }
  destruct (Nat.le_ge_cases (List.length u) (List.length v)) as [H | H]; [now apply (G u v) | symmetry; now apply (G v u)].
Qed.
Lemma file_name_unique path a b : file_name path a -> file_name path b -> a = b.
Proof. intros (Ha & u & E & Hu) (Hb & v & E' & Hv). subst path. now apply (suffix_unique u v). Qed.

Lemma any_pattern_true matches word patterns : any_pattern matches word patterns = true <-> exists p, In p patterns /\ matches p word = true.
Proof.
  induction patterns as [| p l IH]; cbn [any_pattern]; [split; [discriminate | intros (p & [] & _)] |].
  destruct (matches p word) eqn:E.
  - split; [intros _; exists p; split; [now left | exact E] | reflexivity].
  - rewrite IH. split; [intros (q & Hq & H); exists q; split; [now right | exact H] |].
    intros (q & [<- | Hq] & H); [congruence | now exists q].
Qed.
Lemma file_filter_in matches patterns reply r : In r (file_filter matches patterns reply) <->
  In r reply /\ any_pattern matches (without_directory r) patterns = false.
Proof.
  induction reply as [| x l IH]; cbn [file_filter In]; [tauto |].
  destruct (any_pattern matches (without_directory x) patterns) eqn:E.
  - rewrite IH. split; [intros [H1 H2]; split; [now right | exact H2] |]. intros [[<- | H1] H2]; [congruence | tauto].
  - split; [intros [<- | H] | intros [[<- | H1] H2]]; [split; [now left | exact E] | apply IH in H as [H1 H2]; split; [now right | exact H2] | now left | right; now apply IH].
Qed.

Section Bash.
Context (enter : str -> str -> option str) (lists : str -> list str -> list str) (matches : str -> str -> bool).
Lemma filter_run patterns st : run_lines enter lists matches (match patterns with [] => [] | p :: l => [Filter (p :: l)] end) st =
  ShellState (here st) (file_filter matches patterns (reply st)).
Proof.
  destruct patterns as [| p l]; [| reflexivity]. cbn. destruct st as [h r]. cbn. f_equal.
  induction r as [| x r IH]; [reflexivity |]. cbn [file_filter any_pattern]. now f_equal.
Qed.
Lemma bash_run filedir start o :
  run_lines enter lists matches (bash_file filedir o) (ShellState start []) =
  ShellState start (file_filter matches (f_ignore o)
    match place enter start (f_directory o) with Some there => lists there (bash_file_args filedir o) | None => [] end).
Proof.
  unfold bash_file. unfold run_lines. rewrite fold_left_app. change (fold_left (run_line enter lists matches) ?c ?st) with (run_lines enter lists matches c st).
  rewrite filter_run. unfold place. destruct (f_directory o) as [d |]; cbn [run_lines fold_left run_line here reply app].
  - destruct (enter start d); reflexivity.
  - reflexivity.
Qed.
End Bash.

Lemma line_shown filter l : plain_word filter -> line_text filter l (show_line filter l).
Proof.
  intros Hf. destruct l as [args | d args | patterns]; cbn [show_line].
  - constructor. apply posix_join_quoted.
  - constructor; [apply posix_quote | apply posix_join_quoted].
  - constructor. unfold posix_words. destruct Hf as [Hn Hf]. rewrite read_plain_word by exact Hf. destruct filter as [| c f]; [now destruct Hn |].
    change (option_map (cons (c :: f)) (posix_words (join_quoted patterns [SP])) = Some ((c :: f) :: patterns)).
    now rewrite posix_join_quoted.
Qed.

Lemma value_text_same x : (forall c, In c x -> ~ In c literal_in_values) -> value_text x = x.
Proof.
  assert (G : forall n x, (List.length x <= n)%nat -> (forall c, In c x -> ~ In c literal_in_values) -> value_text x = x); [| now apply (G (List.length x))].
  clear. induction n as [| n IH]; intros x Hl H; [destruct x; [reflexivity | cbn in Hl; lia] |].
  destruct x as [| c x]; [reflexivity |]. cbn [value_text]. destruct (N.eqb_spec c BS) as [-> | Hc].
  - destruct x as [| d x]; [reflexivity |]. do 2 f_equal. apply IH; [cbn in Hl; lia |]. intros e He. apply H. now right; right.
  - replace (memc c literal_in_values) with false by (symmetry; apply memc_false, H; now left).
    f_equal. apply IH; [cbn in Hl; lia |]. intros e He. apply H. now right.
Qed.

(** ** Fish *)
Definition no_flags := Flags false None None None.
Lemma fish_parse directory exts fuzzy ignore :
  let args := match directory with Some d => [s "-C"; d] | None => [] end
    ++ match exts with [] => [] | _ => [s "-r"; get_extension_regex exts fuzzy] end
    ++ match ignore with Some i => [s "-i"; i] | None => [] end in
  filedir_parse (S (List.length args)) no_flags args =
  Some (Flags false directory (match exts with [] => None | _ => Some (get_extension_regex exts fuzzy) end) ignore).
Proof. destruct directory, exts, ignore; reflexivity. Qed.

Section Fish.
Context (enter : str -> str -> option str) (lists : str -> list str) (found : str -> str -> bool).
Definition remaining (start : str) (fl : filedir_flags) : list str :=
  keep (fl_ignore fl) (fun r p => negb (found (remove_regex r) p))
    (keep (fl_regex fl) (fun r => found (select_regex r))
      (filter (fun f => negb (fl_directories fl) || ends_with [SLASH] f)
        match place enter start (fl_cd fl) with Some there => lists there | None => [] end)).
Lemma filter_all {A} (l : list A) : filter (fun _ => true) l = l.
Proof. induction l as [| a l IH]; [reflexivity |]. cbn. now f_equal. Qed.
Lemma filedir_lines start fl : remaining start fl <> [] -> filedir enter lists found start fl = map (fun f => f ++ [TAB]) (remaining start fl).
Proof.
  unfold remaining, filedir, place. intros H.
  assert (E : (match fl_cd fl with Some d => option_map lists (enter start d) | None => Some (lists start) end) =
    option_map lists match fl_cd fl with Some d => enter start d | None => Some start end) by (destruct (fl_cd fl); reflexivity).
  rewrite E. destruct (match fl_cd fl with Some d => enter start d | None => Some start end) as [there |]; cbn [option_map].
  - destruct (lists there) as [| f l] eqn:El.
    + exfalso. apply H. destruct (fl_ignore fl), (fl_regex fl); reflexivity.
    + assert (Ef : (if fl_directories fl then filter (ends_with [SLASH]) (f :: l) else f :: l) =
        filter (fun f => negb (fl_directories fl) || ends_with [SLASH] f) (f :: l)).
      { destruct (fl_directories fl); cbn [negb orb]; [reflexivity | now rewrite filter_all]. }
      rewrite Ef. destruct (keep (fl_ignore fl) _ _) eqn:Ek; [now destruct H | reflexivity].
  - exfalso. apply H. destruct (fl_ignore fl), (fl_regex fl); reflexivity.
Qed.
End Fish.
Lemma keep_in r sel l f : In f (keep r sel l) <-> In f l /\ match r with Some x => sel x f = true | None => True end.
Proof. destruct r; cbn [keep]; [apply filter_In | tauto]. Qed.

(** ** Zsh *)
Lemma parentheses x : firstn (List.length (s "(" ++ x ++ s ")") - 2) (skipn 1 (s "(" ++ x ++ s ")")) = x.
Proof.
  change (skipn 1 (s "(" ++ x ++ s ")")) with (x ++ s ")"). rewrite (app_length (s "(")), app_length. change (List.length (s "(")) with 1%nat. change (List.length (s ")")) with 1%nat.
  replace (1 + (List.length x + 1) - 2)%nat with (List.length x) by lia.
  rewrite firstn_app, Nat.sub_diag, firstn_all. now rewrite app_nil_r.
Qed.
Lemma read_W fuel c v rest : read_files (S fuel) c (s "-W" :: v :: rest) =
  read_files fuel (FilesCall (Some v) (w_pattern c) (w_ignored c) (w_only_directories c)) rest.
Proof. reflexivity. Qed.
Lemma read_g fuel c v rest : read_files (S fuel) c (s "-g" :: v :: rest) =
  read_files fuel (FilesCall (w_directory c) (Some v) (w_ignored c) (w_only_directories c)) rest.
Proof. reflexivity. Qed.
Lemma read_end fuel c : read_files (S fuel) c [] = Some c.
Proof. reflexivity. Qed.
Lemma read_F fuel c l : (l <> []) -> (forall x, In x l -> no_blank x) -> read_files (S fuel) c [s "-F"; s "(" ++ join [SP] l ++ s ")"] =
  read_files fuel (FilesCall (w_directory c) (w_pattern c) l (w_only_directories c)) [].
Proof.
  intros Hne Hn. cbn [read_files]. change (str_eqb (s "-F") (s "-/")) with false. change (str_eqb (s "-F") (s "-W")) with false.
  change (str_eqb (s "-F") (s "-g")) with false. change (str_eqb (s "-F") (s "-F")) with true. cbv match.
  replace (ends_with (s ")") (s "(" ++ join [SP] l ++ s ")")) with true
    by (symmetry; apply ends_with_app; exists (s "(" ++ join [SP] l); now rewrite <- app_assoc).
  change (starts_with (s "(") (s "(" ++ join [SP] l ++ s ")")) with true. cbn [andb]. rewrite parentheses.
  rewrite split_ws_join; [reflexivity | exact Hne |]. exact Hn.
Qed.

(** ** The pattern for extensions in Zsh *)
Lemma zreads_matches y gs w : zreads y gs -> (zsh_matches y w <-> seq_matches gs w).
Proof.
  intros R. specialize (R [] [] [] []). rewrite app_nil_r in R. cbn [app] in R. unfold zsh_matches. rewrite R. cbn [zread]. split.
  - intros (gs' & E & H). now injection E as <-.
  - intros H. now exists gs.
Qed.
Lemma zreads_star : zreads (s "*") [AnyText].
Proof. intros st alts cur rest. reflexivity. Qed.
Lemma dot_read : zreads (s "*.") [AnyText; Char 46%N].
Proof. apply (zreads_app (s "*") (s ".") [AnyText] [Char 46%N]); [apply zreads_star | apply (zreads_chars (s ".")); reflexivity]. Qed.
Lemma dot_matches u : zsh_matches (s "*.") u <-> exists u0, u = u0 ++ s ".".
Proof.
  rewrite (zreads_matches _ _ _ dot_read). change [AnyText; Char 46%N] with ([AnyText] ++ map Char (s ".")). rewrite seq_matches_app. split.
  - intros (a & b & -> & _ & H). apply seq_matches_chars in H as ->. now exists a.
  - intros (a & ->). exists a, (s "."). split; [reflexivity |]. split; [now apply seq_matches_one | now apply seq_matches_chars].
Qed.
Definition alternatives (exts : list str) : str :=
  match exts with [x] => x | _ => s "(" ++ join (s "|") exts ++ s ")" end.
Lemma alternatives_read exts : exts <> [] -> (forall x, In x exts -> forallb plain x = true) ->
  exists gs, zreads (alternatives exts) gs /\ forall w, seq_matches gs w <-> In w exts.
Proof.
  intros Hn Hp. destruct exts as [| x [| y l]]; [now destruct Hn | |].
  - exists (map Char x). split; [apply zreads_chars, Hp; now left |]. intros w. rewrite seq_matches_chars. cbn. intuition congruence.
  - set (exts := x :: y :: l) in *. change (alternatives exts) with (s "(" ++ join (s "|") exts ++ s ")").
    exists [Ext ExactlyOne (map (map Char) exts)]. split.
    + replace exts with (map fst (map (fun z => (z, map Char z)) exts)) at 1 by (rewrite map_map; apply map_id).
      replace (map (map Char) exts) with (map snd (map (fun z => (z, map Char z)) exts)) by (rewrite map_map; reflexivity).
      apply zreads_group; [| discriminate]. intros q Hq. apply in_map_iff in Hq as (z & <- & Hz). apply zreads_chars, Hp, Hz.
    + intros w. rewrite seq_matches_one. change (any_matches (map (map Char) exts) w <-> In w exts). rewrite any_matches_iff. split.
      * intros (a & Ha & Hm). apply in_map_iff in Ha as (z & <- & Hz). apply seq_matches_chars in Hm as ->. exact Hz.
      * intros Hw. exists (map Char w). split; [now apply in_map | now apply seq_matches_chars].
Qed.
Lemma alternatives_matches exts (fuzzy : bool) w : exts <> [] -> (forall x, In x exts -> forallb plain x = true) ->
  zsh_matches (alternatives exts ++ if fuzzy then s "*" else []) w <-> exists x t, In x exts /\ w = x ++ t /\ (fuzzy = true \/ t = []).
Proof.
  intros Hn Hp. destruct (alternatives_read exts Hn Hp) as (gs & R & Hm).
  assert (R' : zreads (alternatives exts ++ if fuzzy then s "*" else []) (gs ++ if fuzzy then [AnyText] else []))
    by (apply zreads_app; [exact R | destruct fuzzy; [apply zreads_star | apply zreads_nil]]).
  rewrite (zreads_matches _ _ _ R'), seq_matches_app. split.
  - intros (u & v & -> & Hu & Hv). exists u, v. split; [now apply Hm |]. split; [reflexivity |]. destruct fuzzy; [now left | right; exact Hv].
  - intros (x & t & Hx & -> & Ht). exists x, t. split; [reflexivity |]. split; [now apply Hm |].
    destruct fuzzy; [now apply seq_matches_one |]. destruct Ht as [H | ->]; [discriminate | reflexivity].
Qed.
Lemma extension_matches o name : f_extensions o <> [] -> (forall x, In x (f_extensions o) -> forallb plain x = true) ->
  flag_matches (zsh_extension_pattern (f_extensions o) (f_fuzzy o)) name <-> has_extension o name.
Proof.
  intros Hn Hp.
  assert (E : at_flag (zsh_extension_pattern (f_extensions o) (f_fuzzy o)) =
    Some (s "*.", alternatives (f_extensions o) ++ if f_fuzzy o then s "*" else [])).
  { unfold zsh_extension_pattern, alternatives. destruct (f_extensions o) as [| x [| y l]]; [now destruct Hn | |].
    - set (r := if f_fuzzy o then _ else _). rewrite <- app_assoc. reflexivity.
    - set (r := if f_fuzzy o then _ else _). set (j := join _ _).
      change (s "*.(#i)(" ++ j ++ s ")") with (s "*.(#i)" ++ (s "(" ++ j ++ s ")")). rewrite <- app_assoc. reflexivity. }
  unfold flag_matches, has_extension. rewrite E. split.
  - intros (u & v & v' & -> & Hu & El & Hv). apply dot_matches in Hu as (u0 & ->). apply alternatives_matches in Hv as (x & t & Hx & -> & Ht); try assumption.
    unfold lower in El. rewrite map_app in El. symmetry in El. apply map_eq_app in El as (v1 & v2 & -> & E1 & E2).
    exists x, u0, v1, v2. split; [exact Hx |]. split; [now rewrite <- app_assoc |]. split; [exact E1 |].
    destruct Ht as [Ht | ->]; [now left | right]. now apply map_eq_nil in E2.
  - intros (x & u & v & t & Hx & -> & El & Ht). exists (u ++ s "."), (v ++ t), (x ++ t). split; [now rewrite <- app_assoc |].
    split; [apply dot_matches; now exists u |]. split; [unfold lower in *; now rewrite !map_app, El |].
    apply alternatives_matches; try assumption. exists x, t. repeat split; assumption.
Qed.
