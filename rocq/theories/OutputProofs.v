(** * Proofs about output.py: lines of scripts, registration. *)
From Verif Require Import Base PyStr SpecShell ShellProofs SpecFish SpecChoices StrUtilsProofs BashStrings CaptureProofs PreprocProofs HelpConverterProofs Output SpecOutput.
Open Scope list_scope.

(** ** Lines of parts *)

Lemma lines_app a b : split_c LF (a ++ LF :: b) = split_c LF a ++ split_c LF b.
Proof.
  induction a as [| c a IH].
  - cbn [app split_c]. destruct (split_c LF b) as [| w ws] eqn:E; [now destruct (split_c_nonnil LF b) |]. reflexivity.
  - cbn [app split_c]. rewrite IH. destruct (split_c LF a) as [| w ws] eqn:E; [now destruct (split_c_nonnil LF a) |].
    cbn [app]. now destruct (N.eqb c LF).
Qed.
Lemma code_app a b : code_lines (a ++ LF :: b) = code_lines a ++ code_lines b.
Proof. unfold code_lines. now rewrite lines_app, filter_app. Qed.
Lemma code_nil : code_lines [] = [].
Proof. reflexivity. Qed.
Lemma code_parts l : code_lines (join [LF; LF] l) = flat_map code_lines l.
Proof.
  induction l as [| x l IH]; [reflexivity |]. destruct l as [| y l]; [cbn [join flat_map]; now rewrite app_nil_r |].
  rewrite join_cons. cbn [app]. rewrite code_app. change (LF :: join [LF; LF] (y :: l)) with ([] ++ LF :: join [LF; LF] (y :: l)).
  rewrite code_app, code_nil. cbn [app]. rewrite IH. reflexivity.
Qed.
Lemma code_block l : code_lines (join [LF] l) = flat_map code_lines l.
Proof.
  induction l as [| x l IH]; [reflexivity |]. destruct l as [| y l]; [cbn [join flat_map]; now rewrite app_nil_r |].
  rewrite join_cons. cbn [app]. rewrite code_app, IH. reflexivity.
Qed.
Lemma code_get l : code_lines (get l) = flat_map code_lines l.
Proof.
  unfold get. rewrite code_parts. induction l as [| x l IH]; [reflexivity |]. cbn [filter flat_map]. destruct x as [| c x].
  - cbn [is_part]. now rewrite IH.
  - cbn [is_part flat_map]. now rewrite IH.
Qed.
Lemma code_line l : ~ In LF l -> code_lines l = if is_note l then [] else [l].
Proof. intros H. unfold code_lines. rewrite split_c_word by exact H. cbn [filter]. now destruct (is_note l). Qed.

Lemma lines_in_get l x : In x l -> x <> [] -> forall line, In line (split_c LF x) -> In line (split_c LF (get l)).
Proof.
  unfold get. intros Hx Hn line Hl. assert (Hi : In x (filter is_part l)) by (apply filter_In; split; [exact Hx | now destruct x]).
  induction (filter is_part l) as [| y r IH]; [destruct Hi |]. destruct r as [| z r].
  - destruct Hi as [-> | []]. exact Hl.
  - rewrite join_cons. cbn [app]. rewrite lines_app. apply in_or_app. destruct Hi as [-> | Hi]; [now left | right].
    change (LF :: join [LF; LF] (z :: r)) with ([] ++ LF :: join [LF; LF] (z :: r)). rewrite lines_app. right. now apply IH.
Qed.

(** ** Notes *)

Lemma notice_lines : code_lines GENERATION_NOTICE = [].
Proof. reflexivity. Qed.
Definition one_line (x : str) : Prop := ~ In LF x.
Lemma comment_line c : one_line c -> code_lines (s "# " ++ c) = [].
Proof. intros H. rewrite code_line; [reflexivity |]. intros [E | [E | E]]; [discriminate E | discriminate E | exact (H E)]. Qed.
Lemma comments_lines st : Forall one_line (st_comments st) -> flat_map code_lines (comments st) = [].
Proof.
  intros H. unfold comments. destruct (st_comments st) as [| c l] eqn:E; [reflexivity |]. rewrite <- E in *. clear E. cbn [flat_map].
  rewrite app_nil_r, code_block. induction H as [| x r Hx _ IH]; [reflexivity |]. cbn [map flat_map]. rewrite comment_line by exact Hx. exact IH.
Qed.
Lemma vim_lines st sh : one_line sh -> flat_map code_lines (vim_modeline st sh) = [].
Proof.
  intros H. unfold vim_modeline. destruct (st_vim_modeline st); [| reflexivity]. cbn [flat_map]. rewrite app_nil_r.
  change (s "# vim: ft=" ++ sh ++ s " ts=2 sts=2 sw=2 et") with (s "# " ++ (s "vim: ft=" ++ sh ++ s " ts=2 sts=2 sw=2 et")).
  apply comment_line. intros Hi. apply in_app_or in Hi as [Hi | Hi]; [cbn in Hi; intuition discriminate |].
  apply in_app_or in Hi as [Hi | Hi]; [exact (H Hi) | cbn in Hi; intuition discriminate].
Qed.
Lemma comment_shown st c : In c (st_comments st) -> one_line c -> exists x, In x (comments st) /\ x <> [] /\ In (s "# " ++ c) (split_c LF x).
Proof.
  intros Hc H. unfold comments. destruct (st_comments st) as [| c0 l] eqn:E; [destruct Hc |].
  eexists. split; [left; reflexivity |]. split; [destruct l; discriminate |]. clear E. revert c0 Hc.
  assert (Ho : split_c LF (s "# " ++ c) = [s "# " ++ c]).
  { apply split_c_word. intros [E | [E | E]]; [discriminate E | discriminate E | exact (H E)]. }
  induction l as [| d l IH]; intros c0 Hc.
  - destruct Hc as [-> | []]. change (In (s "# " ++ c) (split_c LF (s "# " ++ c))). rewrite Ho. now left.
  - change (map (fun c1 => s "# " ++ c1) (c0 :: d :: l)) with ((s "# " ++ c0) :: (s "# " ++ d) :: map (fun c1 => s "# " ++ c1) l).
    rewrite join_cons. change ([LF] ++ ?x) with (LF :: x). rewrite lines_app. apply in_or_app. destruct Hc as [-> | Hc].
    + left. rewrite Ho. now left.
    + right. exact (IH d Hc).
Qed.

(** ** Included files *)

Lemma lstrip_blanks a x : forallb is_space a = true -> lstrip_p is_space (a ++ x) = lstrip_p is_space x.
Proof. induction a as [| c a IH]; intros H; [reflexivity |]. apply andb_true_iff in H as [H1 H2]. cbn [app lstrip_p]. rewrite H1. now apply IH. Qed.
Lemma forallb_rev {A} (p : A -> bool) l : forallb p (rev l) = forallb p l.
Proof. induction l as [| x l IH]; [reflexivity |]. cbn [rev forallb]. rewrite forallb_app, IH. cbn [forallb]. destruct (p x), (forallb p l); reflexivity. Qed.
Lemma trimmed_strip x t : trimmed x t -> strip_p is_space x = t.
Proof.
  intros (a & b & -> & Ha & Hb & H1 & H2). unfold strip_p. rewrite lstrip_blanks by exact Ha. destruct t as [| c t].
  - cbn [app]. rewrite <- (app_nil_r b), lstrip_blanks by exact Hb. reflexivity.
  - rewrite (lstrip_id is_space ((c :: t) ++ b)); [| intros d r E; injection E as <- <-; eapply H1; reflexivity].
    unfold rstrip_p. rewrite rev_app_distr, lstrip_blanks by now rewrite forallb_rev.
    rewrite lstrip_id; [apply rev_involutive |]. intros d r E. apply (H2 d (rev r)).
    rewrite <- (rev_involutive (c :: t)), E. reflexivity.
Qed.
Lemma included_lines st ts : Forall2 trimmed (st_included st) ts -> included_files st = ts.
Proof. unfold included_files. induction 1 as [| x t l r H _ IH]; [reflexivity |]. cbn [map]. now rewrite IH, (trimmed_strip x t H). Qed.

(** ** Plain names *)

Lemma plain_no_lf sp x : sp LF = true -> plain_name sp x -> ~ In LF x.
Proof. intros E (_ & H & _) Hi. apply H in Hi. congruence. Qed.
Lemma join_no c l : c <> SP -> (forall x, In x l -> ~ In c x) -> ~ In c (join [SP] l).
Proof.
  intros Hc. induction l as [| x l IH]; intros H; [intros [] |]. destruct l as [| y l]; [apply H; now left |].
  rewrite join_cons. intros Hi. apply in_app_or in Hi as [Hi | Hi]; [exact (H x (or_introl eq_refl) Hi) |].
  destruct Hi as [E | Hi]; [congruence |]. apply IH in Hi; [exact Hi |]. intros z Hz. apply H. now right.
Qed.
Lemma no_options l sp : Forall (plain_name sp) l -> existsb is_option l = false.
Proof.
  induction 1 as [| x l (Hn & _ & Hd) _ IH]; [reflexivity |]. cbn [existsb]. rewrite IH, orb_false_r. destruct x as [| c x]; [reflexivity |].
  cbn [is_option]. destruct (N.eqb_spec c DASH) as [-> |]; [now destruct (Hd x) | reflexivity].
Qed.
Lemma plain_note x rest : plain_name posix_special x -> is_note (x ++ rest) = false.
Proof.
  intros (Hn & Hx & _). destruct x as [| c x]; [congruence |]. cbn [app is_note].
  assert (E : forall d, posix_special d = true -> N.eqb c d = false).
  { intros d Hd. destruct (N.eqb_spec c d) as [-> | _]; [| reflexivity]. rewrite (Hx d) in Hd by now left. discriminate. }
  now rewrite (E SP), (E TAB), (E HASH) by reflexivity.
Qed.

(** ** Bash *)

Section Bash.
Context (st : settings) (helpers functions : list str) (func : str) (wrapper : option str) (names : list str).
Lemma bash_code ts : Forall one_line (st_comments st) -> Forall2 trimmed (st_included st) ts ->
  code_lines (bash_script st helpers functions func wrapper names) =
  flat_map code_lines ts ++ flat_map code_lines (helpers ++ functions ++ part wrapper) ++ code_lines (s "complete -F " ++ func ++ s " " ++ join [SP] names).
Proof.
  intros Hc Hi. unfold bash_script. rewrite code_get, !flat_map_app, (included_lines st ts Hi), comments_lines by exact Hc.
  rewrite vim_lines by (unfold one_line; cbn; intuition discriminate). cbn [flat_map]. rewrite notice_lines, !app_nil_r. cbn [app]. now rewrite !app_assoc.
Qed.
Lemma bash_words : plain_name posix_special func -> Forall (plain_name posix_special) names -> names <> [] ->
  posix_words (s "complete -F " ++ func ++ s " " ++ join [SP] names) = Some (s "complete" :: s "-F" :: func :: names).
Proof.
  intros (Hf & Hf' & _) Hn Hne. rewrite <- (posix_plain_words (s "complete" :: s "-F" :: func :: names)).
  - f_equal. destruct names as [| n l]; [congruence |]. reflexivity.
  - constructor; [split; [discriminate | intros c Hc; repeat (destruct Hc as [<- | Hc]; [reflexivity |]); destruct Hc] |].
    constructor; [split; [discriminate | intros c Hc; repeat (destruct Hc as [<- | Hc]; [reflexivity |]); destruct Hc] |].
    constructor; [now split |]. eapply Forall_impl; [| exact Hn]. intros x (H1 & H2 & _). now split.
Qed.
Lemma bash_last : plain_name posix_special func -> Forall (plain_name posix_special) names ->
  code_lines (s "complete -F " ++ func ++ s " " ++ join [SP] names) = [s "complete -F " ++ func ++ s " " ++ join [SP] names].
Proof.
  intros Hf Hn. rewrite code_line; [reflexivity |]. intros Hi. apply in_app_or in Hi as [Hi | Hi]; [cbn in Hi; intuition discriminate |].
  apply in_app_or in Hi as [Hi | Hi]; [exact (plain_no_lf posix_special func eq_refl Hf Hi) |].
  apply in_app_or in Hi as [Hi | Hi]; [cbn in Hi; intuition discriminate |]. apply join_no in Hi; [exact Hi | discriminate |].
  intros x Hx. rewrite Forall_forall in Hn. exact (plain_no_lf posix_special x eq_refl (Hn x Hx)).
Qed.
(** Without a condition on the comments *)
Lemma last_part line before after : flat_map code_lines after = [] -> code_lines line = [line] -> last_code_line (get (before ++ [line] ++ after)) line.
Proof. intros Ha Hl. exists (flat_map code_lines before). rewrite code_get, !flat_map_app, Ha, app_nil_r. cbn [flat_map]. now rewrite Hl. Qed.
Lemma bash_registered : plain_name posix_special func -> Forall (plain_name posix_special) names -> names <> [] ->
  exists line, last_code_line (bash_script st helpers functions func wrapper names) line /\ bash_registers line func names.
Proof.
  intros Hf Hn Hne. exists (s "complete -F " ++ func ++ s " " ++ join [SP] names). split.
  - unfold bash_script. rewrite !app_assoc. rewrite <- (app_assoc _ [_]). apply last_part; [apply vim_lines; unfold one_line; cbn; intuition discriminate |].
    rewrite <- !app_assoc. now apply bash_last.
  - split; [now apply bash_words |]. eapply no_options, Hn.
Qed.
End Bash.

(** ** zsh *)

Lemma ws_word w rest : forallb (fun c => negb (is_space c)) w = true -> w <> [] -> split_ws_aux [] (w ++ SP :: rest) = w :: split_ws_aux [] rest.
Proof.
  intros H Hn. assert (G : forall w cur, forallb (fun c => negb (is_space c)) w = true -> cur ++ w <> [] ->
    split_ws_aux (rev cur) (w ++ SP :: rest) = (cur ++ w) :: split_ws_aux [] rest).
  { clear w H Hn. induction w as [| c w IH]; intros cur H Hn.
    - rewrite app_nil_r in *. cbn [app split_ws_aux]. change (is_space SP) with true. cbn match. destruct (rev cur) as [| d r] eqn:E.
      + destruct cur as [| x cur]; [congruence |]. apply (f_equal (@List.length N)) in E. rewrite rev_length in E. discriminate E.
      + now rewrite <- E, rev_involutive.
    - apply andb_true_iff in H as [Hc H]. cbn [app split_ws_aux]. destruct (is_space c); [discriminate Hc |].
      specialize (IH (cur ++ [c]) H). rewrite rev_app_distr in IH. cbn [rev app] in IH. rewrite IH; [| now destruct cur].
      now rewrite <- app_assoc. }
  exact (G w [] H Hn).
Qed.
Lemma ws_last w : forallb (fun c => negb (is_space c)) w = true -> w <> [] -> split_ws_aux [] w = [w].
Proof.
  intros H Hn. assert (G : forall w cur, forallb (fun c => negb (is_space c)) w = true -> cur ++ w <> [] -> split_ws_aux (rev cur) w = [cur ++ w]).
  { clear w H Hn. induction w as [| c w IH]; intros cur H Hn.
    - rewrite app_nil_r in *. cbn [split_ws_aux]. destruct (rev cur) as [| d r] eqn:E.
      + destruct cur as [| x cur]; [congruence |]. apply (f_equal (@List.length N)) in E. rewrite rev_length in E. discriminate E.
      + now rewrite <- E, rev_involutive.
    - apply andb_true_iff in H as [Hc H]. cbn [split_ws_aux]. destruct (is_space c); [discriminate Hc |].
      specialize (IH (cur ++ [c]) H). rewrite rev_app_distr in IH. cbn [rev app] in IH. rewrite IH; [| now destruct cur].
      now rewrite <- app_assoc. }
  exact (G w [] H Hn).
Qed.
Lemma ws_join l : (forall w, In w l -> w <> [] /\ forallb (fun c => negb (is_space c)) w = true) -> split_ws (join [SP] l) = l.
Proof.
  unfold split_ws. induction l as [| w l IH]; intros H; [reflexivity |]. destruct (H w (or_introl eq_refl)) as [Hn Hs]. destruct l as [| y l].
  - cbn [join]. now apply ws_last.
  - rewrite join_cons. cbn [app]. rewrite ws_word by assumption. f_equal. apply IH. intros; apply H; now right.
Qed.

(** The first line *)
Lemma first_get x l : x <> [] -> ~ In LF x -> first_line (get (x :: l)) = x.
Proof.
  intros Hn Hx. unfold first_line, get. cbn [filter]. destruct (is_part x) eqn:E; [| now destruct x].
  destruct (filter is_part l) as [| y r]; [cbn [join]; now rewrite split_c_word |].
  rewrite join_cons. cbn [app]. now rewrite split_c_app.
Qed.
Lemma names_no_lf names : (forall x, In x names -> x <> [] /\ forallb (fun c => negb (is_space c)) x = true) -> ~ In LF (join [SP] names).
Proof.
  intros H. apply join_no; [discriminate |]. intros x Hx Hi. destruct (H x Hx) as [_ Hs]. rewrite forallb_forall in Hs. discriminate (Hs LF Hi).
Qed.
(** zsh reads plain names. *)
Lemma zsh_plain_word x rest : (forall c, In c x -> posix_special c = false) -> forall w, (w <> None \/ forall r, x <> EQ :: r) ->
  sh_read true Unquoted w (x ++ rest) = sh_read true Unquoted (match x with [] => w | _ => Some (match w with Some v => v | None => [] end ++ x) end) rest.
Proof.
  induction x as [| c x IH]; intros H w Hw; [reflexivity |]. cbn [app sh_read].
  assert (Hc : posix_special c = false) by (apply H; now left). rewrite Hc.
  assert (Hm : forall d, In d [SQ; DQ; SP; TAB] -> N.eqb c d = false).
  { intros d Hd. destruct (N.eqb_spec c d) as [-> |]; [| reflexivity]. cbn in Hd. repeat (destruct Hd as [<- | Hd]; [discriminate |]). destruct Hd. }
  rewrite (Hm SQ), (Hm DQ), (Hm SP), (Hm TAB) by (cbn; tauto). cbn [orb andb].
  assert (He : N.eqb c EQ && match w with None => true | Some _ => false end = false).
  { destruct w as [v |]; [apply andb_false_r |]. destruct (N.eqb_spec c EQ) as [-> |]; [| reflexivity]. destruct Hw as [Hw | Hw]; [congruence |]. now destruct (Hw x). }
  rewrite He, IH; [| intros d Hd; apply H; now right | left; discriminate].
  destruct x; destruct w; cbn; rewrite <- ?app_assoc; reflexivity.
Qed.
Lemma zsh_plain_words l : Forall (fun x => x <> [] /\ (forall c, In c x -> posix_special c = false) /\ forall r, x <> EQ :: r) l -> zsh_words (join [SP] l) = Some l.
Proof.
  unfold zsh_words. induction l as [| x l IH]; intros H; [reflexivity |]. apply Forall_cons_iff in H as [(Hn & Hx & He) Hl].
  destruct l as [| y l].
  - cbn [join]. rewrite <- (app_nil_r x) at 1. rewrite zsh_plain_word by (exact Hx || now right). destruct x; [now destruct Hn | reflexivity].
  - rewrite join_cons, zsh_plain_word by (exact Hx || now right). cbn [app]. destruct x as [| c x]; [now destruct Hn |].
    change (sh_read true Unquoted (Some (c :: x)) (SP :: join [SP] (y :: l))) with
      (option_map (cons (c :: x)) (sh_read true Unquoted None (join [SP] (y :: l)))).
    now rewrite (IH Hl).
Qed.

Section Zsh.
Context (st : settings) (helpers functions zstyles : list str) (func : str) (wrapper : option str) (names : list str).
Lemma zsh_code ts : Forall one_line (st_comments st) -> Forall2 trimmed (st_included st) ts -> (forall x, In x names -> ~ In LF x) ->
  code_lines (zsh_script st helpers functions zstyles func wrapper names) =
  flat_map code_lines ts ++ flat_map code_lines (helpers ++ functions ++ match zstyles with [] => [] | _ => [block zstyles] end ++ part wrapper)
  ++ code_lines (if st_zsh_compdef st then func ++ s " ""$@""" else s "compdef " ++ func ++ s " " ++ join [SP] names).
Proof.
  intros Hc Hi Hn. unfold zsh_script. rewrite code_get, !flat_map_app, (included_lines st ts Hi), comments_lines by exact Hc.
  rewrite vim_lines by (unfold one_line; cbn; intuition discriminate).
  assert (E : flat_map code_lines (if st_zsh_compdef st then [s "#compdef " ++ join [SP] names] else []) = []).
  { destruct (st_zsh_compdef st); [| reflexivity]. cbn [flat_map]. rewrite code_line; [reflexivity |]. intros H.
    apply in_app_or in H as [H | H]; [cbn in H; intuition discriminate |]. apply join_no in H; [exact H | discriminate | exact Hn]. }
  rewrite E. cbn [flat_map]. rewrite notice_lines, !app_nil_r. cbn [app]. now rewrite !app_assoc.
Qed.
Lemma zsh_first : st_zsh_compdef st = true -> (forall x, In x names -> x <> [] /\ forallb (fun c => negb (is_space c)) x = true /\ compdef_name x = true) ->
  compdef_line (first_line (zsh_script st helpers functions zstyles func wrapper names)) names.
Proof.
  intros E H. unfold zsh_script. rewrite E. cbn [app]. rewrite first_get; [| discriminate |].
  - exists (join [SP] names). split; [reflexivity |]. split; [apply ws_join; intros w Hw; destruct (H w Hw) as (? & ? & _); now split |].
    apply forallb_forall. intros x Hx. apply H, Hx.
  - intros Hi. apply in_app_or in Hi as [Hi | Hi]; [cbn in Hi; intuition discriminate |].
    apply names_no_lf in Hi; [exact Hi |]. intros x Hx. destruct (H x Hx) as (? & ? & _). now split.
Qed.
Lemma zsh_calls : st_zsh_compdef st = true -> plain_name posix_special func ->
  last_code_line (zsh_script st helpers functions zstyles func wrapper names) (func ++ s " ""$@""").
Proof.
  intros E Hf. unfold zsh_script. rewrite E, !app_assoc. rewrite <- (app_assoc _ [_]). apply last_part; [apply vim_lines; unfold one_line; cbn; intuition discriminate |].
  rewrite code_line; [now rewrite (plain_note func _ Hf) |]. intros Hi. apply in_app_or in Hi as [Hi | Hi]; [exact (plain_no_lf posix_special func eq_refl Hf Hi) |].
  cbn in Hi; intuition discriminate.
Qed.
Lemma zsh_registered : st_zsh_compdef st = false -> plain_name posix_special func -> ~ In EQ func -> names <> [] ->
  Forall (plain_name posix_special) names -> (forall x, In x names -> ~ In EQ x) ->
  exists line, last_code_line (zsh_script st helpers functions zstyles func wrapper names) line /\ zsh_registers line func names.
Proof.
  intros E Hf Hfe Hne Hn He. exists (s "compdef " ++ func ++ s " " ++ join [SP] names). split.
  - unfold zsh_script. rewrite E, !app_assoc. rewrite <- (app_assoc _ [_]). apply last_part; [apply vim_lines; unfold one_line; cbn; intuition discriminate |].
    rewrite <- !app_assoc. rewrite code_line; [reflexivity |]. intros Hi. apply in_app_or in Hi as [Hi | Hi]; [cbn in Hi; intuition discriminate |].
    apply in_app_or in Hi as [Hi | Hi]; [exact (plain_no_lf posix_special func eq_refl Hf Hi) |].
    apply in_app_or in Hi as [Hi | Hi]; [cbn in Hi; intuition discriminate |]. apply join_no in Hi; [exact Hi | discriminate |].
    intros x Hx. rewrite Forall_forall in Hn. exact (plain_no_lf posix_special x eq_refl (Hn x Hx)).
  - split.
    + rewrite <- (zsh_plain_words (s "compdef" :: func :: names)); [f_equal; destruct names as [| n l]; [congruence | reflexivity] |].
      constructor; [split; [discriminate | split; [intros c Hc; repeat (destruct Hc as [<- | Hc]; [reflexivity |]); destruct Hc | discriminate]] |].
      constructor; [destruct Hf as (H1 & H2 & _); repeat split; [exact H1 | exact H2 |]; intros r ->; apply Hfe; now left |].
      rewrite Forall_forall in *. intros x Hx. destruct (Hn x Hx) as (H1 & H2 & _). repeat split; [exact H1 | exact H2 |].
      intros r ->. apply (He _ Hx). now left.
    + apply forallb_forall. intros x Hx. rewrite Forall_forall in Hn. destruct (Hn x Hx) as (H1 & H2 & H3). unfold compdef_name.
      assert (is_option x = false) as ->.
      { destruct x as [| c x]; [reflexivity |]. cbn [is_option]. destruct (N.eqb_spec c DASH) as [-> |]; [now destruct (H3 x) | reflexivity]. }
      assert (memc EQ x = false) as ->.
      { destruct (memc EQ x) eqn:F; [| reflexivity]. apply existsb_exists in F as (c & Hc & F). apply N.eqb_eq in F as <-. now destruct (He x Hx). }
      assert (memc BS x = false) as ->; [| reflexivity].
      destruct (memc BS x) eqn:F; [| reflexivity]. apply existsb_exists in F as (c & Hc & F). apply N.eqb_eq in F as <-. discriminate (H2 BS Hc).
Qed.
End Zsh.

(** ** fish *)

Section FishScript.
Context (st : settings) (helpers : list str) (prog prepare : str) (used : list (str * str)) (wraps : option str) (generators : list (list str)) (aliases : list str).
Lemma fish_code ts : Forall one_line (st_comments st) -> Forall2 trimmed (st_included st) ts ->
  code_lines (Output.fish_script st helpers prog prepare used wraps generators aliases) =
  flat_map code_lines ts ++ flat_map code_lines helpers ++ code_lines (block (fish_header prog prepare used))
  ++ flat_map code_lines (fish_wraps wraps ++ map block generators) ++ flat_map code_lines (fish_aliases prog aliases).
Proof.
  intros Hc Hi. unfold Output.fish_script. rewrite code_get, !flat_map_app, (included_lines st ts Hi), comments_lines by exact Hc.
  rewrite vim_lines by (unfold one_line; cbn; intuition discriminate). cbn [flat_map]. rewrite notice_lines, !app_nil_r. cbn [app]. now rewrite !app_assoc.
Qed.
Lemma fish_code' : exists before, code_lines (Output.fish_script st helpers prog prepare used wraps generators aliases) =
  before ++ code_lines (block (fish_header prog prepare used))
  ++ flat_map code_lines (fish_wraps wraps ++ map block generators) ++ flat_map code_lines (fish_aliases prog aliases).
Proof.
  eexists. unfold Output.fish_script. rewrite code_get, !flat_map_app.
  rewrite vim_lines by (unfold one_line; cbn; intuition discriminate). cbn [flat_map]. rewrite !app_nil_r, !app_assoc. reflexivity.
Qed.
Lemma fish_alias_lines : plain_name fish_special prog -> Forall (plain_name fish_special) aliases ->
  exists l, flat_map code_lines (fish_aliases prog aliases) = concat l /\ Forall2 (fish_alias prog) aliases l.
Proof.
  intros Hp Ha. exists (map (fun a => [s "complete -c " ++ a ++ s " -e"; s "complete -c " ++ a ++ s " -w " ++ prog]) aliases).
  assert (W : forall a, plain_name fish_special a -> code_lines (s "complete -c " ++ a ++ s " -e") = [s "complete -c " ++ a ++ s " -e"] /\
    code_lines (s "complete -c " ++ a ++ s " -w " ++ prog) = [s "complete -c " ++ a ++ s " -w " ++ prog]).
  { intros a H. split; (rewrite code_line; [reflexivity |]); intros Hi; (apply in_app_or in Hi as [Hi | Hi]; [cbn in Hi; intuition discriminate |]);
      (apply in_app_or in Hi as [Hi | Hi]; [exact (plain_no_lf fish_special a eq_refl H Hi) |]).
    - cbn in Hi; intuition discriminate.
    - apply in_app_or in Hi as [Hi | Hi]; [cbn in Hi; intuition discriminate |]. exact (plain_no_lf fish_special prog eq_refl Hp Hi). }
  split.
  - unfold fish_aliases. destruct aliases as [| a0 l0] eqn:E; [reflexivity |]. rewrite <- E in *. clear E. cbn [flat_map]. rewrite app_nil_r. unfold block. rewrite code_block.
    induction Ha as [| a l H _ IH]; [reflexivity |]. cbn [flat_map map concat]. destruct (W a H) as [W1 W2].
    rewrite flat_map_app, IH. cbn [flat_map]. rewrite W1, W2. reflexivity.
  - induction Ha as [| a l H _ IH]; [constructor |]. cbn [map]. constructor; [| exact IH]. unfold fish_alias. cbn [map]. destruct H as (H1 & H2 & _), Hp as (P1 & P2 & _).
    f_equal; [| f_equal].
    + change (s "complete -c " ++ a ++ s " -e") with (join [SP] [s "complete"; s "-c"; a; s "-e"]). apply fish_plain_words.
      intros w Hw. repeat (destruct Hw as [<- | Hw]; [split; [try discriminate; assumption | try assumption; intros d Hd; repeat (destruct Hd as [<- | Hd]; [reflexivity |]); destruct Hd] |]). destruct Hw.
    + change (s "complete -c " ++ a ++ s " -w " ++ prog) with (join [SP] [s "complete"; s "-c"; a; s "-w"; prog]). apply fish_plain_words.
      intros w Hw. repeat (destruct Hw as [<- | Hw]; [split; [try discriminate; assumption | try assumption; intros d Hd; repeat (destruct Hd as [<- | Hd]; [reflexivity |]); destruct Hd] |]). destruct Hw.
Qed.
End FishScript.

(** The block that sets the variables *)
Definition harmless (x : str) : Prop := ~ In SQ x /\ ~ In BS x /\ ~ In LF x.
Definition set_line (f x : str) : str := s "set -l " ++ f ++ s " '" ++ x ++ s "'".
Lemma set_line_words f x : f <> [] -> forallb is_word f = true -> harmless x -> fish_words (set_line f x) = Some [s "set"; s "-l"; f; x].
Proof.
  intros Hn Hf (H1 & H2 & _). unfold fish_words, set_line.
  change (fish_read FUnquoted None (s "set -l " ++ f ++ s " '" ++ x ++ s "'")) with
    (option_map (cons (s "set")) (option_map (cons (s "-l")) (fish_read FUnquoted None (f ++ SP :: SQ :: x ++ s "'")))).
  rewrite fish_first; [| exact Hn | intros d Hd; eapply word_harmless; eassumption].
  change (fish_read FUnquoted (Some f) (SP :: SQ :: x ++ s "'")) with (option_map (cons f) (fish_read FInSQ (Some []) (x ++ SQ :: []))).
  rewrite fish_read_sq by assumption. destruct x; reflexivity.
Qed.
Lemma word_no c f : is_word c = false -> forallb is_word f = true -> ~ In c f.
Proof. intros E H Hi. rewrite forallb_forall in H. rewrite (H c Hi) in E. discriminate. Qed.
Lemma set_line_code f x : forallb is_word f = true -> harmless x -> code_lines (set_line f x) = [set_line f x].
Proof.
  intros Hf (_ & _ & H). rewrite code_line; [reflexivity |]. unfold set_line. intros Hi. apply in_app_or in Hi as [Hi | Hi]; [cbn in Hi; intuition discriminate |].
  apply in_app_or in Hi as [Hi | Hi]; [exact (word_no LF f eq_refl Hf Hi) |]. apply in_app_or in Hi as [Hi | Hi]; [cbn in Hi; intuition discriminate |].
  apply in_app_or in Hi as [Hi | Hi]; [exact (H Hi) | cbn in Hi; intuition discriminate].
Qed.
Lemma fish_header_lines prog prepare used : harmless prog -> harmless prepare ->
  (forall f x, In (f, x) used -> f <> [] /\ forallb is_word f = true /\ f <> s "prog" /\ harmless x) ->
  fish_program prog (code_lines (block (fish_header prog prepare used))).
Proof.
  intros Hp Hq Hu. unfold block, fish_header. rewrite code_block, !flat_map_app. cbn [flat_map].
  change (s "set -l prog '" ++ prog ++ s "'") with (set_line (s "prog") prog). change (s "set -l P '" ++ prepare ++ s "'") with (set_line (s "P") prepare).
  rewrite !set_line_code by (reflexivity || assumption).
  exists (set_line (s "prog") prog), (set_line (s "P") prepare :: map (fun '(f, x) => set_line f x) used). split; [| split].
  - cbn [app]. f_equal. f_equal. f_equal. clear Hq. induction used as [| [f x] l IH]; [reflexivity |]. cbn [map flat_map].
    destruct (Hu f x (or_introl eq_refl)) as (_ & Hf & _ & Hx). fold (set_line f x). rewrite set_line_code by assumption. cbn [app]. f_equal.
    apply IH. intros; apply Hu; now right.
  - apply set_line_words; [discriminate | reflexivity | exact Hp].
  - intros l [<- | Hl]; [exists (s "P"), prepare; split; [apply set_line_words; [discriminate | reflexivity | exact Hq] | discriminate] |].
    apply in_map_iff in Hl as ([f x] & <- & Hi). destruct (Hu f x Hi) as (H1 & H2 & H3 & H4). exists f, x. split; [now apply set_line_words | exact H3].
Qed.
