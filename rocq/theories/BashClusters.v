(** * The patterns for short options that are written together. *)
From Verif Require Import Base Shell SpecShell BashPatterns BashPatternsProofs SpecGlob GlobMatch PatternMore.
Open Scope list_scope.

Lemma bracket_chars top st alts cur : forall chars items last rest, forallb plain chars = true -> ~ In DASH chars ->
  read top GPlain st alts cur (Some (MkBracket false items (Some last) false false)) (chars ++ RBRK :: rest) =
  read top GPlain st alts (glob_push cur (OneOf false (items ++ map (fun c => (c, c)) (last :: chars)))) None rest.
Proof.
  induction chars as [| c chars IH]; intros items last rest Hp Hd.
  - cbn [app]. rewrite read_plain. cbn -[read]. reflexivity.
  - cbn [forallb] in Hp. apply andb_prop in Hp as [Hc Hp]. pose proof (plain_facts c Hc) as F. cbn [app]. rewrite read_plain.
    rewrite (F SQ), (F DQ), (F BS), (F RBRK), (F LBRK) by (cbn; tauto). cbn [b_start b_negated andb negb].
    assert (Ed : N.eqb c DASH = false) by (apply N.eqb_neq; intros ->; apply Hd; now left). rewrite Ed. cbn [andb].
    cbn [memc existsb]. rewrite (F DOLLAR), (F BTICK), (F SP), (F TAB), (F LF) by (cbn; tauto). cbn [orb].
    unfold bracket_add. cbn [b_last b_dash b_negated b_items single].
    rewrite IH by (assumption || (intros H; apply Hd; now right)). f_equal. f_equal. f_equal. cbn [map]. now rewrite <- app_assoc.
Qed.
Definition one_of (chars : str) : glob := OneOf false (map (fun c => (c, c)) chars).
Lemma reads_set chars : chars <> [] -> forallb plain chars = true -> ~ In DASH chars ->
  reads (s "[" ++ chars ++ s "]") [one_of chars].
Proof.
  intros Hn Hp Hd. destruct chars as [| c chars]; [now destruct Hn |].
  split; [discriminate |]. split; [discriminate |]. intros top st alts cur rest Hr.
  assert (E : push_all cur [one_of (c :: chars)] = glob_push (glob_start cur) (one_of (c :: chars))) by (destruct cur; reflexivity). rewrite E.
  rewrite <- !app_assoc. change (s "[" ++ ?z) with (LBRK :: z). change (s "]" ++ rest) with (RBRK :: rest).
  cbn [forallb] in Hp. apply andb_prop in Hp as [Hc Hp]. pose proof (plain_facts c Hc) as F.
  rewrite read_plain. change (N.eqb LBRK SQ) with false. change (N.eqb LBRK DQ) with false. change (N.eqb LBRK BS) with false. cbn iota.
  assert (Eo : ext_open LBRK ((c :: chars) ++ RBRK :: rest) = None).
  { unfold ext_open. cbn [app]. rewrite (F LPAR) by (cbn; tauto). reflexivity. }
  rewrite Eo. change (N.eqb LBRK QM) with false. change (N.eqb LBRK STAR) with false. change (N.eqb LBRK LBRK) with true. cbn iota.
  cbn [app]. rewrite read_plain. rewrite (F SQ), (F DQ), (F BS), (F BANG), (F CARET), (F RBRK), (F LBRK) by (cbn; tauto).
  cbn [b_start b_negated b_last b_dash andb negb orb].
  assert (Ed : N.eqb c DASH = false) by (apply N.eqb_neq; intros ->; apply Hd; now left). rewrite Ed. cbn [andb].
  cbn [memc existsb]. rewrite (F DOLLAR), (F BTICK), (F SP), (F TAB), (F LF) by (cbn; tauto). cbn [orb].
  unfold bracket_add. cbn [b_last b_dash b_negated b_items single app].
  rewrite bracket_chars by (assumption || (intros H; apply Hd; now right)). reflexivity.
Qed.
Lemma reads_many x gs : reads x gs -> reads (s "*(" ++ x ++ s ")") [Ext AnyNumber [gs]].
Proof.
  intros Hx. split; [discriminate |]. split; [discriminate |]. intros top st alts cur rest Hr. rewrite <- !app_assoc.
  transitivity (read top GPlain ((AnyNumber, alts, cur) :: st) [] None None (join (s "|") (map fst [(x, gs)]) ++ s ")" ++ rest)).
  { cbn [map fst join]. set (y := x ++ _). change (s "*(" ++ y) with (STAR :: LPAR :: y). rewrite read_plain. cbn -[read]. reflexivity. }
  rewrite reads_join; [destruct cur; reflexivity | intros p [<- | []]; exact Hx | discriminate | exact Hr].
Qed.

Lemma matches_one_of chars w : matches (one_of chars) w <-> exists c, w = [c] /\ In c chars.
Proof.
  cbn [matches one_of]. assert (E : forall c, in_ranges c (map (fun c => (c, c)) chars) = true <-> In c chars).
  { intros c. unfold in_ranges. rewrite existsb_exists. split.
    - intros ([a b] & Hin & H). apply in_map_iff in Hin as (d & E & Hd). injection E as <- <-. apply andb_prop in H as [H1 H2].
      apply N.leb_le in H1, H2. replace c with d by lia. exact Hd.
    - intros H. exists (c, c). split; [apply in_map_iff; eauto |]. now rewrite N.leb_refl. }
  split; intros (c & -> & H); exists c; (split; [reflexivity |]); now apply E.
Qed.
Lemma star_chars chars w : star (any_matches [[one_of chars]]) w <-> forall c, In c w -> In c chars.
Proof.
  assert (A : forall u, any_matches [[one_of chars]] u <-> exists c, u = [c] /\ In c chars).
  { intros u. rewrite any_matches_iff, <- matches_one_of. split.
    - intros (a & [<- | []] & H). now apply seq_matches_one.
    - intros H. exists [one_of chars]. split; [now left | now apply seq_matches_one]. }
  split.
  - induction 1 as [| u v Hu Hv IH]; [intros c [] |]. apply A in Hu as (c & -> & Hc). intros d [<- | Hd]; [exact Hc | now apply IH].
  - induction w as [| c w IH]; intros H; [constructor |]. change (c :: w) with ([c] ++ w).
    constructor; [apply A; exists c; split; [reflexivity | apply H; now left] | apply IH; intros d Hd; apply H; now right].
Qed.

Definition flags_text (flags : str) : str := match flags with [] => [] | _ => s "*([" ++ flags ++ s "])" end.
Lemma flags_reads flags : forallb plain flags = true -> ~ In DASH flags ->
  exists gs, reads (flags_text flags) gs /\ forall w, seq_matches gs w <-> forall c, In c w -> In c flags.
Proof.
  intros Hp Hd. destruct flags as [| f flags].
  - exists []. split; [apply reads_nil |]. intros w. cbn. split; [intros -> c [] |]. intros H. destruct w as [| c w]; [reflexivity |]. destruct (H c). now left.
  - exists [Ext AnyNumber [[one_of (f :: flags)]]]. split.
    + unfold flags_text. change (s "*([" ++ (f :: flags) ++ s "])") with (s "*(" ++ s "[" ++ (f :: flags) ++ (s "]" ++ s ")")).
      rewrite (app_assoc (f :: flags)), (app_assoc (s "[")). apply reads_many. apply reads_set; [discriminate | assumption | assumption].
    + intros w. rewrite seq_matches_one. apply star_chars.
Qed.
(** [-*([flags])[last]] *)
Lemma cluster_pattern flags last w : last <> [] -> forallb plain (flags ++ last) = true -> ~ In DASH (flags ++ last) ->
  (case_matches (s "-" ++ flags_text flags ++ s "[" ++ last ++ s "]") w <->
   exists fs c, w = DASH :: fs ++ [c] /\ (forall f, In f fs -> In f flags) /\ In c last).
Proof.
  intros Hn Hp Hd. rewrite forallb_app in Hp. apply andb_prop in Hp as [Hp1 Hp2].
  assert (Hd1 : ~ In DASH flags) by (intros H; apply Hd, in_or_app; now left).
  assert (Hd2 : ~ In DASH last) by (intros H; apply Hd, in_or_app; now right).
  destruct (flags_reads flags Hp1 Hd1) as (gs & Hg & Hm).
  assert (R : reads (s "-" ++ flags_text flags ++ s "[" ++ last ++ s "]") ([Char DASH] ++ gs ++ [one_of last])).
  { apply (reads_app (s "-")); [apply reads_char; reflexivity |]. apply reads_app; [exact Hg | now apply reads_set]. }
  rewrite (case_one _ _ w R) by discriminate. rewrite seq_matches_app. split.
  - intros (u & v & -> & Hu & Hv). apply seq_matches_one in Hu. cbn in Hu. subst u. apply seq_matches_app in Hv as (fs & z & -> & Hf & Hz).
    apply seq_matches_one, matches_one_of in Hz as (c & -> & Hc). exists fs, c. split; [reflexivity |]. split; [now apply Hm | exact Hc].
  - intros (fs & c & -> & Hf & Hc). exists [DASH], (fs ++ [c]). split; [reflexivity |]. split; [now apply seq_matches_one |].
    apply seq_matches_app. exists fs, [c]. split; [reflexivity |]. split; [now apply Hm |]. apply seq_matches_one, matches_one_of. eauto.
Qed.
(** [-*([flags])[last]*] *)
Lemma cluster_pattern_rest flags last w : last <> [] -> forallb plain (flags ++ last) = true -> ~ In DASH (flags ++ last) ->
  (case_matches (s "-" ++ flags_text flags ++ s "[" ++ last ++ s "]*") w <->
   exists fs c t, w = DASH :: fs ++ c :: t /\ (forall f, In f fs -> In f flags) /\ In c last).
Proof.
  intros Hn Hp Hd. rewrite forallb_app in Hp. apply andb_prop in Hp as [Hp1 Hp2].
  assert (Hd1 : ~ In DASH flags) by (intros H; apply Hd, in_or_app; now left).
  assert (Hd2 : ~ In DASH last) by (intros H; apply Hd, in_or_app; now right).
  destruct (flags_reads flags Hp1 Hd1) as (gs & Hg & Hm).
  assert (R : reads (s "-" ++ flags_text flags ++ (s "[" ++ last ++ s "]") ++ [STAR]) ([Char DASH] ++ gs ++ [one_of last] ++ [AnyText])).
  { apply (reads_app (s "-")); [apply reads_char; reflexivity |]. apply reads_app; [exact Hg |]. apply reads_app; [now apply reads_set | apply reads_star]. }
  replace (s "-" ++ flags_text flags ++ s "[" ++ last ++ s "]*") with (s "-" ++ flags_text flags ++ (s "[" ++ last ++ s "]") ++ [STAR])
    by (rewrite <- !app_assoc; reflexivity).
  rewrite (case_one _ _ w R) by discriminate. rewrite seq_matches_app. split.
  - intros (u & v & -> & Hu & Hv). apply seq_matches_one in Hu. cbn in Hu. subst u. apply seq_matches_app in Hv as (fs & z & -> & Hf & Hz).
    apply seq_matches_app in Hz as (y & t & -> & Hy & _). apply seq_matches_one, matches_one_of in Hy as (c & -> & Hc).
    exists fs, c, t. split; [reflexivity |]. split; [now apply Hm | exact Hc].
  - intros (fs & c & t & -> & Hf & Hc). exists [DASH], (fs ++ c :: t). split; [reflexivity |]. split; [now apply seq_matches_one |].
    apply seq_matches_app. exists fs, (c :: t). split; [reflexivity |]. split; [now apply Hm |].
    apply seq_matches_app. exists [c], t. split; [reflexivity |]. split; [apply seq_matches_one, matches_one_of; eauto |]. apply seq_matches_one. exact I.
Qed.
