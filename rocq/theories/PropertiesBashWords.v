(** * Properties C111 and C112: what was typed in Bash, and command lines in an argument. *)
From Coq Require Import String.
From Verif Require Import Base Shell ShellProofs BashWords SpecBashWords BashWordsProofs.
Open Scope string_scope.
Open Scope list_scope.

(** ** C111: For every word that is being typed, whatever its quotes, as long as no backslash stays in
    double quotes: the script takes the text that Bash means, knows whether a quote is open, and
    completes behind the last bare word break. *)
Theorem C111_typed_partial breaks x us open : units Outside x = Some (us, open) -> none_kept us ->
  dq_result (dequote breaks x) = text us /\ dq_quotes (dequote breaks x) = open /\ breaks_at breaks us (dq_break (dequote breaks x)).
Proof. exact (dequote_right breaks x us open). Qed.
Print Assumptions C111_typed_partial.

(** Whatever text is quoted as scripts quote it, or as [printf %q] does, is taken as this text; a word
    break in it that was quoted is none. *)
Theorem C111_quoted_text breaks x :
  dq_result (dequote breaks (quote x)) = x /\ dq_quotes (dequote breaks (quote x)) = false /\
  (forallb is_safe x = false -> dq_break (dequote breaks (quote x)) = None).
Proof.
  destruct (units_quote x) as (us & E & T & K & B). destruct (dequote_right breaks _ us false E K) as (R & Q & P).
  split; [now rewrite R |]. split; [exact Q |]. intros S. destruct (dq_break (dequote breaks (quote x))) as [n |]; [exfalso | reflexivity].
  destruct P as (l & b & l' & -> & P & _). unfold is_break in P. destruct (snd b) eqn:Eb; try discriminate.
  rewrite (B b) in S; [discriminate | apply in_or_app; right; now left | exact Eb].
Qed.
Print Assumptions C111_quoted_text.
Theorem C111_printed_text breaks special x : (forall c, In c [SQ; DQ; BS; DOLLAR; BTICK] -> special c = true) -> ~ In LF x ->
  dq_result (dequote breaks (printf_q special x)) = x /\ dq_quotes (dequote breaks (printf_q special x)) = false /\
  ((forall c, In c x -> memc c breaks = true -> special c = true) -> dq_break (dequote breaks (printf_q special x)) = None).
Proof.
  intros S L. destruct (units_printf_q special x S L) as (us & E & T & K & B). destruct (dequote_right breaks _ us false E K) as (R & Q & P).
  split; [now rewrite R |]. split; [exact Q |]. intros M. destruct (dq_break (dequote breaks (printf_q special x))) as [n |]; [exfalso | reflexivity].
  destruct P as (l & b & l' & -> & P & _). unfold is_break in P. destruct (snd b) eqn:Eb; try discriminate.
  assert (In b (l ++ [b] ++ l')) as I by (apply in_or_app; right; now left).
  pose proof (M (fst b) ltac:(rewrite <- T; now apply in_map) P) as Sb. rewrite (B b I Eb) in Sb. discriminate.
Qed.
Print Assumptions C111_printed_text.

(** *** Example: the default of [COMP_WORDBREAKS] *)
Definition default_breaks : str := [SP; TAB; LF; DQ; SQ; GT; LT; EQ; SEMI; PIPE; AMP; LPAR; COLON].
Example C111_example :
  dequote default_breaks (s "user\:me:/a\ b'c d'/""it's \""x\""") = Dequoted (s "user:me:/a bc d/it's ""x""") (Some 8) true /\
  units Outside (s "user\:me:/a\ b'c d'/""it's \""x\""") =
    Some (map (fun c => (c, Bare)) (s "user") ++ [(COLON, Escaped)] ++ map (fun c => (c, Bare)) (s "me:/a") ++ [(SP, Escaped)] ++ map (fun c => (c, Bare)) (s "b")
      ++ map (fun c => (c, InSingle)) (s "c d") ++ map (fun c => (c, Bare)) (s "/") ++ map (fun c => (c, InDouble)) (s "it's ""x"""), true) /\
  quote (s "it's") = s """it's""" /\ dequote default_breaks (quote (s "it's")) = Dequoted (s "it's") None false /\
  dequote default_breaks (quote (s "a:b")) = Dequoted (s "a:b") (Some 2) false.
Proof. repeat split; reflexivity. Qed.

(** *** Counterexample: In double quotes, a backslash stays in front of a character that is not special
    there; the script drops it, so that the argument of an option, for example, is not the one Bash gives
    to the command. *)
Theorem C111_kept_backslash_refuted : exists x us, units Outside x = Some (us, false) /\ text us = s "a\b" /\
  dq_result (dequote default_breaks x) = s "ab".
Proof. exists (s """a\b"""). eexists. repeat split; reflexivity. Qed.
Print Assumptions C111_kept_backslash_refuted.

(** ** C112: A command line in an argument, without quotes: its words, as they are written, are given to
    the completion of the command; the last one is the one to be completed, and it is empty behind a
    blank. *)
Theorem C112_words_partial x ws : line_of x ws -> ~ In SQ x -> ~ In DQ x -> parse_line x = ws.
Proof. exact (parse_line_right x ws). Qed.
Print Assumptions C112_words_partial.

(** Its candidates replace the last word and nothing else, if they extend it and the first of them has
    no blanks: what is before it stays. *)
Theorem C112_offers_partial q typed before line word replies :
  dq_result typed = before ++ line ++ word -> dq_break typed = (match before with [] => None | _ => Some (List.length before) end) ->
  (line = [] \/ last line 0%N = SP) -> (forall r, hd_error replies = Some r -> prefix word r /\ ~ In SP r) ->
  commandline_offers q typed replies = map (fun reply => if dq_quotes typed then line ++ reply else q (line ++ reply)) replies.
Proof.
  intros R B L H. unfold commandline_offers. destruct replies as [| r rs]; [reflexivity |]. destruct (H r eq_refl) as [P S].
  replace (match dq_break typed with Some n => skipn n (dq_result typed) | None => dq_result typed end) with (line ++ word).
  - now rewrite (overlap_word line word r L P S).
  - rewrite B, R. destruct before as [| c b]; [reflexivity |]. now rewrite skipn_app, skipn_all, Nat.sub_diag.
Qed.
Print Assumptions C112_offers_partial.

(** In general, as much is left out of what was typed as the first candidate repeats. *)
Theorem C112_overlap s1 s2 : let n := get_prefix_suffix_len s1 s2 in
  (n <= List.length s1)%nat /\ prefix (skipn n s1) s2 /\ forall m, (m < n)%nat -> ~ prefix (skipn m s1) s2.
Proof. exact (get_prefix_suffix_right s1 s2). Qed.
Print Assumptions C112_overlap.

(** *** Example *)
Example C112_example :
  line_of (s "ls  -l a\ b/ ") [s "ls"; s "-l"; s "a\ b/"; []] /\ parse_line (s "ls  -l a\ b/ ") = [s "ls"; s "-l"; s "a\ b/"; []] /\
  commandline_offers (printf_q (fun c => N.eqb c SP)) (dequote default_breaks (s "'ls -l fo")) [s "foo"; s "foobar"] = [s "ls -l foo"; s "ls -l foobar"] /\
  commandline_offers (printf_q (fun c => N.eqb c SP)) (dequote default_breaks (s "ls\ fo")) [s "foo"] = [s "ls\ foo"].
Proof.
  repeat split.
  assert (forall w, w <> [] -> (exists us, units Outside w = Some (us, false) /\ ~ In (SP, Bare) us) -> one_raw_word w /\ exists us, units Outside w = Some (us, false)) as K.
  { intros w N (us & E & B). split; [split; [exact N | now exists us, false] | now exists us]. }
  assert (forall us : list (N * how), existsb (fun u => match snd u with Bare => N.eqb (fst u) SP | _ => false end) us = false -> ~ In (SP, Bare) us) as K'.
  { intros us E I. assert (existsb (fun u => match snd u with Bare => N.eqb (fst u) SP | _ => false end) us = true); [| congruence].
    apply existsb_exists. exists (SP, Bare). split; [exact I | reflexivity]. }
  assert (forall w us, w <> [] -> units Outside w = Some (us, false) -> existsb (fun u => match snd u with Bare => N.eqb (fst u) SP | _ => false end) us = false ->
    one_raw_word w /\ exists us, units Outside w = Some (us, false)) as K''.
  { intros w us N E B. apply K; [exact N |]. exists us. split; [exact E | now apply K']. }
  apply (line_word (s "ls") (s " -l a\ b/ ")); [eapply K''; [discriminate | reflexivity | reflexivity] .. |].
  apply (line_blank (s "-l a\ b/ ")).
  apply (line_word (s "-l") (s "a\ b/ ")); [eapply K''; [discriminate | reflexivity | reflexivity] .. |].
  apply (line_word (s "a\ b/") (s "")); [eapply K''; [discriminate | reflexivity | reflexivity] .. |].
  exact line_end.
Qed.

(** *** Counterexamples *)

(** Quotes do not keep the words of the command line together. *)
Theorem C112_quotes_refuted : line_of (s "cat 'my fi") [s "cat"; s "'my fi"] /\ parse_line (s "cat 'my fi") = [s "cat"; s "'my"; s "fi"] /\
  line_of (s "cat ""a b"" c") [s "cat"; s """a b"""; s "c"] /\ parse_line (s "cat ""a b"" c") = [s "cat"; s """a"; s "b"""; s "c"].
Proof.
  assert (forall w us open, w <> [] -> units Outside w = Some (us, open) -> existsb (fun u => match snd u with Bare => N.eqb (fst u) SP | _ => false end) us = false ->
    one_raw_word w) as K.
  { intros w us open N E B. split; [exact N |]. exists us, open. split; [exact E |]. intros I.
    assert (existsb (fun u => match snd u with Bare => N.eqb (fst u) SP | _ => false end) us = true); [| congruence].
    apply existsb_exists. exists (SP, Bare). split; [exact I | reflexivity]. }
  assert (forall w, w <> [] -> (exists us open, units Outside w = Some (us, open) /\ existsb (fun u => match snd u with Bare => N.eqb (fst u) SP | _ => false end) us = false) -> one_raw_word w) as K'.
  { intros w N (us & open & E & B). now apply (K w us open). }
  repeat split.
  - apply (line_word (s "cat") (s "'my fi")); [apply K'; [discriminate | do 2 eexists; split; reflexivity] | eexists; reflexivity |].
    apply line_last. apply K'; [discriminate | do 2 eexists; split; reflexivity].
  - apply (line_word (s "cat") (s """a b"" c")); [apply K'; [discriminate | do 2 eexists; split; reflexivity] | eexists; reflexivity |].
    apply (line_word (s """a b""") (s "c")); [apply K'; [discriminate | do 2 eexists; split; reflexivity] | eexists; reflexivity |].
    apply line_last. apply K'; [discriminate | do 2 eexists; split; reflexivity].
Qed.
Print Assumptions C112_quotes_refuted.

(** A candidate with blanks may repeat more than the last word: then a part of the line is lost. *)
Theorem C112_blanks_refuted : exists line word reply, last line 0%N = SP /\ prefix word reply /\
  commandline_offers (fun x => x) (Dequoted (line ++ word) None true) [reply] = [reply] /\ line ++ reply <> reply.
Proof. exists (s "a "), (s "a"), (s "a a b"). repeat split; [exists (s " a b"); reflexivity | discriminate]. Qed.
Print Assumptions C112_blanks_refuted.
