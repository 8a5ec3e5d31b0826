(** * Property C122: items that a command prints.  Statements only. *)
From Coq Require Import Lia.
From Verif Require Import Base PyStr SpecShell SpecChoices SpecBashWords BashWordsProofs SpecPrefix PrefixProofs SpecExec Exec ExecProofs.
Open Scope string_scope.
Open Scope list_scope.
Open Scope nat_scope.

(** C122, Bash.  The items that begin with what was typed are offered, in their order and without their
    descriptions; and each suggestion is a word that stands for its item, whatever blanks, quotes, dollars or
    separators the item has.  [q]: [printf %q] puts a backslash in front of each character with a
    meaning (and maybe others).

    What is missing: items that have a backslash, a star or another character with a meaning that the
    helper does not know, but none that it knows; a command that does not end its last line. *)
Theorem C122_bash_partial : forall breaks escape entries cur,
  (forall c, posix_special c = true -> escape c = true) -> Forall good_entry entries ->
  (forall e, In e entries -> existsb (fun c => memc c (special breaks)) (fst e) = true \/ forall c, In c (fst e) -> posix_special c = false) ->
  Forall2 stands_for (bash_exec breaks (printf_q escape) (print_entries entries) cur) (filter (starts_with cur) (map fst entries)).
Proof.
  intros breaks escape entries cur He Hg Hs. unfold bash_exec. rewrite bash_items by exact Hg.
  assert (Hw : forall x, In x (filter (starts_with cur) (map fst entries)) -> stands_for (exec_item breaks (printf_q escape) x) x).
  { intros x Hx. apply filter_In in Hx as [Hx _]. apply in_map_iff in Hx as (e & <- & Hi). rewrite Forall_forall in Hg. destruct (Hg e Hi) as [(Hn & _ & Hl) _].
    specialize (Hs e Hi). unfold exec_item. destruct (existsb _ (fst e)) eqn:Eq.
    - destruct (units_printf_q escape (fst e)) as (us & U1 & U2 & _ & U3); [| exact Hl |].
      + intros c Hc. apply He. cbn in Hc. repeat (destruct Hc as [<- | Hc]; [reflexivity |]). destruct Hc.
      + exists us. split; [exact U1 |]. split; [exact U2 |]. intros c Hc. destruct (posix_special c) eqn:Ep; [| reflexivity]. apply He in Ep. pose proof (U3 (c, Bare) Hc eq_refl) as E3. cbn [fst] in E3. congruence.
    - destruct Hs as [Hs | Hs]; [discriminate |]. exists (map (fun c => (c, Bare)) (fst e)). split; [now apply units_plain |]. split; [apply text_plain |].
      intros c Hc. apply in_map_iff in Hc as (d & E & Hd). injection E as ->. now apply Hs. }
  induction (filter (starts_with cur) (map fst entries)) as [| x l IH]; cbn [map]; constructor; [apply Hw; now left | apply IH; intros y Hy; apply Hw; now right].
Qed.
Print Assumptions C122_bash_partial.
Example C122_bash_example : let entries := [(s "Item 1", Some (s "first one")); (s "it's", None); (s "Item_2", Some (s "d"))] in
  Forall good_entry entries /\
  bash_exec (s " :") (printf_q posix_special) (print_entries entries) (s "It") = [s "Item\ 1"; s "Item_2"] /\
  bash_exec (s " :") (printf_q posix_special) (print_entries entries) (s "i") = [s "it\'s"].
Proof.
  split; [| split; reflexivity]. repeat constructor; cbn; try discriminate; intuition discriminate.
Qed.

(** C122, Bash.  The fast helper offers the items as they are. *)
Theorem C122_bash_fast_partial : forall entries cur, Forall good_entry entries -> (forall e c, In e entries -> In c (fst e) -> posix_special c = false) ->
  bash_exec_fast (print_entries entries) cur = filter (starts_with cur) (map fst entries) /\ Forall (fun x => stands_for x x) (filter (starts_with cur) (map fst entries)).
Proof.
  intros entries cur Hg Hs. unfold bash_exec_fast. rewrite bash_items by exact Hg. split; [reflexivity |]. apply Forall_forall. intros x Hx. apply filter_In in Hx as [Hx _].
  apply in_map_iff in Hx as (e & <- & Hi). exists (map (fun c => (c, Bare)) (fst e)). split; [apply units_plain; intros c; now apply Hs |]. split; [apply text_plain |].
  intros c Hc. apply in_map_iff in Hc as (d & E & Hd). injection E as ->. exact (Hs e c Hi Hd).
Qed.
Print Assumptions C122_bash_fast_partial.

(** C122, Zsh.  [_describe] gets every item with its description, whatever backslashes and colons
    they have. *)
Theorem C122_zsh_partial : forall entries, Forall good_entry entries ->
  map zsh_describe (zsh_exec (print_entries entries)) = map (fun e => (fst e, match snd e with Some d => d | None => [] end)) entries.
Proof.
  intros entries H. unfold zsh_exec. rewrite read_printed by exact H. rewrite !map_map. apply map_ext_in. intros e He. rewrite Forall_forall in H. exact (zsh_line e (H e He)).
Qed.
Print Assumptions C122_zsh_partial.
Example C122_zsh_example : let entries := [(s "a:b\c", Some (s "one: two\")); (s "x", None)] in
  Forall good_entry entries /\ zsh_exec (print_entries entries) = [s "a\:b\\c:one: two\\"; s "x"] /\
  map zsh_describe (zsh_exec (print_entries entries)) = [(s "a:b\c", s "one: two\"); (s "x", [])].
Proof. split; [| split; reflexivity]. repeat constructor; cbn; try discriminate; intuition discriminate. Qed.

(** C122 is false: a last line without a newline is lost in Bash and Zsh. *)
Theorem C122_last_line_refuted : exists output, output = s "one" ++ [LF] ++ s "two" /\
  (forall breaks q, bash_exec breaks q output [] = [exec_item breaks q (s "one")]) /\ zsh_exec output = [s "one"].
Proof. eexists. repeat split. Qed.
Print Assumptions C122_last_line_refuted.
(** C122 is false: an empty item is replaced by its description. *)
Theorem C122_empty_item_refuted : exists output, output = print_entries [([], Some (s "nothing"))] /\ bash_exec_fast output [] = [s "nothing"] /\
  map zsh_describe (zsh_exec output) = [(s "nothing", [])].
Proof. eexists. repeat split. Qed.
Print Assumptions C122_empty_item_refuted.
(** C122 is false in Bash: the helper does not know that a backslash has a meaning ... *)
Theorem C122_bash_backslash_refuted : exists item, good_item item /\ item = s "a\b" /\ forall escape, exists us,
  bash_exec (s " :") (printf_q escape) (print_entries [(item, None)]) [] = [item] /\ units Outside item = Some (us, false) /\ text us = s "ab".
Proof.
  exists (s "a\b"). split; [repeat split; cbn; try discriminate; intuition discriminate |]. split; [reflexivity |]. intros escape. eexists. repeat split.
Qed.
Print Assumptions C122_bash_backslash_refuted.
(** ... nor a star. *)
Theorem C122_bash_star_refuted : exists item, good_item item /\ item = s "*.c" /\ forall escape,
  bash_exec (s " :") (printf_q escape) (print_entries [(item, None)]) [] = [item] /\ ~ stands_for item item.
Proof.
  exists (s "*.c"). split; [repeat split; cbn; try discriminate; intuition discriminate |]. split; [reflexivity |]. intros escape. split; [reflexivity |].
  intros (us & U & _ & H). injection U as <-. discriminate (H STAR (or_introl eq_refl)).
Qed.
Print Assumptions C122_bash_star_refuted.
(** C122 is false in Bash: what was typed in quotes or with a backslash is compared as it was typed. *)
Theorem C122_bash_typed_refuted : exists cur us, cur = s "Item\ " /\ units Outside cur = Some (us, false) /\ starts_with (text us) (s "Item 1") = true /\
  forall breaks q, bash_exec breaks q (print_entries [(s "Item 1", None)]) cur = [].
Proof. exists (s "Item\ "). eexists. repeat split. Qed.
Print Assumptions C122_bash_typed_refuted.
(** C122 is false in Bash: behind a word break the whole item is inserted. *)
Theorem C122_bash_break_refuted : exists breaks cur item reply, breaks = s ":" /\ cur = s "a:" /\ item = s "a:b" /\
  bash_exec breaks (printf_q posix_special) (print_entries [(item, None)]) cur = [reply] /\ accepted breaks (map (fun c => (c, Bare)) cur) reply (s "a:a:b").
Proof.
  exists (s ":"), (s "a:"), (s "a:b"), (s "a:b"). repeat split. exists (Some 2). split; [| reflexivity]. exists [(97%N, Bare)], (COLON, Bare), []. repeat split. intros u [].
Qed.
Print Assumptions C122_bash_break_refuted.
