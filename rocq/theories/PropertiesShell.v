(** * Properties C01-C05, C45: quoting and identifiers.
    Statements only; proofs are in ShellProofs.v. *)
From Verif Require Import Base Shell SpecShell ShellParser ShellProofs.
Open Scope list_scope.

(** C01.  For every string, the quoted text is read by a POSIX-style shell as exactly one word,
    the original string; [posix_words] returns [None] if any expansion were triggered. *)
Theorem C01_quote_faithful : forall x : str, posix_words (quote x) = Some [x].
Proof. exact posix_quote. Qed.
Print Assumptions C01_quote_faithful.

Example C01_example :
  quote (s "it's $5") = s """it's \$5""" /\ posix_words (s """it's \$5""") = Some [s "it's $5"]
  /\ posix_words (s "it's $5") = None /\ posix_words (s "a b") = Some [s "a"; s "b"].
Proof. vm_compute. repeat split. Qed.

(** C02.  A list of quoted words joined with blanks is read back as that list. *)
Theorem C02_join_quoted_faithful : forall xs : list str, posix_words (join_quoted xs [SP]) = Some xs.
Proof. exact posix_join_quoted. Qed.
Print Assumptions C02_join_quoted_faithful.

Example C02_example :
  join_quoted [s "a b"; s ""; s "c"] [SP] = s "'a b' '' c".
Proof. reflexivity. Qed.

(** C03.  The lexer for when-conditions reads every list of quoted words as literals. *)
Theorem C03_lexer_reads_quoted : forall xs : list str, lex (join_quoted xs [SP]) = Ok (map TLit xs).
Proof. exact lex_join_quoted. Qed.
Print Assumptions C03_lexer_reads_quoted.

(** ... and the loop bounds used to model the lexer are never what stops it. *)
Theorem C03_lexer_terminates : forall x : str, lex x <> Err OutOfFuel.
Proof. exact lex_fuel. Qed.
Print Assumptions C03_lexer_terminates.

Example C03_example :
  lex (s "'&&' a && b") = Ok [TLit (s "&&"); TLit (s "a"); TAnd; TLit (s "b")].
Proof. reflexivity. Qed.

(** C04.  Full claim: [forall x, fish_words (quote x) = Some [x]].  It is false: *)
Theorem C04_quote_fish_refuted :
  exists x : str, fish_words (quote x) <> Some [x].
Proof. exists (s "\\ "). vm_compute. discriminate. Qed.
Print Assumptions C04_quote_fish_refuted.

(** ... also for a backtick inside of double quotes: *)
Theorem C04_quote_fish_refuted_backtick :
  exists x : str, ~ In BS x /\ fish_words (quote x) <> Some [x].
Proof.
  exists (s "'`"). split; [|vm_compute; discriminate].
  vm_compute. intros [H|[H|[]]]; discriminate.
Qed.
Print Assumptions C04_quote_fish_refuted_backtick.

(** The claim holds for strings without backslash and backtick (missing: strings with them). *)
Theorem C04_quote_fish_partial :
  forall x : str, ~ In BS x -> ~ In BTICK x -> fish_words (quote x) = Some [x].
Proof. exact fish_quote. Qed.
Print Assumptions C04_quote_fish_partial.

Example C04_example :
  let x := s "it's ""$5""" in
  ~ In BS x /\ ~ In BTICK x /\ quote x = s "'it'""'""'s ""$5""'" /\ fish_words (quote x) = Some [x].
Proof.
  vm_compute. repeat split; intros H; repeat (destruct H as [H|H]; [discriminate|]); exact H.
Qed.

(** C05.  Identifiers: allowed characters, first character, no double underscore, idempotence,
    and non-emptiness. *)
Theorem C05_make_identifier_valid : forall x : str,
  (forall c, In c (make_identifier x) ->
     (97 <= c <= 122 \/ 65 <= c <= 90 \/ 48 <= c <= 57 \/ c = UND)%N) /\
  (forall c y, make_identifier x = c :: y -> ~ (48 <= c <= 57)%N) /\
  (forall l r, make_identifier x <> l ++ UND :: UND :: r) /\
  make_identifier (make_identifier x) = make_identifier x /\
  (make_identifier x = [] <->
     forall c, In c x ->
       ~ (97 <= c <= 122 \/ 65 <= c <= 90 \/ 48 <= c <= 57 \/ c = UND \/ c = DASH)%N).
Proof. exact make_identifier_spec. Qed.
Print Assumptions C05_make_identifier_valid.

Example C05_example :
  make_identifier (s "2--Foo_-bar!") = s "_2_Foo_bar" /\ make_identifier (s "!?") = [].
Proof. vm_compute. split; reflexivity. Qed.

(** C45.  Full claim: [forall x, zsh_words (quote x) = Some [x]].  It is false, a word that
    starts with an equals sign is left bare: *)
Theorem C45_quote_zsh_refuted : exists x : str, zsh_words (quote x) <> Some [x].
Proof. exists (s "=ls"). vm_compute. discriminate. Qed.
Print Assumptions C45_quote_zsh_refuted.

(** It holds for every list of words none of which starts with [=] (missing: such words, when
    nothing else in them makes [quote] add quotes). *)
Theorem C45_quote_zsh_partial : forall xs : list str,
  (forall y, ~ In (EQ :: y) xs) -> zsh_words (join_quoted xs [SP]) = Some xs.
Proof. exact zsh_join_quoted_noeq. Qed.
Print Assumptions C45_quote_zsh_partial.

Example C45_example :
  let xs := [s "a=b"; s "*.c"] in
  (forall y, ~ In (EQ :: y) xs) /\ zsh_words (join_quoted xs [SP]) = Some xs.
Proof.
  cbv zeta. split; [|reflexivity]. intros y [H|[H|[]]]; discriminate.
Qed.
