(** * Theorems about the choices that the scripts offer: C99. *)
From Verif Require Import Base PyStr Value Cli StrUtils StrUtilsProofs Preproc Shell SpecShell ShellProofs ZshUtils SpecZsh
  Helpers HelpersMore Choices SpecChoices ChoicesEmit ChoicesMain.
From Verif Require SpecExec SpecBashWords.
Open Scope list_scope.

(** ** C99 *)

(** What zsh offers: the text is an action of [_arguments], or the code of a function of the script
    that is the action. *)
Definition zsh_offered (name : str) (out : zsh_output) : option (list choice) :=
  match out with
  | ZAction text => zsh_action_text text
  | ZFunction code =>
      match get_code ShellFunction (strip_p is_space code) name [] with
      | Ok text => zsh_function name text
      | Err _ => None
      end
  end.
(** What fish offers: the text is an argument of [complete -a], or the code of a function of the
    script that is called there. *)
Definition fish_offered (name : str) (out : fish_output) : option (list choice) :=
  match out with
  | FArgument text => fish_argument text
  | FFunction code =>
      match get_code FishFunction (strip_p is_space code) name [] with
      | Ok text => fish_function name text
      | Err _ => None
      end
  end.

(** Texts on one line, without the placeholder for the name of a function *)
Definition simple_text (x : str) : Prop :=
  (forall c, In c x -> is_linebreak c = false) /\ contains (s "%FUNCNAME%") x = false.
Lemma simple_calm x : simple_text x -> calm x.
Proof. intros [H1 H2]. split; [| exact H2]. apply forallb_forall. intros c Hc. now rewrite (H1 c Hc). Qed.

(** zsh offers exactly the choices, each with its description, whatever quotes, blanks, colons,
    dollar signs or parentheses they have, however many there are and however long they are.
    Missing: numbers, texts that start with an equals sign, backslashes, several lines and the
    placeholder; see the refutations below. *)
Theorem C99_zsh_partial : forall show metavar line_length ch name,
  only_strings ch ->
  (forall text description, In (text, description) (meant show ch) ->
    hd 0%N text <> EQ /\ ~ In BS text /\ ~ In BS description /\ simple_text text /\ simple_text description) ->
  hd 0%N metavar <> EQ -> simple_text metavar ->
  exists out, zsh_choices show metavar line_length ch = Ok out /\ zsh_offered name out = Some (meant show ch).
Proof.
  intros show metavar len ch name Hs Ht Hm1 Hm2. destruct (zsh_total show metavar len ch Hs) as (out & E). exists out. split; [exact E |].
  destruct out as [text | code]; cbn [zsh_offered].
  - eapply zsh_short; [exact E | |].
    + destruct ch as [l | d]; cbn [only_strings accepted] in *; (eapply Forall_impl; [| exact Hs]).
      * intros v Hv. destruct v; destruct Hv. exact I.
      * intros [k v] [Hk Hv]. destruct k; try destruct Hk. split; [exact I |]. destruct Hv as [Hv | ->]; [left; now destruct v | now right].
    + intros t d Hi. destruct (Ht t d Hi) as (H1 & H2 & H3 & _). split; [exact H1 |]. destruct ch; [exact I | now split].
  - destruct (zsh_long show metavar len ch code name E Hs Hm1 (simple_calm _ Hm2)) as (text & G1 & G2).
    + intros t d Hi. destruct (Ht t d Hi) as (H1 & H2 & H3 & H4 & H5). repeat split; auto; now apply simple_calm.
    + rewrite G1. exact G2.
Qed.
Print Assumptions C99_zsh_partial.

(** Short lists of choices: numbers, backslashes and newlines too. *)
Theorem C99_zsh_short_partial : forall show metavar line_length ch text,
  zsh_choices show metavar line_length ch = Ok (ZAction text) -> accepted ch ->
  (forall t d, In (t, d) (meant show ch) ->
    hd 0%N t <> EQ /\ match ch with CList _ => True | CDict _ => ~ In BS t /\ ~ In BS d end) ->
  zsh_action_text text = Some (meant show ch).
Proof. intros. eapply zsh_short; eassumption. Qed.
Print Assumptions C99_zsh_short_partial.

(** fish offers exactly the choices.  Missing: backslashes and backquotes, tabulators in the text,
    several lines and the placeholder. *)
Theorem C99_fish_partial : forall show line_length ch name,
  (forall text description, In (text, description) (meant show ch) ->
    ~ In BS text /\ ~ In BTICK text /\ ~ In BS description /\ ~ In BTICK description /\ ~ In TAB text /\
    simple_text text /\ simple_text description) ->
  fish_offered name (fish_choices show line_length ch) = Some (meant show ch).
Proof.
  intros show len ch name Ht. unfold fish_choices. destruct (Nat.leb_spec (List.length (fish_inline show ch)) CHOICES_INLINE_THRESHOLD) as [_ | Hlen]; cbn [fish_offered].
  - apply fish_short. intros t d Hi. destruct (Ht t d Hi) as (H1 & H2 & H3 & H4 & H5 & _). unfold fish_fine. auto.
  - destruct (fish_long show ch len name Hlen) as (text & G1 & G2); [| rewrite G1; exact G2].
    intros t d Hi. destruct (Ht t d Hi) as (H1 & H2 & H3 & H4 & H5 & H6 & H7). unfold fish_fine. repeat split; auto; now apply simple_calm.
Qed.
Print Assumptions C99_fish_partial.

(** Bash offers exactly the choices that start with the text in front of the cursor, and keeps what
    was offered before if it is asked to.  Missing: an empty text. *)
Theorem C99_bash_partial : forall show values_name append ch cur before,
  values_name <> [] -> forallb is_word values_name = true ->
  (forall text description, In (text, description) (meant show ch) -> text <> []) ->
  bash_code values_name (bash_choices show values_name append ch) cur before =
  Some ((if append then before else []) ++ filter (starts_with cur) (map fst (meant show ch))).
Proof.
  intros show name append ch cur before Hn Hw Ht. unfold bash_choices. rewrite values_meant. apply bash_ok; [exact Hw | exact Hn |].
  intros x Hx. apply in_map_iff in Hx as ([t d] & <- & Hi). exact (Ht t d Hi).
Qed.
Print Assumptions C99_bash_partial.

(** *** Examples *)
Definition show_number (v : value) : str := match v with VInt z => show_Z z | _ => [] end.
Definition some_choices : choices :=
  CDict [(VStr (s "it's"), VStr (s "a description (with) ""quotes""")); (VStr (s "$x"), VNone); (VStr (s "a b"), VStr (s "c"))].
Definition many_choices : choices :=
  CList [VStr (s "http://example.org/some/where"); VStr (s "it's"); VStr (s "two words and more of them"); VStr (s "$HOME;`ls`"); VStr (s "")].
Definition simple_check (x : str) : bool := forallb (fun c => negb (is_linebreak c)) x && negb (contains (s "%FUNCNAME%") x).
Lemma simple_check_ok x : simple_check x = true -> simple_text x.
Proof.
  intros H. apply andb_prop in H as [H1 H2]. split; [| now apply negb_true_iff]. intros c Hc. rewrite forallb_forall in H1. apply negb_true_iff. now apply H1.
Qed.
Definition no_c (c : N) (x : str) : bool := negb (memc c x).
Lemma no_c_ok c x : no_c c x = true -> ~ In c x.
Proof. intros H Hi. apply negb_true_iff in H. apply memc_In in Hi. congruence. Qed.
Lemma by_each {A} (l : list A) (P : A -> Prop) f : (forall x, f x = true -> P x) -> forallb f l = true -> forall x, In x l -> P x.
Proof. intros H1 H2 x Hx. apply H1. rewrite forallb_forall in H2. now apply H2. Qed.
Definition zsh_check (p : choice) : bool :=
  negb (N.eqb (hd 0%N (fst p)) EQ) && no_c BS (fst p) && no_c BS (snd p) && simple_check (fst p) && simple_check (snd p).
Lemma zsh_check_ok ch : forallb zsh_check (meant show_number ch) = true -> forall text description, In (text, description) (meant show_number ch) ->
    hd 0%N text <> EQ /\ ~ In BS text /\ ~ In BS description /\ simple_text text /\ simple_text description.
Proof.
  intros H t d Hi. rewrite forallb_forall in H. specialize (H _ Hi). unfold zsh_check in H. cbn [fst snd] in H.
  repeat (apply andb_prop in H as [H ?]). apply negb_true_iff, N.eqb_neq in H. split; [exact H |]. split; [now apply no_c_ok |]. split; [now apply no_c_ok |]. split; now apply simple_check_ok.
Qed.

(** a short and a long definition, both met by the hypotheses; one is an action, one a function *)
Example C99_zsh_example :
  (exists text, zsh_choices show_number (s "NAME") 80 some_choices = Ok (ZFunction text)) /\
  (exists code, zsh_choices show_number (s "NAME") 80 many_choices = Ok (ZFunction code)) /\
  (forall ch out, ch = some_choices \/ ch = many_choices -> zsh_choices show_number (s "NAME") 80 ch = Ok out ->
    zsh_offered (s "_f") out = Some (meant show_number ch)).
Proof.
  split; [eexists; reflexivity |]. split; [eexists; reflexivity |].
  intros ch out H E. destruct (C99_zsh_partial show_number (s "NAME") 80 ch (s "_f")) as (out' & E' & G).
  - destruct H as [-> | ->]; repeat constructor; (left; exact I) || (right; reflexivity) || exact I.
  - apply zsh_check_ok. destruct H as [-> | ->]; reflexivity.
  - discriminate.
  - now apply simple_check_ok.
  - rewrite E in E'. apply Ok_inj in E' as ->. exact G.
Qed.
Example C99_zsh_short_example :
  exists text, zsh_choices show_number [] 80 (CDict [(VStr (s "it's"), VStr (s "a b")); (VInt 12, VNone)]) = Ok (ZAction text) /\
  zsh_action_text text = Some [(s "it's", s "a b"); (s "12", [])].
Proof.
  eexists. split; [reflexivity |]. apply (C99_zsh_short_partial show_number [] 80 (CDict [(VStr (s "it's"), VStr (s "a b")); (VInt 12, VNone)])); [reflexivity | repeat constructor; now right |].
  intros t d [E | [E | []]]; apply (f_equal fst) in E as E1; apply (f_equal snd) in E as E2; cbn [fst snd] in E1, E2; subst t d;
  (split; [discriminate |]); split; apply no_c_ok; reflexivity.
Qed.
Definition fish_check (p : choice) : bool :=
  no_c BS (fst p) && no_c BTICK (fst p) && no_c BS (snd p) && no_c BTICK (snd p) && no_c TAB (fst p) && simple_check (fst p) && simple_check (snd p).
Definition more_choices : choices :=
  CDict [(VStr (s "it's a text with blanks"), VStr (s "a description (with) ""quotes""")); (VStr (s "$HOME;"), VNone); (VInt 7, VStr (s "seven, the number"))].
Definition is_function (out : fish_output) : bool := match out with FFunction _ => true | _ => false end.
Example C99_fish_example :
  is_function (fish_choices show_number 80 more_choices) = true /\ fish_offered (s "_f") (fish_choices show_number 80 more_choices)
    = Some [(s "it's a text with blanks", s "a description (with) ""quotes"""); (s "$HOME;", []); (s "7", s "seven, the number")] /\ is_function (fish_choices show_number 80 some_choices) = false /\ fish_offered (s "_f") (fish_choices show_number 80 some_choices) = Some (meant show_number some_choices).
Proof.
  assert (forall ch, forallb fish_check (meant show_number ch) = true -> fish_offered (s "_f") (fish_choices show_number 80 ch) = Some (meant show_number ch)) as K.
  { intros ch H. apply C99_fish_partial. intros t d Hi. rewrite forallb_forall in H. specialize (H _ Hi). unfold fish_check in H. cbn [fst snd] in H.
    repeat (apply andb_prop in H as [H ?]). repeat split; auto using no_c_ok; now apply simple_check_ok. }
  split; [reflexivity |]. split; [exact (K more_choices eq_refl) |]. split; [reflexivity |]. exact (K some_choices eq_refl).
Qed.
Example C99_bash_example :
  bash_code (s "_values") (bash_choices show_number (s "_values") true (CList [VStr (s "it's"); VStr (s "iron"); VStr (s "a b")])) (s "i") [s "x"]
  = Some [s "x"; s "it's"; s "iron"].
Proof. rewrite C99_bash_partial; [reflexivity | discriminate | reflexivity |]. intros t d [E | [E | [E | []]]]; apply (f_equal fst) in E; cbn [fst] in E; subst t; discriminate. Qed.

(** *** Refutations *)

(** A choice that starts with an equals sign is not quoted, and zsh takes it as the name of a
    command whose path is meant. *)
Theorem C99_zsh_equals_refuted :
  exists text, zsh_choices show_number [] 80 (CList [VStr (s "=1.0"); VStr (s "latest")]) = Ok (ZAction text) /\
  zsh_action_text text <> Some [(s "=1.0", []); (s "latest", [])].
Proof. eexists. split; [reflexivity |]. vm_compute. discriminate. Qed.
Print Assumptions C99_zsh_equals_refuted.

(** [_describe] drops backslashes. *)
Theorem C99_zsh_backslash_refuted :
  exists text, zsh_choices show_number [] 80 (CDict [(VStr (s "DOMAIN\user"), VStr (s "an account"))]) = Ok (ZAction text) /\
  zsh_action_text text = Some [(s "DOMAINuser", s "an account")].
Proof. eexists. split; reflexivity. Qed.
Print Assumptions C99_zsh_backslash_refuted.

(** No script is made for a long list of numbers. *)
Theorem C99_zsh_numbers_refuted :
  zsh_choices show_number (s "NUMBER") 80 (CList (map (fun n => VInt (Z.of_nat n)) (seq 1 40))) = Err AttributeError.
Proof. vm_compute. reflexivity. Qed.
Print Assumptions C99_zsh_numbers_refuted.

(** The description [0] is lost if the choices are offered by a function. *)
Theorem C99_zsh_zero_refuted :
  let d := CDict [(VStr (s "off"), VInt 0); (VStr (s "a:b"), VInt 1)] in
  meant show_number d = [(s "off", s "0"); (s "a:b", s "1")] /\
  exists code, zsh_choices show_number [] 80 d = Ok (ZFunction code) /\
  zsh_offered (s "_f") (ZFunction code) = Some [(s "off", []); (s "a:b", s "1")].
Proof. split; [reflexivity |]. eexists. split; [reflexivity |]. vm_compute. reflexivity. Qed.
Print Assumptions C99_zsh_zero_refuted.

(** A description of two lines gets two more blanks if the choices are offered by a function. *)
Theorem C99_zsh_lines_refuted :
  let d := CDict [(VStr (s "a:b"), VStr (s "one" ++ [LF] ++ s "two"))] in
  exists code, zsh_choices show_number [] 80 d = Ok (ZFunction code) /\
  zsh_offered (s "_f") (ZFunction code) = Some [(s "a:b", s "one" ++ [LF] ++ s "  two")].
Proof. eexists. split; [reflexivity |]. vm_compute. reflexivity. Qed.
Print Assumptions C99_zsh_lines_refuted.

(** The placeholder [%FUNCNAME%] in a choice is replaced. *)
Theorem C99_zsh_placeholder_refuted :
  let d := CDict [(VStr (s "a:b"), VStr (s "%FUNCNAME%"))] in
  exists code, zsh_choices show_number [] 80 d = Ok (ZFunction code) /\
  zsh_offered (s "_f") (ZFunction code) = Some [(s "a:b", s "_f")].
Proof. eexists. split; [reflexivity |]. vm_compute. reflexivity. Qed.
Print Assumptions C99_zsh_placeholder_refuted.

(** Two backslashes become one in fish, and the text behind a tabulator becomes a description. *)
Theorem C99_fish_backslash_refuted :
  fish_offered (s "_f") (fish_choices show_number 80 (CList [VStr (s "\\host")])) = Some [(s "\host", [])].
Proof. vm_compute. reflexivity. Qed.
Print Assumptions C99_fish_backslash_refuted.
Theorem C99_fish_tabulator_refuted :
  fish_offered (s "_f") (fish_choices show_number 80 (CList [VStr (s "a" ++ [TAB] ++ s "b")])) = Some [(s "a", s "b")].
Proof. vm_compute. reflexivity. Qed.
Print Assumptions C99_fish_tabulator_refuted.

(** An empty choice is not offered by Bash if nothing else needs quotes. *)
Theorem C99_bash_empty_refuted :
  bash_code (s "_values") (bash_choices show_number (s "_values") false (CList [VStr []; VStr (s "a")])) [] [] = Some [s "a"] /\
  bash_code (s "_values") (bash_choices show_number (s "_values") false (CList [VStr []; VStr (s "a b")])) [] [] = Some [[]; s "a b"].
Proof. vm_compute. split; reflexivity. Qed.
Print Assumptions C99_bash_empty_refuted.

(** A beginning that is typed with a backslash or in quotes is compared as it is written: the choice
    that starts with it is not offered. *)
Theorem C99_bash_quoted_refuted : exists cur typed text,
  SpecExec.stands_for cur typed /\ starts_with typed text = true /\
  bash_code (s "_values") (bash_choices show_number (s "_values") false (CList [VStr text; VStr (s "c")])) cur [] = Some [].
Proof. exists (s "a\ "), (s "a "), (s "a b"). split; [| split; vm_compute; reflexivity].
  exists [(97%N, SpecBashWords.Bare); (SP, SpecBashWords.Escaped)]. split; [reflexivity |]. split; [reflexivity |].
  intros c [E | [E | []]]; [| discriminate]. injection E as <-. reflexivity.
Qed.
Print Assumptions C99_bash_quoted_refuted.
