(** * Theorems about help texts: C36, C77-C79. *)
From Verif Require Import Base Value Dict DictSource SchemeValidator HelpParser SpecHelp HelpProofs HelpMore HelpLayout HelpConverter
  HelpConverterProofs.
Open Scope list_scope.

(** ** C36 *)

(** Nothing is lost: the text is made of the results, in order, with blanks, delimiters and
    equals signs between them. *)
Theorem C36_nothing_lost : forall x is, parse x = Ok is -> items_text is x.
Proof. intros x is H. now apply items_spec in H as (is' & -> & H). Qed.
Print Assumptions C36_nothing_lost.

(** Every text is parsed or [IndexError] is raised; texts that are not cut off are parsed. *)
Theorem C36_no_exception_partial : forall x,
  (forall e, parse x = Err e -> e = IndexError) /\
  (complete_text x -> exists is, parse x = Ok is).
Proof. intros x. split; [apply parse_only | apply parse_good]. Qed.
Print Assumptions C36_no_exception_partial.

(** Texts without a line feed at the end, or with a bracket that is not closed, raise it. *)
Theorem C36_cut_off_refuted :
  parse (s "  --help") = Err IndexError /\ parse (s "  --help " ++ [LF]) <> Err IndexError /\
  parse (s "  --size=<n" ++ [LF] ++ s "  --help" ++ [LF]) = Err IndexError /\
  parse (s "  --from=it's" ++ [LF]) = Err IndexError.
Proof. vm_compute. repeat split; discriminate. Qed.
Print Assumptions C36_cut_off_refuted.

Definition help_lines : list help_item :=
  [Heading (s "Usage: prog [options]"); Heading [];
   Entry (s "  ") [MkHelpOption (s "-o") (Separate (s "FILE")); MkHelpOption (s "--output") (Equals (s "<some file>"))]
     (s "Write to FILE in-") [(s "                ", s "stead of stdout"); (s "            ", s "-- see below")];
   Entry (s "  ") [MkHelpOption (s "--color") (Optional (s "WHEN"))] (s "Use colors") [];
   Heading (s "More:");
   Entry [] [MkHelpOption (s "-q") NoArgument; MkHelpOption (s "--quiet") NoArgument] [] [(s " ", s "Say nothing")]].
Example C36_example :
  complete_text (help_text help_lines).
Proof.
  split; [right; exists (removelast (help_text help_lines)); vm_compute; reflexivity |].
  assert (Q : forall c, memc c (help_text help_lines) = false -> ~ In c (help_text help_lines)) by (intros c H; now apply memc_false).
  split; [apply Q; vm_compute; reflexivity |]. split; [apply Q; vm_compute; reflexivity |].
  assert (K : forall a b x, forallb (fun n => implb (N.eqb (nth n x 0%N) a) (memc b (skipn (S n) x))) (seq 0 (List.length x)) = true ->
    forall u v, x = u ++ [a] ++ v -> In b v).
  { intros a b x H u v ->. rewrite forallb_forall in H. specialize (H (List.length u)).
    rewrite app_nth2, Nat.sub_diag in H by lia. cbn [nth app] in H. rewrite N.eqb_refl in H. cbn [implb] in H. apply memc_In.
    replace (skipn (S (List.length u)) (u ++ a :: v)) with v in H.
    - apply H. apply in_seq. rewrite app_length. cbn. lia.
    - rewrite skipn_app, skipn_all2 by lia. replace (S (List.length u) - List.length u) with 1 by lia. reflexivity. }
  intros u v. repeat split; apply K; vm_compute; reflexivity.
Qed.

(** ** C77 *)

(** A help text in the usual layout is understood. *)
Theorem C77_layout : forall is, (forall i, In i is -> help_item_ok i) -> parse (help_text is) = Ok (map expected is).
Proof. intros is H. unfold parse. now rewrite (layout_loop is _ [] H (le_n _)). Qed.
Print Assumptions C77_layout.

Lemma forall_in {A} (P : A -> Prop) (f : A -> bool) l : (forall c, f c = true -> P c) -> forallb f l = true -> forall c, In c l -> P c.
Proof. intros H K c Hc. rewrite forallb_forall in K. auto. Qed.
Lemma option_string_dec x : (match x with c :: _ => N.eqb c DASH | [] => false end && negb (mems x [s "-"; s "--"]) &&
  forallb (fun c => negb (memc c OPTION_BREAK_CHARS)) x)%bool = true -> option_string x.
Proof.
  intros H. apply andb_prop in H as [H H3]. apply andb_prop in H as [H1 H2]. apply negb_true_iff in H2.
  split; [destruct x as [| c x]; [discriminate |]; apply N.eqb_eq in H1; subst; now exists x |].
  split; [intros ->; discriminate |]. split; [intros ->; discriminate |].
  apply (forall_in _ _ _) with (2 := H3). intros c Hc. apply negb_true_iff, memc_false in Hc. cbn in Hc. unfold blank, delimiter. intuition.
Qed.
Lemma word_metavar_dec m : (match m with [] => false | _ => true end &&
  forallb (fun c => negb (is_space c) && negb (memc c [COMMA; PIPE; LT; LBRK; LPAR; LBRC; DQ; SQ])) m)%bool = true -> word_metavar m.
Proof.
  intros H. apply andb_prop in H as [H1 H2]. split; [destruct m; discriminate |].
  apply (forall_in _ _ _) with (2 := H2). intros c Hc. apply andb_prop in Hc as [Ha Hb]. apply negb_true_iff in Ha, Hb. apply memc_false in Hb.
  cbn in Hb. unfold delimiter. split; [exact Ha |]. split; [intuition |]. cbn. intuition.
Qed.
Example C77_example :
  (forall i, In i help_lines -> help_item_ok i) /\
  parse (help_text help_lines) = Ok (map expected help_lines).
Proof.
  assert (B : forall l : str, forallb (fun c => memc c [SP; TAB]) l = true -> blanks l).
  { intros l H c Hc. rewrite forallb_forall in H. apply blank_memc. auto. }
  assert (L : forall l : str, memc LF l = false -> ~ In LF l) by (intros l H; now apply memc_false).
  assert (S : forall (P : N -> Prop) c x, ~ P c -> starts_not P (c :: x)) by (intros P c x H d y E; now injection E as <- _).
  assert (S0 : forall P : N -> Prop, starts_not P []) by (intros P c x E; discriminate).
  split; [| reflexivity]. intros i Hi.
  repeat (destruct Hi as [<- | Hi]; [| ]); [| | | | | | destruct Hi]; cbn [help_item_ok].
  - split; [apply L; reflexivity |]. split; [apply S; intros [K | K]; discriminate | apply S; discriminate].
  - split; [apply L; reflexivity |]. split; apply S0.
  - split; [apply B; reflexivity |]. split; [cbn; lia |]. split; [discriminate |]. split.
    { intros o [<- | [<- | []]]; cbn [h_name h_argument argument_ok]; (split; [apply option_string_dec; reflexivity |]).
      - left. apply word_metavar_dec. reflexivity.
      - right. exists (s "some file"). split; [reflexivity |]. apply memc_false. reflexivity. }
    split; [apply L; reflexivity |]. split; [apply S; intros [K | K]; discriminate |]. split; [apply S; intros [K | K]; discriminate |].
    intros ind t [E | [E | []]]; apply pair_equal_spec in E as [<- <-]; (split; [apply B; reflexivity |]); (split; [discriminate |]);
      (split; [apply L; reflexivity |]); (split; [apply S; intros [K | K]; discriminate |]); cbn [List.length]; intros Hl.
    + apply S. discriminate.
    + cbn in Hl. lia.
  - split; [apply B; reflexivity |]. split; [cbn; lia |]. split; [discriminate |]. split.
    { intros o [<- | []]; cbn [h_name h_argument argument_ok]; (split; [apply option_string_dec; reflexivity |]). apply memc_false. reflexivity. }
    split; [apply L; reflexivity |]. split; [apply S; intros [K | K]; discriminate |]. split; [apply S; intros [K | K]; discriminate |].
    intros ind t [].
  - split; [apply L; reflexivity |]. split; [apply S; intros [K | K]; discriminate | apply S; discriminate].
  - split; [apply B; reflexivity |]. split; [cbn; lia |]. split; [discriminate |]. split.
    { intros o [<- | [<- | []]]; cbn [h_name h_argument argument_ok]; (split; [apply option_string_dec; reflexivity | exact I]). }
    split; [apply L; reflexivity |]. split; [apply S0 |]. split; [apply S0 |].
    intros ind t [E | []]; apply pair_equal_spec in E as [<- <-]; (split; [apply B; reflexivity |]); (split; [discriminate |]);
      (split; [apply L; reflexivity |]); (split; [apply S; intros [K | K]; discriminate |]); intros _; apply S; discriminate.
Qed.

(** The name of the program is the word behind [usage:]. *)
Theorem C77_program_name : forall usage blanks name rest,
  lower usage = s "usage:" ->
  blanks <> [] -> (forall c, In c blanks -> In c [SP; TAB; LF]) ->
  name <> [] -> (forall c, In c name -> ~ In c [SP; TAB; LF]) ->
  (forall c rest', rest = c :: rest' -> In c [SP; TAB; LF]) ->
  get_program_name_from_help (usage ++ blanks ++ name ++ rest) = Ok name.
Proof.
  intros usage bl name rest Hu Hb1 Hb2 Hn1 Hn2 Hr. unfold get_program_name_from_help.
  assert (Hlc : forall a k, lower_c a = k -> is_upper k = false -> a = k \/ (is_upper a = true /\ a = (k - 32)%N)).
  { intros a k E Hk. unfold lower_c in E. destruct (is_upper a) eqn:Ea; [right; split; [reflexivity | lia] | now left]. }
  assert (Hm : match_chars usage_chars (usage ++ bl ++ name ++ rest) = Some (bl ++ name ++ rest)).
  { unfold lower in Hu.
    destruct usage as [| c1 [| c2 [| c3 [| c4 [| c5 [| c6 [| c7 usage]]]]]]]; try discriminate Hu.
    assert (E1 : lower_c c1 = 117%N) by exact (f_equal (fun l => nth 0 l 0%N) Hu).
    assert (E2 : lower_c c2 = 115%N) by exact (f_equal (fun l => nth 1 l 0%N) Hu).
    assert (E3 : lower_c c3 = 97%N) by exact (f_equal (fun l => nth 2 l 0%N) Hu).
    assert (E4 : lower_c c4 = 103%N) by exact (f_equal (fun l => nth 3 l 0%N) Hu).
    assert (E5 : lower_c c5 = 101%N) by exact (f_equal (fun l => nth 4 l 0%N) Hu).
    assert (E6 : lower_c c6 = 58%N) by exact (f_equal (fun l => nth 5 l 0%N) Hu).
    apply Hlc in E1; [| reflexivity]. apply Hlc in E2; [| reflexivity]. apply Hlc in E3; [| reflexivity].
    apply Hlc in E4; [| reflexivity]. apply Hlc in E5; [| reflexivity]. apply Hlc in E6; [| reflexivity].
    destruct E6 as [-> | [E6 ->]]; [| discriminate].
    destruct E1 as [-> | [_ ->]], E2 as [-> | [_ ->]], E3 as [-> | [_ ->]], E4 as [-> | [_ ->]], E5 as [-> | [_ ->]]; reflexivity. }
  rewrite Hm.
  assert (Hp : peek_in [LF; TAB; SP] (bl ++ name ++ rest) = true).
  { destruct bl as [| b bl]; [congruence |]. cbn [app peek_in]. apply memc_In. specialize (Hb2 b (or_introl eq_refl)). cbn in *. tauto. }
  rewrite Hp.
  assert (Hs : lstrip_p (fun c => memc c [LF; TAB; SP]) (bl ++ name ++ rest) = name ++ rest).
  { clear Hm Hp Hb1. induction bl as [| b bl IH]; cbn [app lstrip_p].
    - destruct name as [| c name]; [congruence |]. cbn [app lstrip_p].
      assert (E : memc c [LF; TAB; SP] = false) by (apply memc_false; intros K; apply (Hn2 c (or_introl eq_refl)); cbn in *; tauto). now rewrite E.
    - assert (E : memc b [LF; TAB; SP] = true) by (apply memc_In; specialize (Hb2 b (or_introl eq_refl)); cbn in *; tauto). rewrite E.
      apply IH. intros c Hc. apply Hb2. now right. }
  rewrite Hs.
  assert (Hw : word_chars (name ++ rest) = name).
  { clear Hm Hp Hs Hn1. induction name as [| c name IH]; cbn [app].
    - destruct rest as [| c rest]; [reflexivity |]. cbn [word_chars].
      assert (E : memc c [LF; TAB; SP] = true) by (apply memc_In; specialize (Hr c rest eq_refl); cbn in *; tauto). now rewrite E.
    - cbn [word_chars]. assert (E : memc c [LF; TAB; SP] = false) by (apply memc_false; intros K; apply (Hn2 c (or_introl eq_refl)); cbn in *; tauto).
      rewrite E, IH; [reflexivity |]. intros d Hd. apply Hn2. now right. }
  rewrite Hw. destruct name; [congruence | reflexivity].
Qed.
Print Assumptions C77_program_name.
Example C77_program_name_example :
  get_program_name_from_help (s "Usage:  my-prog [options]" ++ [LF]) = Ok (s "my-prog") /\ lower (s "Usage:") = s "usage:".
Proof. split; reflexivity. Qed.

(** ** C78 *)

(** Every option that is converted passes validation, unless its metavariable is [cmd] or an
    option string contains white space other than spaces, tabs and line feeds. *)
Theorem C78_valid_partial : forall e positionals x name dicts v parsed,
  convert x = Ok (name, dicts) -> parse x = Ok parsed ->
  (forall os d o c, In (OptionsWithDescription os d) parsed -> In o os -> In c (o_option o) -> is_space c = false) ->
  (forall os d o m, In (OptionsWithDescription os d) parsed -> In o os -> o_metavar o = Some m ->
     lower (strip_p (fun c => memc c [LT; GT]) (strip_metavar m)) <> s "cmd") ->
  In v dicts -> check_option e positionals v = Ok tt.
Proof.
  intros e ps x name dicts v parsed Hc Ep Hsp0 Hcmd0 Hv. unfold convert in Hc.
  destruct (get_program_name_from_help x) as [err | n]; [discriminate |]. cbn [bind] in Hc. rewrite Ep in Hc. cbn [bind] in Hc.
  injection Hc as _ <-. apply option_dicts_in in Hv as (os & d & Hin & ->).
  specialize (fun o c => Hsp0 os d o c Hin) as Hsp. specialize (fun o m => Hcmd0 os d o m Hin) as Hcmd.
  apply C36_nothing_lost in Ep. destruct (items_sound _ _ Ep os d Hin) as [Hn Hs].
  apply dict_valid; [exact Hn | exact Hs | exact Hsp |].
  assert (K : forall os m0, (forall o m, In o os -> o_metavar o = Some m -> lower (strip_p (fun c => memc c [LT; GT]) (strip_metavar m)) <> s "cmd") ->
    (forall m, m0 = Some m -> is_cmd m = false) -> forall m, last_metavar os m0 = Some m -> is_cmd m = false).
  { clear. induction os as [| o os IH]; intros m0 H H0 m E; [now apply H0 |]. cbn [last_metavar] in E. apply (IH _ (fun o' m' Ho => H o' m' (or_intror Ho))) in E; [exact E |].
    intros m' E'. destruct (o_metavar o) as [[| c y] |] eqn:Eo; [now apply H0 | | now apply H0]. injection E' as <-.
    specialize (H o (c :: y) (or_introl eq_refl) Eo). unfold is_cmd. now destruct (str_eqb_spec (lower (strip_p (fun c => memc c [LT; GT]) (strip_metavar (c :: y)))) (s "cmd")). }
  apply (K os None Hcmd). discriminate.
Qed.
Print Assumptions C78_valid_partial.
Example C78_example :
  exists dicts, convert (help_text help_lines) = Ok (s "prog", dicts) /\ List.length dicts = 3 /\
  nth 0 dicts VNone = VDict [(VStr (s "option_strings"), VList [VStr (s "-o"); VStr (s "--output")]);
    (VStr (s "metavar"), VStr (s "some file")); (VStr (s "help"), VStr (s "Write to FILE in-stead of stdout -- see below"));
    (VStr (s "complete"), VList [VStr (s "file")])].
Proof. eexists. split; [vm_compute; reflexivity |]. split; reflexivity. Qed.

(** An option with the metavariable [CMD] gets a completer that does not exist. *)
Theorem C78_cmd_refuted :
  let x := s "  --exec CMD  Run CMD" ++ [LF] in
  exists v, convert x = Ok (s "--exec", [v]) /\
  forall e positionals, exists m, check_option e positionals v = Err (CrazyError m).
Proof. eexists. split; [vm_compute; reflexivity |]. intros e ps. eexists. vm_compute. reflexivity. Qed.
Print Assumptions C78_cmd_refuted.

(** ** C79 *)

(** The description becomes one line: its lines joined with spaces, but not behind a hyphen;
    names and order of the option strings are kept. *)
Theorem C79_description : forall indent options first more a z,
  help_item_ok (Entry indent options first more) ->
  let lines := first :: map snd more in
  (exists x, join [LF] lines = a :: x) -> (exists x, join [LF] lines = x ++ [z]) -> is_space a = false -> is_space z = false ->
  exists d, option_dicts [expected (Entry indent options first more)] = [VDict d] /\
    vget (s "option_strings") d = Some (VList (map (fun o => VStr (h_name o)) options)) /\
    vget (s "help") d = Some (VStr (unwrap lines)).
Proof.
  intros indent options first more a z Hok lines Ha Hz Sa Sz. cbn [expected option_dicts]. eexists. split; [reflexivity |].
  assert (Em : map (fun o => VStr (o_option o)) (map expected_option options) = map (fun o => VStr (h_name o)) options).
  { rewrite map_map. apply map_ext. intros o. unfold expected_option. destruct (h_argument o); reflexivity. }
  split; [unfold vget; cbn [app dget]; rewrite <- Em; reflexivity |].
  destruct Hok as (_ & _ & _ & _ & Hlf & _ & _ & Hm).
  assert (E : first ++ [LF] ++ flat_map (fun '(_, text) => text ++ [LF]) more = flat_map (fun l => l ++ [LF]) lines).
  { unfold lines. cbn [flat_map]. rewrite <- app_assoc. f_equal. f_equal. clear. induction more as [| [i t] more IH]; [reflexivity |]. cbn [flat_map map snd]. now rewrite IH. }
  rewrite E, (fixed_description lines a z); [| | exact Ha | exact Hz | exact Sa | exact Sz].
  - destruct (last_metavar _ None); reflexivity.
  - intros l [<- | Hl]; [exact Hlf |]. apply in_map_iff in Hl as ((i & t) & <- & Hl). now apply (Hm i t).
Qed.
Print Assumptions C79_description.
Example C79_example :
  let lines := [s "Write to FILE in-"; s "stead of stdout"; s "-- see below"] in
  unwrap lines = s "Write to FILE in-stead of stdout -- see below" /\
  (exists x, join [LF] lines = 87%N :: x) /\ (exists x, join [LF] lines = x ++ [119%N]).
Proof.
  split; [reflexivity |]. split; [eexists; reflexivity |]. exists (removelast (join [LF] [s "Write to FILE in-"; s "stead of stdout"; s "-- see below"])). reflexivity.
Qed.
