(** * Theorems about how zsh scripts read the command line: C95 to C98. *)
From Coq Require Import Permutation.
From Verif Require Import Base PyStr Value Shell SpecShell StrUtils StrUtilsProofs Cli CliExamples CliProofs CliMore SpecCli BashUtils BashParser SpecParser
  ShellParser When SpecWhen WhenProofs WhenTests
  ParserPaths ParserTables ParserProofs ParserCheck FishUtils SpecFish FishRuntime SpecOffered SpecFishOffers FishOffered FishOffers PropertiesFish
  FishQuery SpecQuery FishQueryProofs FishQueryMain PropertiesQuery BashCheck
  ZshUtils SpecZsh SpecZshFunction ZshReading ZshSpecs Zsh ZshFunction ZshOffers ZshPositionals PropertiesZsh
  ZshQuery SpecZshQuery ZshQueryProofs ZshQueryMain ZshConditions.
Open Scope list_scope.

(** ** C95 *)

(** The function of the command that the command line selects completes it, and it finds the
    positional arguments and the options with their values.  Missing: definitions with ambiguous
    names and options ([clear_definition]); words that are short options of one command and an
    old-style option of another ([unmistakable]); quoted words behind [--]; newlines.  See the
    refutations below. *)
Theorem C95_zsh_reads_partial : forall unquote root ws raw positionals given waiting rs c,
  built root -> clear_definition root ->
  typed anywhere ([], root) 0 ws positionals given waiting -> ws = map unquote raw ->
  unmistakable root ws -> (In (s "--") ws -> forall w, In w raw -> unquote w = w) -> (forall w, In w ws -> ~ In LF w) ->
  located root rs c -> leads_to positionals rs c ->
  completing unquote root [] root raw = Ok (rs, c) /\
  zquery unquote root rs c raw = MkQuery positionals given.
Proof. intros unquote root ws raw positionals given waiting rs c Hb Hd. intros. eapply completing_right; eauto. Qed.
Print Assumptions C95_zsh_reads_partial.

(** Deciding [unmistakable] for the examples *)
Definition all_strings (root : cmd) : list str := flat_map (fun p => flat_map o_strings (c_options (snd p))) (visit_commandlines [] root).
Definition unmistakable_check (root : cmd) (ws : list str) : bool :=
  forallb (fun w => match w with
    | d :: c :: _ => negb (mems [DASH; c] (all_strings root)) ||
        forallb (fun x => (List.length x <? 3) || negb (str_eqb w x) && negb (starts_with (x ++ [EQ]) w)) (all_strings root)
    | _ => true end) ws.
Lemma all_strings_In root rs c o x : located root rs c -> In o (c_options c) -> In x (o_strings o) -> In x (all_strings root).
Proof.
  intros Hl Ho Hx. apply in_flat_map. exists (rs, c). split; [now apply located_visit |]. apply in_flat_map. now exists o.
Qed.
Lemma unmistakable_ok root ws : unmistakable_check root ws = true -> unmistakable root ws.
Proof.
  intros H cs [rs' c'] n given waiting Hin Hl' Ht _ rs c o x Hl Ho Hx H3. unfold unmistakable_check in H. rewrite forallb_forall in H. specialize (H _ Hin).
  destruct cs as [| d cs].
  { split; [intros <-; cbn in H3; lia |]. intros (t & E). destruct x as [| a [| b x]]; cbn in H3, E; [lia | lia | discriminate]. }
  cbn beta iota in H. apply orb_prop in H as [H | H].
  - exfalso. apply negb_true_iff, not_true_iff_false in H. apply H, mems_In.
    assert (K : exists o, knows anywhere (rs', c') n [DASH; d] o) by (inversion Ht; subst; eauto). destruct K as (o' & p & Hp & Ho' & Hx').
    eapply all_strings_In; [| exact Ho' | exact Hx']. exact (in_scope_located root rs' c' p Hl' Hp).
  - rewrite forallb_forall in H. specialize (H _ (all_strings_In root rs c o x Hl Ho Hx)). apply orb_prop in H as [H | H]; [apply Nat.ltb_lt in H; lia |].
    apply andb_prop in H as [A B]. apply negb_true_iff, not_true_iff_false in A, B. split; [intros E; apply A; now apply str_eqb_eq |].
    intros (t & E). apply B. rewrite E. apply starts_with_app. now exists t.
Qed.

(** [${(Q)word}], for words quoted with single quotes only *)
Definition no_quotes (w : str) : str := filter (fun c => negb (N.eqb c SQ)) w.
(** tool -vo 'a b' -color=always b --output out tar'get' -kj 3 deep-er -O2 -level *)
Definition zq_raw : list str :=
  [s "-vo"; s "'a b'"; s "-color=always"; s "b"; s "--output"; s "out"; s "tar'get'"; s "-kj"; s "3"; s "deep-er"; s "-O2"; s "-level"].
Definition zq_positionals : list str := [s "b"; s "target"; s "deep-er"].
Definition zq_given : list (str * str) :=
  [(s "-v", []); (s "-o", s "a b"); (s "-color", s "always"); (s "--output", s "out"); (s "-k", []); (s "-j", s "3"); (s "-O", s "2")].
Lemma zq_typed : typed anywhere ([], q_tool) 0 (map no_quotes zq_raw) zq_positionals zq_given true.
Proof.
  change zq_given with ([(s "-v", @nil N)] ++ (s "-o", s "a b") :: (s "-color", s "always") :: (s "--output", s "out") ::
    [(s "-k", @nil N)] ++ (s "-j", s "3") :: [(s "-O", s "2")] ++ []).
  change (map no_quotes zq_raw) with [s "-vo"; s "a b"; s "-color=always"; s "b"; s "--output"; s "out"; s "target"; s "-kj"; s "3"; s "deep-er"; s "-O2"; s "-level"].
  apply (ty_together_separate _ _ _ (s "vo") [(s "-v", [])] (s "-o")).
  { eapply to_flag with (o := flag [s "-v"; s "--verbose"]); [exists ([], q_tool); split; [now left | split; now left] | reflexivity |].
    eapply to_waiting with (o := with_arg [s "-o"; s "--output"]); [exists ([], q_tool); split; [now left | split; [right; now left | now left]] | reflexivity]. }
  { no_such. }
  apply (ty_attached _ _ _ (s "-color") (optional_argument [s "-color"]) (s "always")); [exists ([], q_tool); split; [now left | split; [right; right; now left | now left]] | cbn; lia | discriminate |].
  eapply ty_command with (sub := q_build); [intros (c & w & E); discriminate E | reflexivity | now left | right; left; now left |].
  apply (ty_separate _ _ _ (s "--output") (with_arg [s "-o"; s "--output"]) (s "out"));
    [exists ([], q_tool); split; [right; split; [now left | discriminate] | split; [right; now left | right; now left]] | cbn; lia | reflexivity |].
  apply ty_word; [intros (c & w & E); discriminate E | right; discriminate |].
  apply (ty_together_separate _ _ _ (s "kj") [(s "-k", [])] (s "-j")).
  { eapply to_flag with (o := flag [s "-k"; s "--keep"]); [exists ([q_tool], q_build); split; [now left | split; now left] | reflexivity |].
    eapply to_waiting with (o := with_arg [s "-j"; s "--jobs"]); [exists ([q_tool], q_build); split; [now left | split; [right; now left | now left]] | reflexivity]. }
  { no_such. }
  eapply ty_command with (sub := q_deep); [intros (c & w & E); discriminate E | reflexivity | now left | now left |].
  apply (ty_together _ _ _ (s "O2") [(s "-O", s "2")]); [discriminate | | |].
  { eapply to_optional with (o := optional_argument [s "-O"]); [exists ([q_tool], q_build); split; [right; split; [now left | discriminate] | split; [right; right; now left | now left]] | reflexivity | discriminate]. }
  { no_such. }
  apply (ty_waiting _ _ _ (s "-level") (with_arg [s "-level"])); [exists ([q_build; q_tool], q_deep); split; [now left | split; now left] | cbn; lia | reflexivity].
Qed.
Lemma q_deep_located : located q_tool [q_build; q_tool] q_deep.
Proof. apply located_sub; [apply located_sub; [constructor | now left] | now left]. Qed.
Ltac no_newline := let w := fresh in let H := fresh in let K := fresh in
  intros w H; cbn in H; repeat (destruct H as [<- | H]); try destruct H; intros K; cbn in K; repeat (destruct K as [K | K]; [discriminate K |]); exact K.
Example C95_example : built q_tool /\ clear_definition q_tool /\
  typed anywhere ([], q_tool) 0 (map no_quotes zq_raw) zq_positionals zq_given true /\ unmistakable q_tool (map no_quotes zq_raw) /\
  ~ In (s "--") (map no_quotes zq_raw) /\ (forall w, In w (map no_quotes zq_raw) -> ~ In LF w) /\
  located q_tool [q_build; q_tool] q_deep /\ leads_to zq_positionals [q_build; q_tool] q_deep /\
  completing no_quotes q_tool [] q_tool zq_raw = Ok ([q_build; q_tool], q_deep) /\
  zquery no_quotes q_tool [q_build; q_tool] q_deep zq_raw = MkQuery zq_positionals zq_given.
Proof.
  split; [exact q_tool_built |]. split; [exact q_tool_clear |]. split; [exact zq_typed |]. split; [apply unmistakable_ok; vm_compute; reflexivity |].
  split; [intros K; cbn in K; repeat (destruct K as [K | K]; [discriminate K |]); exact K |]. split; [no_newline |].
  split; [exact q_deep_located |]. split.
  { split; [| intros sub []]. split.
    - split; [exact I |]. exists (s "b"). split; [split; [discriminate | reflexivity] |]. right. left. now left.
    - exists (s "deep-er"). split; [split; [discriminate | reflexivity] |]. now left. }
  split; vm_compute; reflexivity.
Qed.

(** Quotes are not removed behind [--]. *)
Theorem C95_quotes_refuted : exists root raw positionals, built root /\ clear_definition root /\
  typed anywhere ([], root) 0 (map no_quotes raw) positionals [] false /\ unmistakable root (map no_quotes raw) /\
  (forall w, In w (map no_quotes raw) -> ~ In LF w) /\ leads_to positionals [] root /\
  q_positionals (zquery no_quotes root [] root raw) <> positionals.
Proof.
  exists q_clean, [s "--"; s "'a b'"], [s "a b"]. split; [by_copy |]. split; [apply clear_ok; vm_compute; reflexivity |]. split; [apply ty_dashes |].
  split; [apply unmistakable_ok; vm_compute; reflexivity |]. split; [no_newline |]. split; [split; [exact I | intros sub []] | vm_compute; discriminate].
Qed.
Print Assumptions C95_quotes_refuted.
(** Two short options in front of a sub-command that has an old-style option of that name *)
Definition z_xz : cmd := Cmd (s "sub") None [] None XFalse XFalse XTrue [flag [s "-xz"]] [] None.
Definition z_mix : cmd := Cmd (s "tool") None [] None XFalse XFalse XTrue [flag [s "-x"]; flag [s "-z"]] [] (Some [z_xz]).
Theorem C95_mistaken_refuted : exists root ws positionals given rs c, built root /\ clear_definition root /\
  typed anywhere ([], root) 0 ws positionals given false /\ (forall w, In w ws -> ~ In LF w) /\ ~ In (s "--") ws /\
  located root rs c /\ leads_to positionals rs c /\
  completing (fun w => w) root [] root ws = Ok (rs, c) /\
  q_options (zquery (fun w => w) root rs c ws) <> given.
Proof.
  exists z_mix, [s "-xz"; s "sub"], [s "sub"], [(s "-x", []); (s "-z", [])], [z_mix], z_xz.
  split; [by_copy |]. split; [apply clear_ok; vm_compute; reflexivity |]. split.
  { change [(s "-x", []); (s "-z", [])] with ([(s "-x", @nil N); (s "-z", [])] ++ []).
    apply (ty_together _ _ _ (s "xz")); [discriminate | | no_such |].
    - eapply to_flag with (o := flag [s "-x"]); [exists ([], z_mix); split; [now left | split; now left] | reflexivity |].
      eapply to_flag with (o := flag [s "-z"]); [exists ([], z_mix); split; [now left | split; [right; now left | now left]] | reflexivity | apply to_end].
    - eapply ty_command with (sub := z_xz); [intros (c & w & E); discriminate E | reflexivity | now left | now left | apply ty_end]. }
  split; [no_newline |]. split; [intros K; cbn in K; repeat (destruct K as [K | K]; [discriminate K |]); exact K |].
  split; [apply located_sub; [constructor | now left] |]. split.
  { split; [| intros sub []]. split; [exact I |]. exists (s "sub"). split; [split; [discriminate | reflexivity] | now left]. }
  split; [vm_compute; reflexivity | vm_compute; discriminate].
Qed.
Print Assumptions C95_mistaken_refuted.
(** A word that is the name of a sub-command and a newline is taken for the sub-command. *)
Theorem C95_newline_refuted : exists root ws positionals, built root /\ clear_definition root /\
  typed anywhere ([], root) 0 ws positionals [] false /\ unmistakable root ws /\ leads_to positionals [] root /\
  completing (fun w => w) root [] root ws <> Ok ([], root).
Proof.
  exists z_mix, [s "--"; s "sub" ++ [LF]], [s "sub" ++ [LF]]. split; [by_copy |]. split; [apply clear_ok; vm_compute; reflexivity |]. split; [apply ty_dashes |].
  split; [apply unmistakable_ok; vm_compute; reflexivity |]. split.
  - split; [exact I |]. intros sub [<- | []] [_ (w & [_ Hw] & Hn)]. vm_compute in Hw. injection Hw as <-. destruct Hn as [Hn | [[] | (A & _)]]; [discriminate Hn | now apply A].
  - vm_compute. discriminate.
Qed.
Print Assumptions C95_newline_refuted.

(** ** C96 *)

(** The condition of a zsh script holds exactly if it is true of the positional arguments and the
    options that were found.  Missing: conditions that are not [complete] (see C38), values that start
    with [=], empty values of positional arguments, and numbers of positional arguments below one; see
    the refutations. *)
Theorem C96_zsh_when_partial : forall ere x ts ws e, good_zenv e -> different_names e ->
  parse x = Ok ts -> complete ts -> parse_when ere x = Ok ws ->
  exists cond code, ws = map wtok_of (conds_syms cond) /\ zsh_when ere e x = Ok code /\
  ((forall o, In (STest o) (conds_syms cond) -> zsh_test_ok o) ->
   forall matches q, exists b, sh_eval (zsh_truth matches q e) code = Some b /\
     (b = true <-> cond_holds matches (q_positionals q) (q_options q) cond)).
Proof.
  intros ere x ts ws e He Hdn Hp Hc Hw. destruct (accepted_when ere x ws ts Hw Hp Hc) as [cond ->].
  destruct (zsh_meaning ere e x cond He Hw) as (code & H1 & H2). exists cond, code. split; [reflexivity |]. split; [exact H1 |].
  intros Hs matches q. destruct (H2 (zsh_truth matches q e) (s "a") (s "a")) as (Hev & _); try reflexivity; try discriminate.
  eexists. split; [exact Hev |].
  apply (proj2 (holds_true matches (q_positionals q) (q_options q) (zsh_true (zsh_truth matches q e) e))).
  intros o Ho. apply (zsh_test_truth matches q e He Hdn). apply Hs, tests_in_syms, Ho.
Qed.
Print Assumptions C96_zsh_when_partial.

Lemma z_env_good : good_zenv z_env /\ different_names z_env.
Proof. split; [repeat split; (discriminate || reflexivity) | repeat split; discriminate]. Qed.
Example C96_example :
  let x := s "(option_is nocase --level -l -- high || positional_count >= 2) && ! positional_contains 1 a ""b c""" in
  good_zenv z_env /\ different_names z_env /\
  exists ts ws code, parse x = Ok ts /\ complete ts /\ parse_when no_ere x = Ok ws /\ ws = map wtok_of (conds_syms level_high) /\
  (forall o, In (STest o) (conds_syms level_high) -> zsh_test_ok o) /\
  zsh_when no_ere z_env x = Ok code /\
  sh_eval (zsh_truth no_match (MkQuery [s "x"] [(s "--level", s "HIGH")]) z_env) code = Some true /\
  sh_eval (zsh_truth no_match (MkQuery [s "b c"; s "y"] []) z_env) code = Some false.
Proof.
  cbv zeta. split; [apply z_env_good |]. split; [apply z_env_good |]. do 3 eexists. split; [vm_compute; reflexivity |]. split; [split |].
  - eexists (_ :: _ :: _ :: _ :: _ :: _ :: _ :: []), _. split; [reflexivity |]. right. eexists. reflexivity.
  - intros (a & args & b & E). repeat (destruct a as [| ? a]; [discriminate |]; injection E as _ E). destruct a; discriminate.
  - split; [vm_compute; reflexivity |]. split; [vm_compute; reflexivity |]. split; [| split; [vm_compute; reflexivity | split; vm_compute; reflexivity]].
    intros o Ho. cbn in Ho. repeat (destruct Ho as [Ho | Ho]; [try discriminate Ho; injection Ho as <- |]); try destruct Ho.
    + split.
      * intros x Hx. cbn in Hx. repeat (destruct Hx as [<- | Hx]; [reflexivity |]); destruct Hx.
      * intros y [K | []]. discriminate K.
    + right; right; right; left; reflexivity.
    + split; [vm_compute; discriminate |]. split; [intros [K | [K | []]]; discriminate K | intros y [K | [K | []]]; discriminate K].
Qed.

(** An empty value is found if the positional argument is missing. *)
Theorem C96_empty_value_refuted :
  let x := s "positional_contains 1 """"" in
  exists cond ws code, parse_when no_ere x = Ok ws /\ ws = map wtok_of (conds_syms cond) /\ zsh_when no_ere z_env x = Ok code /\
  sh_eval (zsh_truth no_match (MkQuery [] []) z_env) code = Some true /\ ~ cond_holds no_match [] [] cond.
Proof.
  cbv zeta. exists (One (Test (PositionalContains false 1 [[]]))). do 2 eexists. split; [vm_compute; reflexivity |].
  split; [reflexivity |]. split; [vm_compute; reflexivity |]. split; [vm_compute; reflexivity |].
  intros (w & v & (_ & K) & _). vm_compute in K. discriminate K.
Qed.
Print Assumptions C96_empty_value_refuted.
(** A value that starts with [=] is not quoted; zsh replaces it by the path of a command (here: there
    is no such command, and the helper is not called). *)
Theorem C96_equals_refuted :
  let x := s "option_is --sort -- =size" in
  exists cond ws code, parse_when no_ere x = Ok ws /\ ws = map wtok_of (conds_syms cond) /\ zsh_when no_ere z_env x = Ok code /\
  sh_eval (zsh_truth no_match (MkQuery [] [(s "--sort", s "=size")]) z_env) code = Some false /\ cond_holds no_match [] [(s "--sort", s "=size")] cond.
Proof.
  cbv zeta. exists (One (Test (OptionIs [s "--sort"] [s "=size"] false false))). do 2 eexists. split; [vm_compute; reflexivity |].
  split; [reflexivity |]. split; [vm_compute; reflexivity |]. split; [vm_compute; reflexivity |].
  exists (s "=size"), (s "=size"). split; [| split; [now left | reflexivity]]. exists [], (s "--sort"), []. split; [reflexivity |]. split; [now left | right; intros y u []].
Qed.
Print Assumptions C96_equals_refuted.

(** ** C97 *)

(** The conditions of options, as they are evaluated in a script *)
Lemma condition_iff ere e matches q w : good_zenv e -> different_names e -> zsh_condition_ok ere w ->
  exists k, zsh_when ere e w = Ok k /\ (zsh_holds matches q e k = true <-> condition_met ere matches (q_positionals q) (q_options q) (Some w)).
Proof.
  intros He Hdn (cond & Hw & Hs). destruct (zsh_meaning ere e w cond He Hw) as (code & H1 & H2). exists code. split; [exact H1 |].
  assert (Hall : forall cond', parse_when ere w = Ok (map wtok_of (conds_syms cond')) ->
      (zsh_holds matches q e code = true <-> cond_holds matches (q_positionals q) (q_options q) cond')).
  { intros cond' Hw'. destruct (zsh_meaning ere e w cond' He Hw') as (code' & H1' & H2'). rewrite H1 in H1'. injection H1' as <-.
    destruct (H2' (zsh_truth matches q e) (s "a") (s "a")) as (Hev & _); try reflexivity; try discriminate. unfold zsh_holds. rewrite Hev.
    apply (proj2 (holds_true matches (q_positionals q) (q_options q) (zsh_true (zsh_truth matches q e) e))).
    intros o Ho. apply (zsh_test_truth matches q e He Hdn). apply Hs. apply tests_in_syms in Ho.
    assert (E : map wtok_of (conds_syms cond) = map wtok_of (conds_syms cond')) by congruence.
    assert (K : In (wtok_of (STest o)) (map wtok_of (conds_syms cond))) by (rewrite E; now apply in_map).
    apply in_map_iff in K as (y & Ey & Hy). destruct y; try discriminate Ey. cbn in Ey. injection Ey as ->. exact Hy. }
  cbn [condition_met]. split.
  - intros H. exists cond. split; [exact Hw | now apply Hall].
  - intros (cond' & Hw' & H). now apply (Hall cond' Hw').
Qed.

(** Whatever is typed, the function of the selected command hands specifications to [_arguments] with
    which it offers exactly the options that are to be offered, as for C94; their conditions are
    those of the command line.  Missing: what is missing from C93 to C96. *)
Theorem C97_zsh_options_partial : forall option_action positional_action command_action ere matches e unquote root ws raw positionals given waiting rs c,
  built root -> clear_definition root -> good_zenv e -> different_names e ->
  typed anywhere ([], root) 0 ws positionals given waiting -> ws = map unquote raw ->
  unmistakable root ws -> (In (s "--") ws -> forall w, In w raw -> unquote w = w) -> (forall w, In w ws -> ~ In LF w) ->
  located root rs c -> leads_to positionals rs c ->
  (forall d, In d (c :: rs) -> plain_command d) ->
  (forall d o, In d (c :: rs) -> In o (c_options d) -> plain_texts (option_action (rs, c) o)) ->
  (forall p q, p = (rs, c) \/ In p (ancestors rs) -> In q (c_positionals (snd p)) -> plain_texts (positional_action p q)) ->
  (forall p, p = (rs, c) \/ In p (ancestors rs) -> c_subcommands (snd p) <> None -> plain_texts (command_action p)) ->
  (forall i w, has_item rs c i -> when_of i = Some w -> zsh_condition_ok ere w) ->
  distinct_strings (chain_of rs c) ->
  (forall owner o y, option_in (chain_of rs c) owner o -> In y (o_strings o) -> In y (map fst given) ->
     condition_met ere matches positionals given (o_when o)) ->
  exists rs' c' r, completing unquote root [] root raw = Ok (rs', c') /\
  option_parsing option_action positional_action command_action ere e rs' c' = Ok r /\
  match r with
  | None => forall x, ~ wanted (chain_of rs c) (fun o => condition_met ere matches positionals given (o_when o)) (map fst given) x
  | Some k => exists words0 words specs,
      zsh_array (zc_array k) = Some words0 /\
      array_after (zsh_holds matches (zquery unquote root rs' c' raw) e) words0 (zc_conditional k) = Some words /\
      read_specs words = Some specs /\
      forall x, zsh_offers specs (map fst given) x <->
        wanted (chain_of rs c) (fun o => condition_met ere matches positionals given (o_when o)) (map fst given) x
  end.
Proof.
  intros oa pa ca ere matches e unquote root ws raw positionals given waiting rs c Hb Hd He Hdn Ht Hraw Hum Hdd Hlf Hl Hle Hpl Ho Hq Hc Hw Hds Hg.
  destruct (completing_right unquote root Hb Hd ws raw positionals given waiting Ht Hraw Hum Hdd Hlf rs c Hl Hle) as [Hcomp Hquery].
  set (q := MkQuery positionals given) in *. set (holds := zsh_holds matches q e).
  assert (Hcond : forall i w, has_item rs c i -> when_of i = Some w -> exists k, zsh_when ere e w = Ok k /\ (holds k = true <-> condition_met ere matches positionals given (Some w))).
  { intros i w Hi Hwi. exact (condition_iff ere e matches q w He Hdn (Hw i w Hi Hwi)). }
  assert (Hitem : forall owner o, option_in (chain_of rs c) owner o -> exists x, has_item rs c (ItemOption owner o x)).
  { intros owner o Hin. assert (Hx : exists x, In x (o_strings o)).
    { assert (Hv : valid_option o).
      { destruct Hin as [H1 H2]. assert (Hin : In owner (c :: rs)) by (unfold chain_of in H1; destruct (xbool_eqb _ _); [destruct H1 as [<- | []]; now left | exact H1]).
        assert (Hvc : valid_command owner).
        { destruct Hin as [<- | Hin]; [eapply built_valid; eauto |]. destruct (chain_place rs owner Hin) as (qs & Hqs).
          exact (built_valid root qs owner Hb (ancestors_located _ _ _ (qs, owner) Hl Hqs)). }
        now apply Hvc. }
      destruct Hv as (Hne & _). destruct (o_strings o) as [| x l]; [now destruct Hne | exists x; now left]. }
    destruct Hx as (x & Hx). exists x. split; [| exact Hx]. apply option_in_of; [exact Hds | intros E0; rewrite E0 in Hx; exact Hx | exact Hin]. }
  assert (Husable : forall owner o, option_in (chain_of rs c) owner o -> usable_option (condition ere e) holds o <-> condition_met ere matches positionals given (o_when o)).
  { intros owner o Hin. destruct (Hitem owner o Hin) as (x & Hi). unfold usable_option, condition. destruct (o_when o) as [w |] eqn:Ew; [| cbn; tauto].
    destruct (Hcond (ItemOption owner o x) w Hi Ew) as (k & Hk & Hiff). rewrite <- Hiff. split.
    - intros [K | (w' & k' & E & Ek & Hh)]; [discriminate K |]. injection E as <-. rewrite Hk in Ek. now injection Ek as <-.
    - intros Hh. right. exists w, k. rewrite Hk. auto. }
  assert (Hwanted : forall x, wanted (chain_of rs c) (usable_option (condition ere e) holds) (map fst given) x <->
     wanted (chain_of rs c) (fun o => condition_met ere matches positionals given (o_when o)) (map fst given) x).
  { intros x. split; intros (owner & o & Hin & Hx & Hu & Hr); exists owner, o; (split; [exact Hin |]); (split; [exact Hx |]); (split; [now apply (Husable owner o Hin) | exact Hr]). }
  destruct (C93_specifications_partial oa pa ca ere e holds root rs c Hb Hl Hpl Ho Hq Hc) as (r & Hr & Hspec).
  { intros i w Hi Hwi. destruct (Hcond i w Hi Hwi) as (k & Hk & _). now exists k. }
  exists rs, c, r. split; [exact Hcomp |]. split; [exact Hr |]. rewrite Hquery. fold holds. destruct r as [k |].
  - destruct Hspec as (specs & Hspec). pose proof Hspec as (words0 & words & items & E1 & E2 & E3 & _). exists words0, words, specs.
    split; [exact E1 |]. split; [exact E2 |]. split; [exact E3 |]. intros x. rewrite <- Hwanted.
    apply (C94_offers_partial (oa (rs, c)) pa ca (condition ere e) holds root rs c (zc_array k) (zc_conditional k)); auto.
    intros owner o y Hin Hy Hgy. apply (Husable owner o Hin). eapply Hg; eauto.
  - intros x (owner & o & Hin & Hx & _). destruct (Hitem owner o Hin) as (y & Hi). exact (Hspec _ Hi).
Qed.
Print Assumptions C97_zsh_options_partial.

(** tool --mode='x' b --on -j 3, see C93 *)
Definition zo_raw : list str := [s "--mode='x'"; s "b"; s "--on"; s "-j"; s "3"].
Definition zo_given : list (str * str) := [(s "--mode", s "x"); (s "--on", []); (s "-j", s "3")].
Lemma zo_typed : typed anywhere ([], z_tool) 0 (map no_quotes zo_raw) [s "b"] zo_given false.
Proof.
  change (map no_quotes zo_raw) with [s "--mode" ++ [EQ] ++ s "x"; s "b"; s "--on"; s "-j"; s "3"].
  change zo_given with ((s "--mode", s "x") :: (s "--on", []) :: [] ++ (s "-j", s "3") :: []).
  eapply ty_attached with (o := z_mode); [exists ([], z_tool); split; [now left | split; [right; now left | now left]] | cbn; lia | discriminate |].
  eapply ty_command with (sub := z_build); [intros (c & w & E); discriminate E | reflexivity | now left | right; left; now left |].
  eapply ty_flag with (o := z_on); [exists ([], z_tool); split; [right; split; [now left | discriminate] | split; [do 3 right; now left | now left]] | cbn; lia | discriminate |].
  apply (ty_together_separate _ _ _ (s "j") [] (s "-j")); [| no_such | apply ty_end].
  eapply to_waiting with (o := z_jobs); [exists ([z_tool], z_build); split; [now left | split; now left] | reflexivity].
Qed.
Example C97_example : built z_tool /\ clear_definition z_tool /\ good_zenv z_env /\ different_names z_env /\
  typed anywhere ([], z_tool) 0 (map no_quotes zo_raw) [s "b"] zo_given false /\ unmistakable z_tool (map no_quotes zo_raw) /\
  ~ In (s "--") (map no_quotes zo_raw) /\ (forall w, In w (map no_quotes zo_raw) -> ~ In LF w) /\
  located z_tool [z_tool] z_build /\ leads_to [s "b"] [z_tool] z_build /\
  (forall i w, has_item [z_tool] z_build i -> when_of i = Some w -> zsh_condition_ok (fun _ => true) w) /\
  distinct_strings (chain_of [z_tool] z_build) /\
  (forall owner o y, option_in (chain_of [z_tool] z_build) owner o -> In y (o_strings o) -> In y (map fst zo_given) ->
     condition_met (fun _ => true) no_match [s "b"] zo_given (o_when o)) /\
  exists k words0 words specs, completing no_quotes z_tool [] z_tool zo_raw = Ok ([z_tool], z_build) /\
    option_parsing z_action z_positional z_command (fun _ => true) z_env [z_tool] z_build = Ok (Some k) /\
    zsh_array (zc_array k) = Some words0 /\
    array_after (zsh_holds no_match (zquery no_quotes z_tool [z_tool] z_build zo_raw) z_env) words0 (zc_conditional k) = Some words /\
    read_specs words = Some specs /\
    (forall x, In x [s "-v"; s "--verbose"; s "--color"; s "--version"] -> zsh_offers specs (map fst zo_given) x) /\
    (forall x, In x [s "--mode"; s "--on"; s "--off"; s "-j"; s "--jobs"] -> ~ zsh_offers specs (map fst zo_given) x).
Proof.
  split; [exact z_tool_built |]. split; [apply clear_ok; vm_compute; reflexivity |]. split; [apply z_env_good |]. split; [apply z_env_good |].
  split; [exact zo_typed |]. split; [apply unmistakable_ok; vm_compute; reflexivity |].
  split; [intros K; cbn in K; repeat (destruct K as [K | K]; [discriminate K |]); exact K |]. split; [no_newline |].
  split; [exact z_build_located |]. split.
  { split; [| intros sub []]. split; [exact I |]. exists (s "b"). split; [split; [discriminate | reflexivity] | right; left; now left]. }
  assert (Hc : forall i w, has_item [z_tool] z_build i -> when_of i = Some w -> w = s "option_is --mode -- x").
  { intros i w Hi Hw. destruct i as [owner o x | p q | p]; cbn [when_of] in Hw; [| | discriminate].
    - destruct Hi as [Ho _]. apply option_of_in in Ho. destruct Ho as [[<- | [<- | []]] Ho].
      + destruct Ho as [<- | []]. discriminate.
      + destruct Ho as [<- | [<- | [<- | [<- | [<- | [<- | []]]]]]]; try discriminate. now injection Hw as <-.
    - destruct Hi as [[-> | [<- | []]] Hq]; [| destruct Hq]. destruct Hq as [<- | []]. discriminate. }
  split.
  { intros i w Hi Hw. rewrite (Hc i w Hi Hw). exists (One (Test (OptionIs [s "--mode"] [s "x"] false false))). split; [vm_compute; reflexivity |].
    intros o [E | []]. injection E as <-. split; [intros x [<- | []]; reflexivity | intros y [K | []]; discriminate K]. }
  split; [apply distinct_ok; vm_compute; reflexivity |]. split.
  { intros owner o y [[<- | [<- | []]] Ho] Hy Hg; cbn in Ho.
    - destruct Ho as [<- | []]. exact I.
    - destruct Ho as [<- | [<- | [<- | [<- | [<- | [<- | []]]]]]]; try exact I.
      exfalso. destruct Hy as [<- | []]. destruct Hg as [E | [E | [E | []]]]; vm_compute in E; discriminate. }
  eexists _, _, _, _. split; [vm_compute; reflexivity |]. split; [vm_compute; reflexivity |]. split; [vm_compute; reflexivity |].
  split; [vm_compute; reflexivity |]. split; [vm_compute; reflexivity |].
  split; intros x Hx; rewrite offers_check_iff; repeat (destruct Hx as [<- | Hx]; [vm_compute; (reflexivity || discriminate) |]); destruct Hx.
Qed.

(** ** C98 *)

(** Whatever is typed, with the specifications that the function of the selected command hands to
    [_arguments] the next word is completed as the positional argument, or as the name of the
    sub-command, that is to be completed there, and as nothing else.  Missing: what is missing from C93,
    C95 and C96; repeatable positional arguments in front of others, of sub-commands or behind missing
    ones. *)
Theorem C98_zsh_positionals_partial : forall option_action positional_action command_action ere matches e unquote root ws raw positionals given waiting rs c,
  built root -> clear_definition root -> good_zenv e -> different_names e ->
  typed anywhere ([], root) 0 ws positionals given waiting -> ws = map unquote raw ->
  unmistakable root ws -> (In (s "--") ws -> forall w, In w raw -> unquote w = w) -> (forall w, In w ws -> ~ In LF w) ->
  located root rs c -> leads_to positionals rs c ->
  (forall d, In d (c :: rs) -> plain_command d) ->
  (forall d o, In d (c :: rs) -> In o (c_options d) -> plain_texts (option_action (rs, c) o)) ->
  (forall p q, p = (rs, c) \/ In p (ancestors rs) -> In q (c_positionals (snd p)) -> plain_texts (positional_action p q)) ->
  (forall p, p = (rs, c) \/ In p (ancestors rs) -> c_subcommands (snd p) <> None -> plain_texts (command_action p)) ->
  (forall i w, has_item rs c i -> when_of i = Some w -> zsh_condition_ok ere w) ->
  orderly (fun q => condition_met ere matches positionals given (p_when q)) c ->
  (forall d q, In d rs -> In q (c_positionals d) -> p_repeatable q = false) ->
  exists rs' c' r, completing unquote root [] root raw = Ok (rs', c') /\
  option_parsing option_action positional_action command_action ere e rs' c' = Ok r /\
  match r with
  | None => c_positionals c = [] /\ c_subcommands c = None
  | Some k => exists words0 words specs,
      zsh_array (zc_array k) = Some words0 /\
      array_after (zsh_holds matches (zquery unquote root rs' c' raw) e) words0 (zc_conditional k) = Some words /\
      read_specs words = Some specs /\
      forall action, (exists a, zsh_completes specs (List.length positionals) a /\ za_action a = action) <->
        (exists q, In q (c_positionals c) /\ condition_met ere matches positionals given (p_when q) /\
           positional_offered positionals rs c q /\ action = positional_action (rs, c) q) \/
        (c_subcommands c <> None /\ subcommands_offered positionals rs c /\ action = command_action (rs, c))
  end.
Proof.
  intros oa pa ca ere matches e unquote root ws raw positionals given waiting rs c Hb Hd He Hdn Ht Hraw Hum Hdd Hlf Hl Hle Hpl Ho Hq Hc Hw Hord Hanc.
  destruct (completing_right unquote root Hb Hd ws raw positionals given waiting Ht Hraw Hum Hdd Hlf rs c Hl Hle) as [Hcomp Hquery].
  set (q := MkQuery positionals given) in *. set (holds := zsh_holds matches q e).
  assert (Hcond : forall i, has_item rs c i -> item_active (condition ere e) holds i <-> condition_met ere matches positionals given (when_of i)).
  { intros i Hi. unfold item_active, condition. destruct (when_of i) as [w |] eqn:Ew; [| cbn; tauto].
    destruct (condition_iff ere e matches q w He Hdn (Hw i w Hi Ew)) as (k & Hk & Hiff). cbn [q_positionals q_options q] in Hiff. rewrite <- Hiff. split.
    - intros [K | (w' & k' & E & Ek & Hh)]; [discriminate K |]. injection E as <-. rewrite Hk in Ek. now injection Ek as <-.
    - intros Hh. right. exists w, k. rewrite Hk. auto. }
  destruct (C93_specifications_partial oa pa ca ere e holds root rs c Hb Hl Hpl Ho Hq Hc) as (r & Hr & Hspec).
  { intros i w Hi Hwi. destruct (condition_iff ere e matches q w He Hdn (Hw i w Hi Hwi)) as (k & Hk & _). now exists k. }
  exists rs, c, r. split; [exact Hcomp |]. split; [exact Hr |]. rewrite Hquery. fold holds. destruct r as [k |].
  - destruct Hspec as (specs & words0 & words & items & E1 & E2 & E3 & F & Hi). exists words0, words, specs.
    split; [exact E1 |]. split; [exact E2 |]. split; [exact E3 |].
    apply (completes_offered (oa (rs, c)) pa ca root Hb rs c Hl items specs (fun q => condition_met ere matches positionals given (p_when q)) F).
    + intros p q0. rewrite Hi. split; (intros [A B]; split; [exact A |]; now apply (Hcond (ItemPositional p q0) A)).
    + intros p. rewrite Hi. split; [now intros [A _] | intros A; split; [exact A | now left]].
    + apply Hle.
    + exact Hord.
    + exact Hanc.
  - split.
    + destruct (c_positionals c) as [| q0 l] eqn:E; [reflexivity |]. exfalso. apply (Hspec (ItemPositional (rs, c) q0)). split; [now left |]. cbn [snd]. rewrite E. now left.
    + destruct (c_subcommands c) as [l |] eqn:E; [| reflexivity]. exfalso. apply (Hspec (ItemCommands (rs, c))). split; [now left |]. cbn [snd]. rewrite E. discriminate.
Qed.
Print Assumptions C98_zsh_positionals_partial.

(** The line of C97; the TARGET of [build] comes next. *)
Example C98_example :
  orderly (fun q => condition_met (fun _ => true) no_match [s "b"] zo_given (p_when q)) z_build /\
  (forall d q, In d [z_tool] -> In q (c_positionals d) -> p_repeatable q = false) /\
  exists k words0 words specs,
    option_parsing z_action z_positional z_command (fun _ => true) z_env [z_tool] z_build = Ok (Some k) /\
    zsh_array (zc_array k) = Some words0 /\
    array_after (zsh_holds no_match (zquery no_quotes z_tool [z_tool] z_build zo_raw) z_env) words0 (zc_conditional k) = Some words /\
    read_specs words = Some specs /\
    forall a, zsh_completes specs 1 a <-> a = ZArgument (Some 2) false (s "TARGET") (s "_files").
Proof.
  split; [| split].
  - constructor; intros q; intros; repeat match goal with H : In _ (c_positionals z_build) |- _ => destruct H as [<- | []] end; discriminate.
  - intros d q [<- | []] [].
  - eexists _, _, _, _. split; [vm_compute; reflexivity |]. split; [vm_compute; reflexivity |]. split; [vm_compute; reflexivity |].
    split; [vm_compute; reflexivity |]. intros a. split.
    + intros [Ha Hn]. cbn in Ha. repeat (destruct Ha as [Ha | Ha]; [try discriminate Ha; injection Ha as <- |]); try destruct Ha; cbn in Hn; destruct Hn as [Hn | [Hn _]]; try discriminate; vm_compute; reflexivity.
    + intros ->. split; [cbn; repeat (first [left; vm_compute; reflexivity | right]) | now left].
Qed.

(** What is completed at the end of the line [ws] by the script *)
Definition zsh_script_completes (root : cmd) (ws : list str) (n : nat) (action : str) : Prop :=
  exists rs c k words0 words specs a, completing (fun w => w) root [] root ws = Ok (rs, c) /\
    option_parsing z_action (fun _ q => z_str (p_number q)) z_command (fun _ => true) z_env rs c = Ok (Some k) /\
    zsh_array (zc_array k) = Some words0 /\
    array_after (zsh_holds no_match (zquery (fun w => w) root rs c ws) z_env) words0 (zc_conditional k) = Some words /\
    read_specs words = Some specs /\ zsh_completes specs n a /\ za_action a = action.
Ltac by_numbers a := eexists _, _, _, _, _, _, a; split; [vm_compute; reflexivity |]; split; [vm_compute; reflexivity |]; split; [vm_compute; reflexivity |];
  split; [vm_compute; reflexivity |]; split; [vm_compute; reflexivity |]; split; [split; [| right; split; [reflexivity |]] | vm_compute; reflexivity];
  [cbn; repeat (first [left; reflexivity | right]) | let b := fresh in let H := fresh in intros b H; cbn in H; repeat (destruct H as [H | H]; [try discriminate H; injection H as <-; discriminate |]); destruct H].
(** If a positional argument is not to be completed because its condition does not hold, the
    repeatable one behind it is completed in its place. *)
Definition z_gap : cmd := Cmd (s "tool") None [] None XFalse XFalse XFalse [z_on]
  [MkPos 1 None None [VStr (s "file")] false false (Some (s "has_option --on")) None; MkPos 2 None None [VStr (s "file")] false true None None] None.
Theorem C98_gap_refuted : exists root q, built root /\ typed anywhere ([], root) 0 [] [] [] false /\ In q (c_positionals root) /\
  ~ positional_offered [] [] root q /\ zsh_script_completes root [] 0 (z_str (p_number q)).
Proof.
  exists z_gap, (MkPos 2 None None [VStr (s "file")] false true None None). split; [by_copy |]. split; [apply ty_end |]. split; [right; now left |]. split.
  - intros [H _]. vm_compute in H. now apply H.
  - by_numbers (ZArgument None false (s " ") (s "2")).
Qed.
Print Assumptions C98_gap_refuted.
(** A repeatable positional argument of a command is completed in its sub-commands. *)
Definition z_rest : cmd := Cmd (s "tool") None [] None XFalse XFalse XFalse []
  [MkPos 1 None None [VStr (s "file")] false true None None] (Some [z_sub XFalse]).
Theorem C98_above_refuted : exists root ws positionals c, built root /\ typed anywhere ([], root) 0 ws positionals [] false /\
  located root [root] c /\ leads_to positionals [root] c /\ c_positionals c = [] /\ c_subcommands c = None /\
  zsh_script_completes root ws (List.length positionals) (z_str 1).
Proof.
  exists z_rest, [s "x"; s "sub"], [s "x"; s "sub"], (z_sub XFalse). split; [by_copy |]. split.
  - apply ty_word; [intros (c & w & E); discriminate E | right; discriminate |].
    eapply ty_command with (sub := z_sub XFalse); [intros (c & w & E); discriminate E | reflexivity | now left | now left | apply ty_end].
  - split; [apply located_sub; [constructor | now left] |]. split.
    { split; [| intros sub []]. split; [exact I |]. exists (s "sub"). split; [split; [discriminate | reflexivity] | now left]. }
    split; [reflexivity |]. split; [reflexivity |]. by_numbers (ZArgument None false (s " ") (s "1")).
Qed.
Print Assumptions C98_above_refuted.
