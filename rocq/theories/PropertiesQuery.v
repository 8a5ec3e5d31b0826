(** * Theorems about how fish scripts read the command line: C83. *)
From Coq Require Import Permutation.
From Verif Require Import Base Value Shell SpecShell StrUtils Cli CliExamples CliProofs CliMore SpecCli BashUtils BashParser SpecParser
  ParserPaths ParserTables ParserProofs ParserCheck FishUtils SpecFish FishRuntime SpecOffered SpecFishOffers PropertiesFish
  FishQuery SpecQuery FishQueryProofs FishQueryMain.
Open Scope list_scope.

(** ** Deciding the conditions for the examples *)
Definition kind_eqb (a b : argkind) : bool :=
  match a, b with ArgNone, ArgNone | ArgRequired, ArgRequired | ArgOptional, ArgOptional => true | _, _ => false end.
Definition clear_check (root : cmd) : bool :=
  forallb (fun '(rs, c) =>
    forallb (fun sub => forallb (fun x => nonempty x && negb (memc LF x) && negb (memc 62 x)) (c_prog sub :: c_aliases sub)) (subs c) &&
    pairwise (fun d1 d2 => overlap (names_of c d1) (names_of c d2)) (subs c) &&
    forallb (fun o => forallb (fun x => negb (memc EQ x)) (o_strings o)) (c_options c) &&
    (let os := flat_map (fun p => c_options (snd p)) ((rs, c) :: ancestors rs) in
     forallb (fun o1 => forallb (fun o2 => kind_eqb (arg_kind o1) (arg_kind o2) || negb (overlap (o_strings o1) (o_strings o2))) os) os))
    (visit_commandlines [] root).
Lemma memc_none c x : negb (memc c x) = true -> ~ In c x.
Proof.
  intros H K. apply negb_true_iff in H. assert (memc c x = true); [| congruence]. apply existsb_exists. exists c. split; [exact K | apply N.eqb_refl].
Qed.
Lemma clear_ok root : clear_check root = true -> clear_definition root.
Proof.
  intros H. unfold clear_check in H. rewrite forallb_forall in H.
  assert (H' : forall rs c, located root rs c ->
    forallb (fun sub => forallb (fun x => nonempty x && negb (memc LF x) && negb (memc 62 x)) (c_prog sub :: c_aliases sub)) (subs c) = true /\
    pairwise (fun d1 d2 => overlap (names_of c d1) (names_of c d2)) (subs c) = true /\
    forallb (fun o => forallb (fun x => negb (memc EQ x)) (o_strings o)) (c_options c) = true /\
    (let os := flat_map (fun p => c_options (snd p)) ((rs, c) :: ancestors rs) in
     forallb (fun o1 => forallb (fun o2 => kind_eqb (arg_kind o1) (arg_kind o2) || negb (overlap (o_strings o1) (o_strings o2))) os) os = true)).
  { intros rs c Hl. assert (Hin : In (rs, c) (visit_commandlines [] root)) by (apply visit_iff; exists rs; now rewrite app_nil_r).
    specialize (H _ Hin). cbn beta iota in H. rewrite !andb_true_iff in H. destruct H as [[[H1 H2] H3] H4]. auto. }
  clear H. split.
  - intros rs c sub x Hl Hs Hx. destruct (H' rs c Hl) as (H1 & _). rewrite forallb_forall in H1. specialize (H1 sub Hs).
    rewrite forallb_forall in H1. assert (Hin : In x (c_prog sub :: c_aliases sub)) by (destruct Hx as [-> | Hx]; [now left | now right]).
    specialize (H1 x Hin). apply andb_prop in H1 as [H1 H3]. apply andb_prop in H1 as [H1 H2].
    split; [now destruct x |]. split; now apply memc_none.
  - intros rs c d1 d2 x Hl H1 H2 Hn1 Hn2. destruct (H' rs c Hl) as (_ & Hp & _). eapply (pairwise_eq _ _ Hp); try assumption.
    apply (overlap_In _ _ x); now apply names_of_In.
  - intros rs c o x Hl Ho Hx. destruct (H' rs c Hl) as (_ & _ & Hp & _). rewrite forallb_forall in Hp. specialize (Hp o Ho).
    rewrite forallb_forall in Hp. now apply memc_none, Hp.
  - intros rs c p1 p2 o1 o2 x Hl Hp1 Hp2 Ho1 Hx1 Ho2 Hx2. destruct (H' rs c Hl) as (_ & _ & _ & Hp).
    assert (G : forall p o, p = (rs, c) \/ In p (ancestors rs) -> In o (c_options (snd p)) ->
       In o (flat_map (fun p => c_options (snd p)) ((rs, c) :: ancestors rs))).
    { intros p o Hq Ho. apply in_flat_map. exists p. split; [| exact Ho]. destruct Hq as [-> | Hq]; [now left | now right]. }
    cbv zeta in Hp. rewrite forallb_forall in Hp. specialize (Hp o1 (G p1 o1 Hp1 Ho1)). rewrite forallb_forall in Hp.
    specialize (Hp o2 (G p2 o2 Hp2 Ho2)). rewrite (overlap_In _ _ x Hx1 Hx2), orb_false_r in Hp.
    destruct (arg_kind o1), (arg_kind o2); try discriminate Hp; reflexivity.
Qed.

(** ** C83 *)

(** fish scripts find the positional arguments and the options, with their values, on every
    command line: in any order, attached or not, short options together or not.  Missing: options
    of the first command behind a positional argument, if there are sub-commands; words with
    newlines; and what [clear_definition] excludes.  See the refutations below. *)
Theorem C83_query_partial : forall root ws ps given waiting,
  built root -> clear_definition root -> typed (root_first root) ([], root) 0 ws ps given waiting ->
  (forall w, In w ws -> ~ In LF w) ->
  query_init root ws = Ok (MkQuery ps given, waiting).
Proof. exact query_init_understood. Qed.
Print Assumptions C83_query_partial.

(** tool [-v|--verbose] [-o|--output FILE] [-color [WHEN]]
         {build|b [-k|--keep] [-j|--jobs N] [-O [LEVEL]] TARGET {deep [-level N]}, clean [-n]} *)
Definition optional_argument (x : list str) : opt :=
  MkOpt x None None (Some [VStr (s "file")]) false None true XInherit false false None None SepInherit.
Definition q_deep : cmd := Cmd (s "deep-er") None [] None XFalse XTrue XFalse [with_arg [s "-level"]] [positional 1] None.
Definition q_build : cmd :=
  Cmd (s "build") None [s "b"] None XTrue XTrue XTrue
    [flag [s "-k"; s "--keep"]; with_arg [s "-j"; s "--jobs"]; optional_argument [s "-O"]] [positional 1] (Some [q_deep]).
Definition q_clean : cmd := Cmd (s "clean") None [] None XTrue XTrue XFalse [flag [s "-n"]] [] None.
Definition q_tool : cmd :=
  Cmd (s "tool") None [] None XTrue XTrue XTrue
    [flag [s "-v"; s "--verbose"]; with_arg [s "-o"; s "--output"]; optional_argument [s "-color"]] []
    (Some [q_build; q_clean]).
Lemma q_tool_built : built q_tool.
Proof. by_copy. Qed.
Lemma q_tool_clear : clear_definition q_tool.
Proof. apply clear_ok. vm_compute. reflexivity. Qed.
(** tool -vo out -color=always --output=x b target -kj 3 deep-er -O2 -level 7 -- -v *)
Definition q_words : list str :=
  [s "-vo"; s "out"; s "-color=always"; s "--output=x"; s "b"; s "target"; s "-kj"; s "3"; s "deep-er"; s "-O2"; s "-level"; s "7"; s "--"; s "-v"].
Definition q_meant : list str * list (str * str) :=
  ([s "b"; s "target"; s "deep-er"; s "-v"],
   [(s "-v", []); (s "-o", s "out"); (s "-color", s "always"); (s "--output", s "x"); (s "-k", []); (s "-j", s "3"); (s "-O", s "2"); (s "-level", s "7")]).
Ltac usable_here := split; [now left | first [right; left; split; reflexivity | left; discriminate]].
Ltac usable_above := split; [right; split; [now left | discriminate] | left; discriminate].
Ltac no_such :=
  let p := fresh in let x := fresh in let o := fresh in let Hp := fresh in let Ho := fresh in let Hx := fresh in
  intros p x o Hp Ho Hx; cbn [ancestors fst In] in Hp;
  repeat (destruct Hp as [-> | Hp] || destruct Hp as [<- | Hp]); try (now destruct Hp);
  cbn in Ho; repeat (destruct Ho as [<- | Ho]); try (now destruct Ho);
  cbn in Hx; repeat (destruct Hx as [<- | Hx]); try (now destruct Hx);
  intros ?; try (exfalso; cbn in *; lia);
  (split; [discriminate | let t := fresh in let E := fresh in intros (t & E); discriminate E]).
Lemma q_words_typed : typed (root_first q_tool) ([], q_tool) 0 q_words (fst q_meant) (snd q_meant) false.
Proof.
  change (snd q_meant) with ([(s "-v", @nil N)] ++ (s "-o", s "out") :: (s "-color", s "always") :: (s "--output", s "x") ::
    [(s "-k", @nil N)] ++ (s "-j", s "3") :: [(s "-O", s "2")] ++ [(s "-level", s "7")]).
  apply (ty_together_separate _ _ _ (s "vo") [(s "-v", [])] (s "-o")).
  { eapply to_flag with (o := flag [s "-v"; s "--verbose"]); [exists ([], q_tool); split; [usable_here | split; now left] | reflexivity |].
    eapply to_waiting with (o := with_arg [s "-o"; s "--output"]); [exists ([], q_tool); split; [usable_here | split; [right; now left | now left]] | reflexivity]. }
  { no_such. }
  apply (ty_attached _ _ _ (s "-color") (optional_argument [s "-color"]) (s "always")); [exists ([], q_tool); split; [usable_here | split; [right; right; now left | now left]] | cbn; lia | discriminate |].
  apply (ty_attached _ _ _ (s "--output") (with_arg [s "-o"; s "--output"]) (s "x")); [exists ([], q_tool); split; [usable_here | split; [right; now left | right; now left]] | cbn; lia | discriminate |].
  eapply ty_command with (sub := q_build); [intros (c & w & E); discriminate E | reflexivity | now left | right; left; now left |].
  apply ty_word; [intros (c & w & E); discriminate E | right; discriminate |].
  apply (ty_together_separate _ _ _ (s "kj") [(s "-k", [])] (s "-j")).
  { eapply to_flag with (o := flag [s "-k"; s "--keep"]); [exists ([q_tool], q_build); split; [usable_here | split; now left] | reflexivity |].
    eapply to_waiting with (o := with_arg [s "-j"; s "--jobs"]); [exists ([q_tool], q_build); split; [usable_here | split; [right; now left | now left]] | reflexivity]. }
  { no_such. }
  eapply ty_command with (sub := q_deep); [intros (c & w & E); discriminate E | reflexivity | now left | now left |].
  apply (ty_together _ _ _ (s "O2") [(s "-O", s "2")]); [discriminate | | |].
  { eapply to_optional with (o := optional_argument [s "-O"]); [exists ([q_tool], q_build); split; [usable_above | split; [right; right; now left | now left]] | reflexivity | discriminate]. }
  { no_such. }
  apply (ty_separate _ _ _ (s "-level") (with_arg [s "-level"]) (s "7")); [exists ([q_build; q_tool], q_deep); split; [usable_here | split; now left] | cbn; lia | reflexivity |].
  apply ty_dashes.
Qed.
Example C83_example : built q_tool /\ clear_definition q_tool /\
  typed (root_first q_tool) ([], q_tool) 0 q_words (fst q_meant) (snd q_meant) false /\
  query_init q_tool q_words = Ok (MkQuery (fst q_meant) (snd q_meant), false).
Proof.
  split; [exact q_tool_built |]. split; [exact q_tool_clear |]. split; [exact q_words_typed | vm_compute; reflexivity].
Qed.

(** Together with C81: whatever is typed, each option, each positional argument and the
    sub-commands are offered exactly where they are to be offered. *)
Theorem C83_offers_partial : forall matches incomplete e prog root ere completer ps c st ds cmds inline ws positionals given waiting,
  good_names e -> e (s "prog") = Some prog -> (forall n, e (s "C" ++ n) = None) ->
  built root -> located root ps c -> clean_scope completer ps c -> clear_definition root ->
  definitions ere completer ps c = Ok ds -> Forall2 (fun d k => get_complete_cmd st d = Ok k) ds cmds ->
  typed (root_first root) ([], root) 0 ws positionals given waiting -> (forall w, In w ws -> ~ In LF w) ->
  exists q argss os k1 k2 k3,
    query_init root ws = Ok (q, waiting) /\ q_positionals q = positionals /\ q_options q = given /\
    completes e (generator_block inline cmds) = Some argss /\
    Forall2 (fun args k => complete_args args = Some k) argss (k1 ++ k2 ++ k3) /\
    Permutation os (c_options c) /\
    Forall2 (option_says matches incomplete q e prog ere ps c) os k1 /\
    Forall2 (positional_says matches incomplete q e prog ere ps c) (c_positionals c) k2 /\
    match c_subcommands c with
    | None => k3 = []
    | Some _ => exists k, k3 = [k] /\ subcommands_says matches incomplete q e prog ps c k
    end.
Proof.
  intros matches incomplete e prog root ere completer ps c st ds cmds inline ws positionals given waiting He Hp HC Hb Hl Hs Hcl Hd Hc Ht Hw.
  destruct (C81_offers_partial matches incomplete (MkQuery positionals given) e prog root ere completer ps c st ds cmds inline He Hp HC Hb Hl Hs Hd Hc)
    as (argss & os & k1 & k2 & k3 & H). exists (MkQuery positionals given), argss, os, k1, k2, k3.
  split; [now apply C83_query_partial |]. split; [reflexivity |]. split; [reflexivity | exact H].
Qed.
Print Assumptions C83_offers_partial.

Lemma fish_tool_clear : clear_definition fish_tool.
Proof. apply clear_ok. vm_compute. reflexivity. Qed.
(** behind [tool -v r -n --level=3] *)
Example C83_offers_example : exists ds cmds,
  located fish_tool [fish_tool] run_cmd /\ clean_scope file_completer [fish_tool] run_cmd /\ clear_definition fish_tool /\
  commands_of true [fish_tool] run_cmd = Ok (ds, cmds) /\
  typed (root_first fish_tool) ([], fish_tool) 0 [s "-v"; s "r"; s "-n"; s "--level=3"] [s "r"] [(s "-v", []); (s "-n", []); (s "--level", s "3")] false.
Proof.
  eexists. eexists. split; [apply located_sub; [apply located_root | now left] |]. split; [exact run_cmd_scope |]. split; [exact fish_tool_clear |].
  split; [vm_compute; reflexivity |].
  change ([(s "-v", @nil N); (s "-n", []); (s "--level", s "3")]) with ([(s "-v", @nil N)] ++ [(s "-n", [])] ++ [(s "--level", s "3")]).
  apply (ty_together _ _ _ (s "v") [(s "-v", [])]); [discriminate | | no_such |].
  { eapply to_flag with (o := flag [s "-v"]); [exists ([], fish_tool); split; [usable_here | split; now left] | reflexivity | apply to_end]. }
  eapply ty_command with (sub := run_cmd); [intros (c & w & E); discriminate E | reflexivity | now left | right; left; now left |].
  apply (ty_together _ _ _ (s "n") [(s "-n", [])]); [discriminate | | no_such |].
  { eapply to_flag with (o := flag [s "-n"]); [exists ([fish_tool], run_cmd); split; [usable_here | split; now left] | reflexivity | apply to_end]. }
  apply (ty_attached _ _ _ (s "--level") level (s "3")); [exists ([fish_tool], run_cmd); split; [usable_here | split; [right; now left | right; now left]] | cbn; lia | discriminate |].
  apply ty_end.
Qed.

(** The options of the first command are not known behind the name of a sub-command, although they
    are passed on: the argument of [--output] is taken for a positional argument. *)
Theorem C83_root_options_refuted : exists root ws ps given, built root /\ clear_definition root /\
  typed anywhere ([], root) 0 ws ps given false /\ (forall w, In w ws -> ~ In LF w) /\
  query_init root ws <> Ok (MkQuery ps given, false) /\
  query_init root ws = Ok (MkQuery (ps ++ [s "out"]) [(s "--output", [])], false).
Proof.
  exists q_tool, [s "build"; s "--output"; s "out"], [s "build"], [(s "--output", s "out")].
  split; [exact q_tool_built |]. split; [exact q_tool_clear |]. split.
  - eapply ty_command with (sub := q_build); [intros (c & w & E); discriminate E | reflexivity | now left | now left |].
    apply (ty_separate _ _ _ (s "--output") (with_arg [s "-o"; s "--output"]) (s "out")); [| cbn; lia | reflexivity | apply ty_end].
    exists ([], q_tool). split; [right; split; [now left | discriminate] | split; [right; now left | right; now left]].
  - split; [| split; [vm_compute; discriminate | vm_compute; reflexivity]].
    intros w H. cbn [In] in H. repeat (destruct H as [<- | H]); try destruct H; intros K; cbn in K; repeat (destruct K as [K | K]; [discriminate K |]); exact K.
Qed.
Print Assumptions C83_root_options_refuted.

(** A positional argument with a newline in it hides the options of all sub-commands behind it. *)
Theorem C83_newline_refuted : exists root ws ps given, built root /\ clear_definition root /\
  typed (root_first root) ([], root) 0 ws ps given false /\
  query_init root ws <> Ok (MkQuery ps given, false).
Proof.
  exists q_tool, [s "build"; [97; 10; 98]%N; s "deep-er"; s "-level"; s "7"], [s "build"; [97; 10; 98]%N; s "deep-er"], [(s "-level", s "7")].
  split; [exact q_tool_built |]. split; [exact q_tool_clear |]. split; [| vm_compute; discriminate].
  eapply ty_command with (sub := q_build); [intros (c & w & E); discriminate E | reflexivity | now left | now left |].
  apply ty_word; [intros (c & w & E); discriminate E | right; discriminate |].
  eapply ty_command with (sub := q_deep); [intros (c & w & E); discriminate E | reflexivity | now left | now left |].
  apply (ty_separate _ _ _ (s "-level") (with_arg [s "-level"]) (s "7")); [exists ([q_build; q_tool], q_deep); split; [usable_here | split; now left] | cbn; lia | reflexivity |].
  apply ty_end.
Qed.
Print Assumptions C83_newline_refuted.

(** A command that does not pass its options on still hides those of a command further up. *)
Definition h_last : cmd := Cmd (s "last") None [] None XFalse XFalse XFalse [] [positional 1] None.
Definition h_middle : cmd := Cmd (s "middle") None [] None XFalse XFalse XFalse [flag [s "--level"]] [] (Some [h_last]).
Definition h_first : cmd := Cmd (s "first") None [] None XFalse XFalse XTrue [with_arg [s "--level"]] [] (Some [h_middle]).
Definition h_tool : cmd := Cmd (s "tool") None [] None XFalse XFalse XFalse [] [] (Some [h_first]).
Theorem C83_hidden_refuted : exists root ws ps given, built root /\
  typed (root_first root) ([], root) 0 ws ps given false /\ (forall w, In w ws -> ~ In LF w) /\
  query_init root ws = Ok (MkQuery (ps ++ [s "7"]) [(s "--level", [])], false) /\ given = [(s "--level", s "7")].
Proof.
  exists h_tool, [s "first"; s "middle"; s "last"; s "--level"; s "7"], [s "first"; s "middle"; s "last"], [(s "--level", s "7")].
  split; [by_copy |]. split; [| split; [| split; [vm_compute; reflexivity | reflexivity]]].
  - eapply ty_command with (sub := h_first); [intros (c & w & E); discriminate E | reflexivity | now left | now left |].
    eapply ty_command with (sub := h_middle); [intros (c & w & E); discriminate E | reflexivity | now left | now left |].
    eapply ty_command with (sub := h_last); [intros (c & w & E); discriminate E | reflexivity | now left | now left |].
    apply (ty_separate _ _ _ (s "--level") (with_arg [s "--level"]) (s "7")); [| cbn; lia | reflexivity | apply ty_end].
    exists ([h_tool], h_first). split; [split; [right; split; [right; now left | discriminate] | left; discriminate] | split; now left].
  - intros w H. cbn [In] in H. repeat (destruct H as [<- | H]); try destruct H; intros K; cbn in K; repeat (destruct K as [K | K]; [discriminate K |]); exact K.
Qed.
Print Assumptions C83_hidden_refuted.

(** The definitions reach the function as they are, if there are no backslashes and single quotes
    in the names of sub-commands and options. *)
Definition plain_text (root : cmd) : Prop :=
  (forall rs c sub x, located root rs c -> In sub (subs c) -> x = c_prog sub \/ In x (c_aliases sub) -> ~ In BS x /\ ~ In SQ x) /\
  (forall rs c o x, located root rs c -> In o (c_options c) -> In x (o_strings o) -> ~ In BS x /\ ~ In SQ x).
Definition sq_safe (p : str) : Prop :=
  ~ In SQ p /\ forall u r, fish_read FInSQ (Some u) (p ++ r) = fish_read FInSQ (Some (u ++ p)) r.
Lemma sq_app p q : sq_safe p -> sq_safe q -> sq_safe (p ++ q).
Proof.
  intros [H1 H2] [K1 K2]. split; [rewrite in_app_iff; tauto |]. intros u r. now rewrite <- app_assoc, H2, K2, <- app_assoc.
Qed.
Lemma sq_plain p : ~ In BS p -> ~ In SQ p -> sq_safe p.
Proof.
  intros Hb Hq. split; [exact Hq |]. induction p as [| c p IH]; intros u r; [now rewrite app_nil_r |].
  cbn [app fish_read]. replace (N.eqb c SQ) with false by (symmetry; apply N.eqb_neq; intros ->; apply Hq; now left).
  replace (N.eqb c BS) with false by (symmetry; apply N.eqb_neq; intros ->; apply Hb; now left).
  unfold push. rewrite IH by (intros K; first [apply Hb; now right | apply Hq; now right]). now rewrite <- app_assoc.
Qed.
Lemma sq_escape x : ~ In BS x -> ~ In SQ x -> sq_safe (re_escape x).
Proof.
  induction x as [| c x IH]; intros Hb Hq; [now apply sq_plain |]. cbn [re_escape flat_map]. fold (re_escape x).
  assert (c <> BS /\ c <> SQ) as [N1 N2] by (split; intros ->; [apply Hb | apply Hq]; now left).
  apply sq_app; [| apply IH; intros K; [apply Hb | apply Hq]; now right].
  destruct (memc c re_special).
  - split; [intros [K | [K | []]]; [discriminate K | congruence] |]. intros u r. cbn [app fish_read].
    change (N.eqb BS SQ) with false. change (N.eqb BS BS) with true. cbn iota.
    replace (memc c [SQ; BS]) with false; [unfold push; now rewrite <- app_assoc |].
    symmetry. unfold memc. cbn [existsb]. rewrite orb_false_r. apply orb_false_iff. split; apply N.eqb_neq; assumption.
  - apply sq_plain; intros [K | []]; congruence.
Qed.
Lemma sq_join sep l : sq_safe sep -> Forall sq_safe l -> sq_safe (join sep l).
Proof.
  intros Hs H. induction H as [| x l Hx H IH]; [now apply sq_plain |]. destruct l as [| y l]; [exact Hx |].
  rewrite join_cons. apply sq_app; [exact Hx |]. apply sq_app; assumption.
Qed.
Ltac literal_safe := apply sq_plain; intros K; cbn in K; repeat (destruct K as [K | K]; [discriminate K |]); exact K.
Theorem C83_definitions_partial : forall root definitions, built root -> clear_definition root -> plain_text root ->
  get_cmdline_definitions root = Ok definitions -> Forall (fun d => fish_words (quote d) = Some [d]) definitions.
Proof.
  intros root defs Hb Hd [Hn Ho] Hdefs. apply Forall_forall. intros d Hin.
  apply (definition_iff root Hb defs Hdefs) in Hin as (rs & c & pat & Hl & Hne & Hp & ->).
  assert (Hpat : sq_safe pat).
  { unfold get_positional_pattern in Hp. apply bind_ok in Hp as (r & Hr & Hp). apply inr_inj in Hp as <-.
    apply sq_join; [literal_safe |]. clear Hne. revert c r Hl Hr. induction rs as [| p rs IH]; intros c r Hl Hr.
    - cbn in Hr. injection Hr as <-. constructor.
    - destruct (patterns_last root rs p c r Hl Hr) as (r0 & cmds & H0 & Hc & _ & ->).
      assert (Hlp : located root rs p) by now inversion Hl. apply Forall_app. split; [exact (IH p r0 Hlp H0) |].
      apply Forall_app. split; [apply Forall_forall; intros x Hx; apply repeat_spec in Hx as ->; literal_safe |].
      constructor; [| constructor]. apply sq_app; [literal_safe |]. apply sq_app; [| literal_safe]. apply sq_join; [literal_safe |].
      apply Forall_forall. intros x Hx. apply in_map_iff in Hx as (y & <- & Hy).
      destruct (variations_spec root Hd rs p c cmds Hl Hc) as [_ Hv]. apply Hv in Hy.
      inversion Hl as [| ? ? ? _ Hs]; subst. assert (~ In BS y /\ ~ In SQ y) as [Y1 Y2]; [| now apply sq_escape].
      destruct Hy as [-> | [Hy | (_ & _ & (t & E) & _)]]; [eapply Hn; eauto | eapply Hn; eauto |].
      destruct (Hn rs p c (c_prog c) Hlp Hs (or_introl eq_refl)) as [Y1 Y2]. rewrite E in Y1, Y2. rewrite in_app_iff in Y1, Y2. tauto. }
  assert (Hopt : sq_safe (get_query_option_strings rs c false)).
  { unfold get_query_option_strings. apply sq_join; [literal_safe |]. apply Forall_forall. intros x Hx. apply in_flat_map in Hx as (o & Hoo & Hx).
    apply (get_options_own root rs c o Hb Hl) in Hoo.
    assert (G : forall y, In y (o_strings o) -> sq_safe y) by (intros y Hy; destruct (Ho rs c o y Hl Hoo Hy); now apply sq_plain).
    destruct (has_required_arg o); [| destruct (has_optional_arg o); [| now apply G]];
      apply in_map_iff in Hx as (y & <- & Hy); (apply sq_app; [now apply G | literal_safe]). }
  assert (Hall : sq_safe (pat ++ s "=>" ++ get_query_option_strings rs c false)).
  { apply sq_app; [exact Hpat |]. apply sq_app; [literal_safe | exact Hopt]. }
  assert (Hq : In 62%N (pat ++ s "=>" ++ get_query_option_strings rs c false)) by (apply in_or_app; right; right; now left).
  revert Hall Hq. generalize (pat ++ s "=>" ++ get_query_option_strings rs c false) as d. clear. intros d [H1 H2] Hq.
  assert (E : quote d = [SQ] ++ d ++ [SQ]).
  { unfold quote, quote_gen. destruct d as [| a d]; [destruct Hq |]. cbn [andb].
    assert (needs_quote (a :: d) = true) as ->.
    { unfold needs_quote. apply negb_true_iff. destruct (forallb is_safe (a :: d)) eqn:E; [| reflexivity].
      rewrite forallb_forall in E. specialize (E _ Hq). discriminate E. }
    cbn [negb]. assert (memc SQ (a :: d) = false) as ->; [| reflexivity].
    destruct (memc SQ (a :: d)) eqn:E; [| reflexivity]. exfalso. apply H1. unfold memc in E. apply existsb_exists in E as (z & Hz & E).
    apply N.eqb_eq in E as ->. exact Hz. }
  rewrite E. unfold fish_words. cbn [app fish_read]. change (N.eqb SQ SQ) with true. cbn iota. unfold start. rewrite H2.
  cbn [fish_read app]. reflexivity.
Qed.
Print Assumptions C83_definitions_partial.
Lemma plain_text_ok root :
  forallb (fun '(_, c) => forallb (fun x => negb (memc BS x) && negb (memc SQ x))
    (flat_map (fun sub => c_prog sub :: c_aliases sub) (subs c) ++ flat_map o_strings (c_options c))) (visit_commandlines [] root) = true ->
  plain_text root.
Proof.
  intros H. rewrite forallb_forall in H.
  assert (H' : forall rs c x, located root rs c -> In x (flat_map (fun sub => c_prog sub :: c_aliases sub) (subs c) ++ flat_map o_strings (c_options c)) ->
    ~ In BS x /\ ~ In SQ x).
  { intros rs c x Hl Hx. assert (Hin : In (rs, c) (visit_commandlines [] root)) by (apply visit_iff; exists rs; now rewrite app_nil_r).
    specialize (H _ Hin). cbn beta iota in H. rewrite forallb_forall in H. specialize (H x Hx). apply andb_prop in H as [H1 H2].
    split; now apply memc_none. }
  split.
  - intros rs c sub x Hl Hs Hx. apply (H' rs c x Hl). apply in_or_app. left. apply in_flat_map. exists sub. split; [exact Hs |].
    destruct Hx as [-> | Hx]; [now left | now right].
  - intros rs c o x Hl Ho Hx. apply (H' rs c x Hl). apply in_or_app. right. apply in_flat_map. exists o. auto.
Qed.
Example C83_definitions_example : built q_tool /\ clear_definition q_tool /\ plain_text q_tool /\ get_cmdline_definitions q_tool = Ok
  [s "=>-v --verbose -o= --output= -color=?"; s "(build|buil|bui|bu|b|b)=>-k --keep -j= --jobs= -O=?";
   s "(build|buil|bui|bu|b|b)>.*>(deep\-er)=>-level="; s "(clean|clea|cle|cl|c)=>-n"].
Proof.
  split; [exact q_tool_built |]. split; [exact q_tool_clear |]. split; [apply plain_text_ok; vm_compute; reflexivity | vm_compute; reflexivity].
Qed.
