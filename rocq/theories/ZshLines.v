(** * Proofs: the specifications and conditions of definitions whose texts stand on one line do so, too. *)
From Coq Require Import Permutation.
From Verif Require Import Base PyStr Value Algo AlgoProofs StrUtils Shell ShellParser ShellProofs Cli CliProofs When SpecWhen ZshUtils Zsh
  SpecCli SpecParser SpecZsh SpecZshFunction SpecZshCode ZshCode ZshCodeProofs ZshFunction.
Open Scope list_scope.

Ltac no_lf := let K := fresh in intros K; vm_compute in K; repeat destruct K as [K | K]; discriminate || exact K.
Lemma line_app a b : one_line a -> one_line b -> one_line (a ++ b).
Proof. intros Ha Hb K. apply in_app_or in K as [K | K]; auto. Qed.
Lemma line_cons c x : c <> LF -> one_line x -> one_line (c :: x).
Proof. intros Hc Hx [K | K]; auto. Qed.
Lemma line_head c x : one_line (c :: x) -> c <> LF /\ one_line x.
Proof. intros H. split; [intros -> | intros K]; apply H; [now left | now right]. Qed.
Lemma line_join sep l : one_line sep -> (forall x, In x l -> one_line x) -> one_line (join sep l).
Proof.
  intros Hs. induction l as [| a l IH]; intros H; [intros [] |]. destruct l as [| b l]; [apply H; now left |].
  change (join sep (a :: b :: l)) with (a ++ sep ++ join sep (b :: l)). apply line_app; [apply H; now left |]. apply line_app; [exact Hs |]. apply IH. intros x Hx. apply H. now right.
Qed.
Lemma line_replace c r x : one_line r -> one_line x -> one_line (replace_c c r x).
Proof.
  intros Hr. induction x as [| d x IH]; intros Hx; [exact Hx |]. apply line_head in Hx as [Hd Hx]. cbn [replace_c].
  destruct (N.eqb d c); [apply line_app; auto | apply line_cons; auto].
Qed.
Lemma line_quote x : one_line x -> one_line (quote x).
Proof.
  intros H. unfold quote, quote_gen. cbn [negb]. rewrite andb_false_r. destruct (needs_quote x); cbn [negb]; [| exact H].
  destruct (memc SQ x); cbn [negb]; [destruct (memc DQ x); cbn [negb] |].
  - apply line_app; [no_lf |]. apply line_app; [apply line_replace; [no_lf | exact H] | no_lf].
  - apply line_app; [no_lf |]. apply line_app; [repeat (apply line_replace; [no_lf |]); exact H | no_lf].
  - apply line_app; [no_lf |]. apply line_app; [exact H | no_lf].
Qed.
Lemma line_quoted l : (forall x, In x l -> one_line x) -> one_line (join_quoted l [SP]).
Proof. intros H. apply line_join; [no_lf |]. intros x Hx. apply in_map_iff in Hx as (y & <- & Hy). now apply line_quote, H. Qed.
Lemma line_word x : forallb is_word x = true -> one_line x.
Proof. rewrite forallb_forall. intros H K. specialize (H _ K). discriminate. Qed.
Lemma line_lower x : one_line x -> one_line (lower x).
Proof.
  intros H K. apply in_map_iff in K as (c & E & Hc). unfold lower_c in E. destruct (is_upper c) eqn:Eu; [| subst; now apply H].
  unfold is_upper in Eu. apply andb_prop in Eu as [H1 _]. apply N.leb_le in H1. assert (65 + 32 <= 10)%N; [| discriminate || (exfalso; revert H0; now apply N.lt_nge)].
  rewrite <- E. now apply N.add_le_mono_r.
Qed.
Lemma line_z z : one_line (z_str z).
Proof.
  assert (forall d, one_line (uint_str d)) as Hd by (induction d; cbn [uint_str]; [intros [] | apply line_cons; [discriminate | exact IHd] ..]).
  unfold z_str. destruct (Z.to_int z); [apply Hd | apply line_cons; [discriminate | apply Hd]].
Qed.

(** ** Conditions *)
Lemma line_single x : forall v r, single_quote_loop x = Ok (v, r) -> one_line x -> one_line v /\ one_line r.
Proof.
  induction x as [| c x IH]; intros v r H Hx; [discriminate |]. cbn [single_quote_loop] in H. apply line_head in Hx as [Hc Hx].
  destruct (N.eqb c SQ); [injection H as <- <-; split; [intros [] | exact Hx] |]. destruct (single_quote_loop x) as [| [v' r']]; cbn [bind] in H; [discriminate |].
  injection H as <- <-. destruct (IH _ _ eq_refl Hx). split; [now apply line_cons | assumption].
Qed.
Lemma line_double n : forall x, (List.length x <= n)%nat -> forall v r, double_quote_loop x = Ok (v, r) -> one_line x -> one_line v /\ one_line r.
Proof.
  induction n as [| n IH]; intros x Hn v r H Hx; destruct x as [| c x]; try discriminate; [inversion Hn |]. apply le_S_n in Hn. cbn [double_quote_loop] in H. apply line_head in Hx as [Hc Hx].
  destruct (N.eqb c BS).
  - destruct x as [| d x]; [discriminate |]. apply line_head in Hx as [Hd Hx]. destruct (double_quote_loop x) as [| [v' r']] eqn:E; cbn [bind] in H; [discriminate |].
    injection H as <- <-. destruct (IH x) with (v := v') (r := r'); auto. { eapply Nat.le_trans; [apply le_S, le_n | exact Hn]. } split; [now apply line_cons | assumption].
  - destruct (N.eqb c DQ); [injection H as <- <-; split; [intros [] | exact Hx] |]. destruct (double_quote_loop x) as [| [v' r']] eqn:E; cbn [bind] in H; [discriminate |].
    injection H as <- <-. destruct (IH x Hn _ _ E Hx). split; [now apply line_cons | assumption].
Qed.
Lemma line_literal n : forall lit x v r, parse_literal n lit x = Ok (v, r) -> one_line lit -> one_line x -> one_line v /\ one_line r.
Proof.
  induction n as [| n IH]; intros lit x v r H Hl Hx; [discriminate |]. cbn [parse_literal] in H. destruct x as [| c x]; [injection H as <- <-; auto |].
  pose proof (line_head _ _ Hx) as [Hc Hx']. destruct (N.eqb c DQ) eqn:E1.
  - unfold parse_double_quote in H. rewrite E1 in H. destruct (double_quote_loop x) as [| [v' r']] eqn:E; cbn [bind] in H; [discriminate |].
    destruct (line_double _ x (le_n _) _ _ E Hx'). eapply IH; [exact H | now apply line_app | assumption].
  - destruct (N.eqb c SQ) eqn:E2.
    + unfold parse_single_quote in H. rewrite E2 in H. destruct (single_quote_loop x) as [| [v' r']] eqn:E; cbn [bind] in H; [discriminate |].
      destruct (line_single x _ _ E Hx'). eapply IH; [exact H | now apply line_app | assumption].
    + destruct (is_space c || memc c [AMP; PIPE; BANG; LPAR; RPAR]); [injection H as <- <-; auto |].
      eapply IH; [exact H | | exact Hx']. apply line_app; [exact Hl |]. apply line_cons; [exact Hc | intros []].
Qed.
Definition line_tok (t : tok) : Prop := match t with TLit x => one_line x | _ => True end.
Lemma line_token x : forall t r, parse_token x = Ok (Some (t, r)) -> one_line x -> line_tok t /\ one_line r.
Proof.
  induction x as [| c x IH]; intros t r H Hx; [discriminate |]. cbn [parse_token] in H. pose proof (line_head _ _ Hx) as [Hc Hx'].
  destruct (N.eqb c BANG); [injection H as <- <-; split; [exact I | exact Hx'] |].
  destruct (N.eqb c LPAR); [injection H as <- <-; split; [exact I | exact Hx'] |].
  destruct (N.eqb c RPAR); [injection H as <- <-; split; [exact I | exact Hx'] |].
  destruct (is_space c); [now apply (IH t r) |].
  destruct (N.eqb c AMP).
  { destruct x as [| d x]; [discriminate |]. destruct (N.eqb d AMP); [| discriminate]. injection H as <- <-. split; [exact I |]. now apply line_head in Hx' as [_ Hx']. }
  destruct (N.eqb c PIPE).
  { destruct x as [| d x]; [discriminate |]. destruct (N.eqb d PIPE); [| discriminate]. injection H as <- <-. split; [exact I |]. now apply line_head in Hx' as [_ Hx']. }
  change (bind (parse_literal (S (List.length (c :: x))) [] (c :: x)) (fun '(v, r) => Ok (Some (TLit v, r))) = Ok (Some (t, r))) in H.
  destruct (parse_literal (S (List.length (c :: x))) [] (c :: x)) as [| [v r']] eqn:E; cbn [bind] in H; [discriminate |].
  injection H as <- <-. eapply line_literal; [exact E | intros [] | exact Hx].
Qed.
Lemma line_lex n : forall x ts, lex_loop n x = Ok ts -> one_line x -> forall t, In t ts -> line_tok t.
Proof.
  induction n as [| n IH]; intros x ts H Hx t Ht; [discriminate |]. cbn [lex_loop] in H. destruct (parse_token x) as [| [[t' r] |]] eqn:E; cbn [bind] in H; [discriminate | | injection H as <-; destruct Ht].
  destruct (line_token x _ _ E Hx) as [H1 H2]. destruct (lex_loop n r) as [| ts'] eqn:E2; cbn [bind] in H; [discriminate |]. injection H as <-.
  destruct Ht as [<- | Ht]; [exact H1 | eapply IH; eauto].
Qed.
Lemma line_commands ts : (forall t, In t ts -> line_tok t) -> forall cur, (forall x, In x cur -> one_line x) ->
  forall args, In (CCmd args) (make_commands_loop cur ts) -> forall x, In x args -> one_line x.
Proof.
  assert (Hf : forall cur r args, (forall x, In x cur -> one_line x) -> In (CCmd args) (flush cur r) -> In (CCmd args) r \/ forall x, In x args -> one_line x).
  { intros cur r args H K. destruct cur as [| a cur]; [now left |]. destruct K as [K | K]; [injection K as <-; now right | now left]. }
  induction ts as [| t ts IH]; intros Ht cur Hcur args Ha.
  - destruct (Hf _ _ _ Hcur Ha) as [[] | H]. exact H.
  - assert (Ht' : forall t, In t ts -> line_tok t) by (intros; apply Ht; now right).
    destruct t; cbn [make_commands_loop] in Ha;
      try (destruct (Hf _ _ _ Hcur Ha) as [[K | K] | K]; [discriminate K | eapply IH; [exact Ht' | | exact K]; intros ? [] | exact K]).
    eapply IH; [exact Ht' | | exact Ha]. intros y Hy. apply in_app_or in Hy as [Hy | [<- | []]]; [now apply Hcur | exact (Ht (TLit _) (or_introl eq_refl))].
Qed.
Lemma line_parse x cs : parse x = Ok cs -> one_line x -> forall args, In (CCmd args) cs -> forall y, In y args -> one_line y.
Proof.
  unfold parse, lex. destruct (lex_loop _ x) as [| ts] eqn:E; cbn [bind]; [discriminate |]. destruct (check_syntax _); cbn [bind]; [discriminate |].
  intros H Hx args Ha. injection H as <-. eapply line_commands; [| | exact Ha]; [intros t Ht; eapply line_lex; eauto | intros ? []].
Qed.
Definition object_texts (o : wobj) : list str :=
  match o with
  | OptionIs os vs _ _ => os ++ vs
  | OptionMatch os r _ _ => os ++ [r]
  | HasOption os => os
  | PositionalCount _ _ => []
  | PositionalContains _ _ vs => vs
  end.
Lemma strip_flags_incl args : forall ic any, incl (snd (strip_flags ic any args)) args.
Proof.
  induction args as [| a args IH]; intros ic any; cbn [strip_flags]; [apply incl_refl |]. destruct (str_eqb (lower a) _); [apply incl_tl, IH |].
  destruct (str_eqb (lower a) _); [apply incl_tl, IH | apply incl_refl].
Qed.
Lemma split_dashes_incl args : incl (fst (split_dashes args)) args /\ incl (snd (split_dashes args)) args.
Proof.
  induction args as [| a args IH]; cbn [split_dashes]; [split; apply incl_refl |]. destruct (str_eqb a _); cbn [fst snd]; [split; [intros ? [] | apply incl_tl, incl_refl] |].
  destruct (split_dashes args) as [o v]. cbn [fst snd] in *. destruct IH as [H1 H2]. split; [| now apply incl_tl].
  intros x [<- | Hx]; [now left | right; now apply H1].
Qed.
Lemma mk_test_incl ere args o : mk_test ere args = Ok o -> incl (object_texts o) args.
Proof.
  unfold mk_test. destruct args as [| cmd args]; [discriminate |]. intros H. apply incl_tl. revert H. destruct (str_eqb cmd _).
  { unfold mk_option_is. pose proof (strip_flags_incl args false false) as Hi. destruct (strip_flags _ _ _) as [[ic any] l]. cbn [snd] in Hi.
    pose proof (split_dashes_incl l) as [H1 H2]. destruct (split_dashes l) as [os vs]. cbn [fst snd] in *. destruct (negb _); [discriminate |].
    destruct os; [discriminate |]. destruct vs; [discriminate |]. intros H. injection H as <-. cbn [object_texts]. apply incl_app; eapply incl_tran; eauto. }
  destruct (str_eqb cmd _).
  { unfold mk_option_match. pose proof (strip_flags_incl args false false) as Hi. destruct (strip_flags _ _ _) as [[ic any] l]. cbn [snd] in Hi.
    pose proof (split_dashes_incl l) as [H1 H2]. destruct (split_dashes l) as [os vs]. cbn [fst snd] in *.
    intros H. destruct vs as [| v [| ? ?]]; [| | discriminate H]; destruct (negb _); try discriminate H; destruct os; try discriminate H.
    destruct v; [discriminate H |]. destruct (ere _); [| discriminate H]. injection H as <-. cbn [object_texts]. apply incl_app; eapply incl_tran; eauto. }
  destruct (str_eqb cmd _).
  { destruct args; [discriminate |]. intros H. injection H as <-. apply incl_refl. }
  destruct (str_eqb cmd _).
  { unfold mk_positional_count. destruct args as [| op [| n [| ? ?]]]; try discriminate; destruct (mems op operators) eqn:E; cbn [negb]; try discriminate.
    destruct (py_int n); [| discriminate]. intros H. injection H as <-. intros ? []. }
  destruct (str_eqb cmd _); [| discriminate].
  unfold mk_positional_contains. destruct args as [| a args]; [discriminate |]. intros H.
  destruct (str_eqb a (s "-i")).
  - destruct args as [| n values]; [discriminate H |]. destruct (py_int n); [| discriminate H]. destruct values; [discriminate H |]. injection H as <-. cbn [object_texts]. now do 2 apply incl_tl.
  - destruct (py_int a); [| discriminate H]. destruct args; [discriminate H |]. injection H as <-. cbn [object_texts]. now apply incl_tl.
Qed.
Lemma replace_commands_in ere ts : forall ws, replace_commands ere ts = Ok ws -> forall o, In (WObj o) ws -> exists args, In (CCmd args) ts /\ mk_test ere args = Ok o.
Proof.
  induction ts as [| t ts IH]; intros ws H o Ho; [injection H as <-; destruct Ho |]. cbn [replace_commands] in H.
  destruct t; cbn [bind] in H; try (destruct (mk_test ere args) as [| o'] eqn:Et; cbn [bind] in H; [discriminate H |]);
    (destruct (replace_commands ere ts) as [| r]; cbn [bind] in H; [discriminate H |]); injection H as <-;
    destruct Ho as [K | K]; try discriminate K;
    try (injection K as <-; exists args; split; [now left | exact Et]); destruct (IH r eq_refl o K) as (a & Ha & Hm); exists a; (split; [now right | exact Hm]).
Qed.
Lemma line_when ere e w k : good_zenv e -> zsh_when ere e w = Ok k -> one_line w -> one_line k.
Proof.
  intros (Hq & Hom & Hac) H Hw. unfold zsh_when, parse_when in H. destruct (parse w) as [[] | ts] eqn:Ep; cbn [bind] in H; try discriminate.
  destruct (replace_commands ere ts) as [| ws] eqn:Er; cbn [bind] in H; [discriminate |]. injection H as <-.
  assert (Ht : forall t, In t ws -> one_line (gen_token (zsh_test e) t)).
  { intros t Hin. destruct t; try no_lf. cbn [gen_token]. destruct (replace_commands_sound _ _ _ Er) as [_ Hs]. specialize (Hs o Hin).
    destruct (replace_commands_in _ _ _ Er o Hin) as (args & Ha & Hm). pose proof (mk_test_incl _ _ _ Hm) as Hi.
    assert (Hl : forall x, In x (object_texts o) -> one_line x) by (intros x Hx; eapply (line_parse w ts Ep Hw args Ha); now apply Hi).
    assert (Hq' : one_line (z_query e)) by (apply line_word, Hq). assert (Hom' : one_line (z_option_match e)) by (apply line_word, Hom).
    assert (Hac' : one_line (z_array_contains e)) by (apply line_word, Hac).
    assert (Hopt : forall b x y, In x (opt_word b y) -> x = y) by (intros [] x y K; [destruct K as [<- | []]; reflexivity | destruct K]).
    destruct o as [os vs ic any | os regex ic any | os | op n | ic n vs]; cbn [zsh_test object_texts] in *.
    - apply line_quoted. intros x Hx. rewrite !in_app_iff in Hx.
      destruct Hx as [[<- | [<- | []]] | [Hx | [Hx | [[<- | []] | [Hx | [[<- | []] | Hx]]]]]]; [exact Hq' | no_lf | apply Hopt in Hx as ->; no_lf | apply Hopt in Hx as ->; no_lf | no_lf | apply Hl, in_or_app; now left | no_lf | apply Hl, in_or_app; now right].
    - apply line_quoted. intros x Hx. rewrite !in_app_iff in Hx.
      destruct Hx as [[<- | []] | [Hx | [Hx | [[<- | []] | [Hx | [[<- | []] | Hx]]]]]]; [exact Hom' | apply Hopt in Hx as ->; no_lf | apply Hopt in Hx as ->; no_lf | no_lf | apply Hl, in_or_app; now left | no_lf | apply Hl, in_or_app; now right].
    - apply line_quoted. intros x [<- | [<- | Hx]]; [exact Hq' | no_lf | now apply Hl].
    - unfold gen_positional_count. apply line_app; [no_lf |]. apply line_app; [destruct Hs as [<- | [<- | [<- | [<- | [<- | [<- | []]]]]]]; no_lf |].
      apply line_app; [no_lf |]. apply line_app; [apply line_z | no_lf].
    - unfold zsh_positional_contains. pose proof (line_quoted vs Hl) as Hv. destruct ic; (apply line_app; [exact Hac' |]; apply line_app; [no_lf |]; apply line_app; [apply line_z |]; apply line_app; [no_lf |]); [now apply line_lower | exact Hv]. }
  assert (one_line (sp_join (map (gen_token (zsh_test e)) ws))) as Hj.
  { apply line_join; [no_lf |]. intros x Hx. apply in_map_iff in Hx as (t & <- & Hin). now apply Ht. }
  unfold gen_tokens. destruct (needs_braces ws); [| exact Hj]. apply line_app; [no_lf |]. apply line_app; [exact Hj | no_lf].
Qed.

(** ** Specifications *)
Lemma line_escape x : one_line x -> one_line (escape_colon x).
Proof. intros H. apply line_replace; [no_lf | exact H]. Qed.
Lemma line_escape_loop n : forall x y, escape_colon_loop n x = Ok y -> one_line x -> one_line y.
Proof.
  induction n as [| n IH]; intros x y H Hx; [discriminate |]. cbn [escape_colon_loop] in H. destruct x as [| c x]; [injection H as <-; exact Hx |].
  apply line_head in Hx as [Hc Hx]. destruct (N.eqb c SQ).
  - destruct (single_quote_loop x) as [| [v r]] eqn:E; cbn [bind] in H; [discriminate |]. destruct (line_single _ _ _ E Hx) as [Hv Hr].
    destruct (escape_colon_loop n r) as [| t] eqn:E2; cbn [bind] in H; [discriminate |]. apply HelpersMore.Ok_inj in H as <-.
    apply line_app; [no_lf |]. apply line_app; [apply line_replace; [no_lf | exact Hv] |]. apply line_app; [no_lf | eapply IH; eauto].
  - destruct (N.eqb c DQ).
    + destruct (double_quote_loop x) as [| [v r]] eqn:E; cbn [bind] in H; [discriminate |]. destruct (line_double _ _ (le_n _) _ _ E Hx) as [Hv Hr].
      destruct (escape_colon_loop n r) as [| t] eqn:E2; cbn [bind] in H; [discriminate |]. apply HelpersMore.Ok_inj in H as <-.
      apply line_app; [no_lf |]. apply line_app; [apply line_replace; [no_lf | exact Hv] |]. apply line_app; [no_lf | eapply IH; eauto].
    + destruct (escape_colon_loop n x) as [| t] eqn:E2; cbn [bind] in H; [destruct (N.eqb c COLON); discriminate |].
      destruct (N.eqb c COLON); apply HelpersMore.Ok_inj in H as <-; [apply line_app; [no_lf | eapply IH; eauto] | apply line_cons; [exact Hc | eapply IH; eauto]].
Qed.
Lemma line_escape_action x y : escape_colon_in_quoted_string x = Ok y -> one_line x -> one_line y.
Proof. unfold escape_colon_in_quoted_string. destruct (negb _); [intros H; injection H as <-; auto | apply line_escape_loop]. Qed.
Lemma shown_In c x : In c x -> is_space c = false -> shown x.
Proof. intros Hc Hs. unfold shown. apply not_true_is_false. rewrite forallb_forall. intros H. rewrite (H c Hc) in Hs. discriminate. Qed.
Lemma marked_In strings complete optional sep opts : marked_option_strings strings complete optional sep = Ok opts ->
  forall y, In y opts -> exists x mark, In x strings /\ y = x ++ mark /\ one_line mark.
Proof.
  intros H y Hy. unfold marked_option_strings in H.
  assert (forall f : str -> str, (forall x, exists mark, f x = x ++ mark /\ one_line mark) -> In y (map f strings) -> exists x mark, In x strings /\ y = x ++ mark /\ one_line mark) as G.
  { intros f Hf K. apply in_map_iff in K as (x & <- & Hx). destruct (Hf x) as (mark & E & Hm). exists x, mark. auto. }
  destruct (complete && optional).
  - apply HelpersMore.Ok_inj in H as <-. eapply G; [| exact Hy]. intros x. cbn beta. destruct (two_chars x); eexists; (split; [reflexivity | no_lf]).
  - destruct complete.
    + destruct sep; [discriminate H | ..]; apply HelpersMore.Ok_inj in H as <-; (eapply G; [| exact Hy]); intros x; cbn beta; destruct (two_chars x);
        try (eexists; split; [reflexivity | no_lf]); exists []; split; [now rewrite app_nil_r | intros []].
    + injection H as <-. exists y, []. split; [exact Hy |]. split; [now rewrite app_nil_r | intros []].
Qed.
Lemma line_option_spec strings conflicting help complete optional repeatable hidden final metavar action sep text :
  make_option_spec strings conflicting help complete optional repeatable hidden final metavar action sep = Ok text ->
  (forall x, In x (strings ++ conflicting) -> one_line x) -> strings <> [] -> (forall x, In x strings -> In DASH x) ->
  one_line_text help -> one_line_text metavar -> one_line action -> one_line text /\ shown text.
Proof.
  intros H Hs Hn Hd Hh Hm Ha. unfold make_option_spec in H.
  destruct (marked_option_strings strings complete optional sep) as [| opts] eqn:Eo; cbn [bind] in H; [discriminate |].
  pose proof (marked_In _ _ _ _ _ Eo) as Hmark.
  match type of H with bind ?a _ = _ => destruct a as [| arg] eqn:Earg end; cbn [bind] in H; [discriminate |]. apply HelpersMore.Ok_inj in H as <-.
  assert (Hopts : forall y, In y opts -> one_line y).
  { intros y Hy. destruct (Hmark y Hy) as (x & mark & Hx & -> & Hk). apply line_app; [| exact Hk]. apply Hs, in_or_app. now left. }
  assert (Hoptsn : exists y, In y opts /\ In DASH y).
  { destruct opts as [| y opts]; [| exists y; split; [now left |]; destruct (Hmark y (or_introl eq_refl)) as (x & mark & Hx & -> & _); apply in_or_app; left; auto].
    exfalso. unfold marked_option_strings in Eo. destruct strings as [| x0 xs]; [congruence |].
    destruct (complete && optional); [discriminate Eo |]. destruct complete; [destruct sep; discriminate Eo | discriminate Eo]. }
  assert (Harg : one_line arg).
  { destruct complete; [| injection Earg as <-; intros []]. destruct (escape_colon_in_quoted_string action) as [| a] eqn:Ea; cbn [bind] in Earg; [discriminate |].
    apply HelpersMore.Ok_inj in Earg as <-. apply line_app; [no_lf |]. apply line_app; [| apply line_app; [no_lf | eapply line_escape_action; eauto]].
    apply line_quote, line_escape. destruct metavar; [exact Hm | no_lf]. }
  assert (Hnots : forall x, In x (not_options strings conflicting repeatable final) -> one_line x).
  { intros x Hx. unfold not_options in Hx. destruct final; [destruct Hx as [<- | []]; no_lf |]. apply in_app_or in Hx as [Hx | Hx].
    - apply in_map_iff in Hx as (y & <- & Hy). apply line_escape, Hs, in_or_app. right. eapply Permutation_in; [apply sort_strs_perm | exact Hy].
    - destruct repeatable; [destruct Hx |]. apply in_map_iff in Hx as (y & <- & Hy). apply line_escape, Hs, in_or_app. left. eapply Permutation_in; [apply sort_strs_perm | exact Hy]. }
  split.
  - apply line_app; [destruct hidden; no_lf |]. apply line_app.
    { destruct (nonempty _); [| intros []]. apply line_quote. apply line_app; [no_lf |]. apply line_app; [| no_lf]. apply line_join; [no_lf |].
      intros x Hx. apply Hnots. refine (proj1 (uniq_In str_eqb (list_eq_dec N.eq_dec) _ _ _) Hx). intros a b. apply iff_reflect. symmetry. apply str_eqb_eq. }
    apply line_app; [destruct repeatable; no_lf |]. apply line_app.
    { destruct opts as [| o1 [| o2 opts]]; [no_lf | apply Hopts; now left |]. apply line_app; [no_lf |]. apply line_app; [apply line_join; [no_lf | exact Hopts] | no_lf]. }
    apply line_app; [| exact Harg]. destruct help as [d |]; [| intros []]. apply line_quote. apply line_app; [no_lf |]. apply line_app; [| no_lf].
    apply line_escape. unfold escape_square_brackets. repeat (apply line_replace; [no_lf |]). exact Hh.
  - apply (shown_In DASH); [| reflexivity]. apply in_or_app; right. apply in_or_app; right. apply in_or_app; right. apply in_or_app; left.
    destruct Hoptsn as (y & Hy & HyD). destruct opts as [| o1 [| o2 opts]]; [destruct Hy | destruct Hy as [<- | []]; exact HyD |].
    apply in_or_app; right. apply in_or_app; left. set (l := o1 :: o2 :: opts) in *. clearbody l. clear -Hy HyD. induction l as [| a l IH]; [destruct Hy |].
    destruct l as [| b l]; [destruct Hy as [<- | []]; exact HyD |]. change (join [COMMA] (a :: b :: l)) with (a ++ [COMMA] ++ join [COMMA] (b :: l)).
    destruct Hy as [<- | Hy]; [apply in_or_app; now left |]. apply in_or_app; right. apply in_or_app; right. now apply IH.
Qed.
Lemma line_show_nat n : one_line (show_nat n).
Proof. intros K. apply show_nat_safe in K. discriminate. Qed.
Lemma line_show_Z z : one_line (show_Z z).
Proof. unfold show_Z. destruct (z <? 0)%Z; [apply line_cons; [discriminate |] |]; apply line_show_nat. Qed.
Lemma line_positional_spec number repeatable description action text : make_positional_spec number repeatable description action = Ok text ->
  one_line description -> one_line action -> one_line text /\ shown text.
Proof.
  intros H Hd Ha. unfold make_positional_spec in H.
  assert (Hnum : one_line (if repeatable then s "'*'" else show_Z number)) by (destruct repeatable; [no_lf | apply line_show_Z]).
  assert (Hdesc : one_line (quote (escape_colon description))) by now apply line_quote, line_escape.
  destruct (str_eqb action (s "_normal")).
  - apply HelpersMore.Ok_inj in H as <-. split; [repeat (apply line_app; [assumption || no_lf |]); exact Ha |].
    apply (shown_In COLON); [| reflexivity]. apply in_or_app; right. apply in_or_app; left. now left.
  - destruct (escape_colon_in_quoted_string action) as [| a] eqn:Ea; cbn [bind] in H; [discriminate |]. apply HelpersMore.Ok_inj in H as <-.
    split; [repeat (apply line_app; [assumption || no_lf |]); eapply line_escape_action; eauto |].
    apply (shown_In COLON); [| reflexivity]. apply in_or_app; right. apply in_or_app; left. now left.
Qed.
