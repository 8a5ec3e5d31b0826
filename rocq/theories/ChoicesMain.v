(** * Proofs: the choices that are offered are those of the definition. *)
From Verif Require Import Base PyStr Value Cli StrUtils StrUtilsProofs Preproc Shell SpecShell ShellProofs WhenProofs ZshUtils SpecZsh ZshReading ZshSpecs
  Helpers HelpersMore Choices SpecChoices ChoicesEmit ChoicesZsh ChoicesFish ParserPaths.
Open Scope list_scope.

Section Show.
Variable show : value -> str.
Notation meant := (meant show).

Lemma py_text v : py_str show v = text_of show v.
Proof. reflexivity. Qed.
Lemma Forall2_map2 {A B C} (R : B -> C -> Prop) (f : A -> B) (g : A -> C) l : (forall x, In x l -> R (f x) (g x)) -> Forall2 R (map f l) (map g l).
Proof. intros H. induction l as [| x l IH]; constructor; [apply H; now left | apply IH; intros y Hy; apply H; now right]. Qed.

(** texts that are no trouble for [quote], the placeholders and the lines of a function *)
Definition calm (x : str) : Prop := one_line x = true /\ contains FN x = false.
Lemma text_ok_quote x : calm x -> text_ok (quote x).
Proof.
  intros [H1 H2]. split; [now apply one_line_quote |]. split; [now apply contains_quote |].
  destruct (quote_start x) as (c & q & E & Hc). exists c, q. split; [exact E |]. split; [now apply start_space |]. now apply start_neq.
Qed.
Lemma calm_escape x : calm x -> calm (escape_colon x).
Proof. intros [H1 H2]. split; [now apply one_line_escape | now apply contains_escape]. Qed.
Lemma ends_quote x : ends_ok (quote x).
Proof. destruct (quote_end x) as (c & q & E & Hc). exists q, c. split; [exact E | now apply start_space]. Qed.
Lemma hd_escape x : hd 0%N x <> EQ -> hd 0%N (escape_colon x) <> EQ.
Proof. unfold escape_colon. destruct x as [| c x]; intros H; [exact H |]. cbn [replace_c]. destruct (N.eqb c COLON); [discriminate | exact H]. Qed.

(** ** zsh *)
Lemma action_inj a b : ZAction a = ZAction b -> a = b.
Proof. now intros [= ->]. Qed.
Lemma function_inj a b : ZFunction a = ZFunction b -> a = b.
Proof. now intros [= ->]. Qed.
Lemma zsh_short metavar len ch text : zsh_choices show metavar len ch = Ok (ZAction text) -> accepted ch ->
  (forall t d, In (t, d) (meant ch) -> hd 0%N t <> EQ /\ match ch with CList _ => True | CDict _ => ~ In BS t /\ ~ In BS d end) ->
  zsh_action_text text = Some (meant ch).
Proof.
  intros H Ha Ht. destruct ch as [l | d]; cbn [zsh_choices] in H.
  - unfold zsh_list_action in H. destruct (_ <=? _)%nat.
    + apply HelpersMore.Ok_inj, action_inj in H as <-. rewrite action_text by discriminate.
      rewrite (action_plain (map (fun v => quote (py_str show v)) l) (map (text_of show) l)).
      * cbn [SpecChoices.meant]. now rewrite map_map.
      * apply Forall2_map2. intros v Hv. apply zword_quote. apply (Ht (text_of show v) []). cbn [SpecChoices.meant]. apply in_map_iff. now exists v.
      * intros t Hi. apply in_map_iff in Hi as (v & <- & _). destruct (quote_start (py_str show v)) as (c & q & E & Hc). exists c, q. split; [exact E |]. now apply start_neq.
    + unfold bind in H. destruct (zsh_list_function _ _ _); discriminate.
  - unfold zsh_dict_action in H. destruct (negb _ && _)%bool eqn:E; [| discriminate]. apply HelpersMore.Ok_inj, action_inj in H as <-. rewrite action_text by discriminate.
    apply andb_true_iff in E as [E _]. apply negb_true_iff in E.
    assert (forall k v, In (k, v) d -> str0 show k = text_of show k /\ ~ In COLON (text_of show k)) as Hk.
    { intros k v Hi. cbn [accepted] in Ha. rewrite Forall_forall in Ha. specialize (Ha _ Hi) as [Hs _]. assert (str0 show k = text_of show k) as Ek by (destruct k; [destruct Hs | reflexivity ..]).
      split; [exact Ek |]. rewrite <- Ek. intros K. apply memc_In in K. 
      assert (existsb (fun kv => memc COLON (str0 show (fst kv)) || memc COLON (str0 show (snd kv))) d = true); [| congruence].
      apply existsb_exists. exists (k, v). split; [exact Hi |]. cbn [fst snd]. now rewrite K. }
    rewrite (action_described (map (zsh_dict_item show) d) (map (fun kv => escape_colon (text_of show (fst kv)) ++ (match str0 show (snd kv) with [] => [] | desc => COLON :: desc end)) d)).
    + f_equal. cbn [SpecChoices.meant]. rewrite map_map. apply map_ext_in. intros [k v] Hi. cbn [fst snd].
      destruct (Ht (text_of show k) (str0 show v)) as (_ & B1 & B2). { cbn [SpecChoices.meant]. apply in_map_iff. exists (k, v). split; [now destruct v | exact Hi]. }
      assert (match v with VNone => [] | _ => text_of show v end = str0 show v) as -> by (now destruct v).
      destruct (str0 show v) as [| c desc]; [rewrite app_nil_r; now apply describe_text | now apply describe_both].
    + apply Forall2_map2. intros [k v] Hi. destruct (Hk k v Hi) as (Ek & Hc). unfold zsh_dict_item. cbn [fst snd]. rewrite Ek, escape_colon_id by exact Hc.
      destruct (Ht (text_of show k) (str0 show v)) as (He & B1 & B2). { cbn [SpecChoices.meant]. apply in_map_iff. exists (k, v). split; [now destruct v | exact Hi]. }
      destruct (str0 show v) as [| c desc]; [rewrite !app_nil_r; now apply zword_quote |].
      apply zword_app; [now apply zword_quote |]. change (s ":" ++ quote (c :: desc)) with ([COLON] ++ quote (c :: desc)). change (COLON :: c :: desc) with ([COLON] ++ (c :: desc)).
      apply reads_app; [apply reads_bare; [reflexivity | intros [K | []]; discriminate ..] | apply reads_quote].
Qed.

Lemma wrapped_lines psep ssep max items : items <> [] -> exists ls, join_with_wrap psep ssep max items [] = join ssep (map (join psep) ls) /\
  concat ls = items /\ (forall l, In l ls -> l <> []) /\ ls <> [].
Proof.
  intros Hn. destruct (join_with_wrap_plain psep ssep max items []) as (ls & E & H1 & H2 & _). exists ls. split; [exact E |]. split; [exact H1 |]. split; [exact H2 |].
  intros ->. now apply Hn.
Qed.
Lemma concat_Forall {A} (P : A -> Prop) ls : Forall P (concat ls) -> Forall (Forall P) ls.
Proof. induction ls as [| l ls IH]; intros H; [constructor |]. cbn [concat] in H. apply Forall_app in H as [H1 H2]. constructor; auto. Qed.
Lemma concat_Forall2 {A B} (R : A -> B -> Prop) ls : forall vs, Forall2 R (concat ls) vs -> exists vss, Forall2 (Forall2 R) ls vss /\ concat vss = vs.
Proof.
  induction ls as [| l ls IH]; intros vs H; [inversion H; subst; exists []; split; [constructor | reflexivity] |].
  cbn [concat] in H. apply Forall2_app_inv_l in H as (v1 & v2 & H1 & H2 & ->). destruct (IH v2 H2) as (vss & H3 & <-).
  exists (v1 :: vss). split; [now constructor | reflexivity].
Qed.
Lemma indent_join (sep : str) lines : Forall (fun l => ~ In LF l /\ forallb is_space l = false) lines -> lines <> [] ->
  indent (join [LF] lines) 2 = join [LF] (map (fun l => s "  " ++ l) lines).
Proof.
  intros H Hn. rewrite indent_lines_eq, split_join_c; [| exact Hn | intros w Hw; rewrite Forall_forall in H; now apply H].
  f_equal. apply map_ext_in. intros l Hl. rewrite Forall_forall in H. unfold indent_line. destruct (H l Hl) as [_ ->]. reflexivity.
Qed.

Lemma zsh_long metavar len ch code name : zsh_choices show metavar len ch = Ok (ZFunction code) -> only_strings ch ->
  hd 0%N metavar <> EQ -> calm metavar ->
  (forall t d, In (t, d) (meant ch) -> hd 0%N t <> EQ /\ (~ In BS t /\ ~ In BS d) /\ calm t /\ calm d) ->
  exists text, get_code ShellFunction (strip_p is_space code) name [] = Ok text /\ zsh_function name text = Some (meant ch).
Proof.
  intros H Ha Hm1 [Hm2 Hm3] Ht. destruct ch as [l | d]; cbn [zsh_choices] in H.
  - unfold zsh_list_action in H. destruct (_ <=? _)%nat eqn:El; [discriminate |]. unfold bind in H.
    destruct (zsh_list_function metavar len l) as [e | code'] eqn:E; [discriminate |]. apply HelpersMore.Ok_inj, function_inj in H as ->.
    unfold zsh_list_function in E. 
    assert (map_res escape_colon_value l = Ok (map (fun v => escape_colon (text_of show v)) l)) as Em.
    { clear - Ha. cbn [only_strings] in Ha. induction Ha as [| v l Hv _ IH]; [reflexivity |]. cbn [map_res map]. destruct v; try destruct Hv. cbn [escape_colon_value bind text_of]. now rewrite IH. }
    rewrite Em in E. cbn [bind] in E. apply HelpersMore.Ok_inj in E as <-.
    assert (l <> []) as Hn by (intros ->; discriminate El).
    rewrite map_map. set (items := map (fun v => quote (escape_colon (text_of show v))) l).
    destruct (wrapped_lines [SP] [LF] (len - 2) items) as (ls & E & E1 & E2 & E3); [unfold items; destruct l; [contradiction | discriminate] |].
    assert (Forall text_ok items) as Hok.
    { apply Forall_forall. intros t Hi. apply in_map_iff in Hi as (v & <- & Hv). apply text_ok_quote, calm_escape.
      apply (Ht (text_of show v) []). cbn [SpecChoices.meant]. apply in_map_iff. now exists v. }
    assert (Forall2 zword items (map (fun v => escape_colon (text_of show v)) l)) as Hw.
    { apply Forall2_map2. intros v Hv. apply zword_quote, hd_escape. apply (Ht (text_of show v) []). cbn [SpecChoices.meant]. apply in_map_iff. now exists v. }
    rewrite <- E1 in Hok, Hw. apply concat_Forall in Hok. apply concat_Forall2 in Hw as (vss & Hw & Ev).
    assert (Forall (fun ts => ts <> [] /\ Forall text_ok ts) ls) as Hls.
    { rewrite Forall_forall in Hok |- *. intros ts Hts. auto. }
    destruct (function_ok name metavar ls vss E3 Hls Hw Hm1 Hm2 Hm3) as (text & G1 & G2). exists text. split.
    + rewrite <- G1. f_equal. f_equal. rewrite E. unfold code_lines. rewrite (indent_join []).
      * rewrite map_map. destruct ls as [| ts ls]; [contradiction |].
        change (join [LF] (?a :: map ?f (?b :: ?c) ++ ?d)) with (join [LF] ([a] ++ (map f (b :: c) ++ d))). rewrite !join_app by discriminate. cbn [join]. now rewrite <- ?app_assoc.
      * apply Forall_forall. intros x Hx. apply in_map_iff in Hx as (ts & <- & Hts). rewrite Forall_forall in Hls. destruct (Hls ts Hts) as [K1 K2].
        split; [apply one_line_no_lf; now apply join_free |]. destruct (join_first ts K2 K1) as (c & q & -> & Hc & _). cbn [forallb]. now rewrite Hc.
      * destruct ls; [contradiction | discriminate].
    + rewrite G2, Ev. f_equal. cbn [SpecChoices.meant]. rewrite map_map. apply map_ext_in. intros v Hv. apply describe_text.
      apply (Ht (text_of show v) []). cbn [SpecChoices.meant]. apply in_map_iff. now exists v.
  - unfold zsh_dict_action in H. destruct (negb _ && _)%bool eqn:El; [discriminate |]. apply HelpersMore.Ok_inj, function_inj in H as <-.
    assert (d <> []) as Hn by (intros ->; discriminate El).
    set (line := fun kv : value * value => quote (escape_colon (py_str show (fst kv))) ++ (if truthy (snd kv) then s ":" ++ quote (py_str show (snd kv)) else [])).
    set (word := fun kv : value * value => escape_colon (text_of show (fst kv)) ++ (if truthy (snd kv) then COLON :: text_of show (snd kv) else [])).
    assert (forall k v, In (k, v) d -> In (text_of show k, match v with VNone => [] | _ => text_of show v end) (meant (CDict d))) as Hin.
    { intros k v Hi. cbn [SpecChoices.meant]. apply in_map_iff. now exists (k, v). }
    assert (forall k v, In (k, v) d -> truthy v = true -> match v with VNone => [] | _ => text_of show v end = text_of show v) as Hd by (now destruct v).
    cbn [only_strings] in Ha. rewrite Forall_forall in Ha.
    destruct (function_ok name metavar (map (fun kv => [line kv]) d) (map (fun kv => [word kv]) d)) as (text & G1 & G2); try assumption.
    + destruct d; [contradiction | discriminate].
    + apply Forall_forall. intros ts Hi. apply in_map_iff in Hi as ([k v] & <- & Hi). split; [discriminate |]. constructor; [| constructor].
      destruct (Ht _ _ (Hin k v Hi)) as (_ & _ & Ck & Cv). unfold line. cbn [fst snd]. destruct (text_ok_quote _ (calm_escape _ Ck)) as (T1 & T2 & c & q & Eq & T3 & T4).
      change (py_str show k) with (text_of show k). change (py_str show v) with (text_of show v). destruct (truthy v) eqn:Ev.
      * rewrite (Hd k v Hi Ev) in Cv. destruct (text_ok_quote _ Cv) as (T1' & T2' & _). split; [| split].
        -- now rewrite !one_line_app, T1, T1'.
        -- now apply contains_stop2.
        -- rewrite Eq. cbn [app]. eauto.
      * rewrite app_nil_r. split; [exact T1 |]. split; [exact T2 |]. eauto.
    + apply Forall2_map2. intros [k v] Hi. constructor; [| constructor]. unfold line, word. cbn [fst snd].
      destruct (Ht _ _ (Hin k v Hi)) as (He & _ & _ & _). apply zword_app; [now apply zword_quote, hd_escape |].
      destruct (truthy v); [| apply reads_nil]. change (s ":" ++ quote (py_str show v)) with ([COLON] ++ quote (text_of show v)). change (COLON :: text_of show v) with ([COLON] ++ text_of show v).
      apply reads_app; [apply reads_bare; [reflexivity | intros [K | []]; discriminate ..] | apply reads_quote].
    + exists text. split.
      * rewrite <- G1. f_equal. f_equal. unfold zsh_dict_function, code_lines. rewrite map_map. cbn [join].
        assert (concat (map (zsh_dict_line show) d) = join [LF] (map (fun kv => s "  " ++ line kv) d) ++ [LF]) as ->.
        { clear - Hn. induction d as [| kv d IH]; [contradiction |]. destruct d as [| kv' d].
          - cbn [map concat join]. rewrite app_nil_r. unfold zsh_dict_line, line. now rewrite <- !app_assoc.
          - cbn [map concat] in IH |- *. rewrite IH by discriminate. rewrite join_cons. set (r := join [LF] _). unfold zsh_dict_line, line. now rewrite <- !app_assoc. }
        destruct d as [| kv d]; [contradiction |].
        change (join [LF] (?a :: map ?f (?b :: ?c) ++ ?e)) with (join [LF] ([a] ++ (map f (b :: c) ++ e))). rewrite !join_app by discriminate. cbn [join]. now rewrite <- ?app_assoc.
      * rewrite G2. f_equal. assert (forall l, concat (map (fun kv => [word kv]) l) = map word l) as -> by (induction l as [| kv l IH]; [reflexivity |]; cbn [map concat app]; now rewrite IH).
        cbn [SpecChoices.meant]. rewrite map_map. apply map_ext_in. intros [k v] Hi.
        unfold word. cbn [fst snd]. destruct (Ht _ _ (Hin k v Hi)) as (_ & (B1 & B2) & _). destruct (Ha (k, v) Hi) as [_ Hv].
        destruct v; try (destruct Hv as [[] | Hv]; discriminate Hv); cbn [truthy]; [rewrite app_nil_r; now apply describe_text |].
        destruct x as [| c x]; [rewrite app_nil_r; now apply describe_text | now apply describe_both].
Qed.
Lemma zsh_total metavar len ch : only_strings ch -> exists out, zsh_choices show metavar len ch = Ok out.
Proof.
  intros H. destruct ch as [l | d]; [| now eexists]. cbn [zsh_choices]. unfold zsh_list_action. destruct (_ <=? _)%nat; [now eexists |].
  assert (exists items, map_res escape_colon_value l = Ok items) as (items & E).
  { cbn [only_strings] in H. induction H as [| v l Hv _ (items & E)]; [now eexists |]. cbn [map_res]. destruct v; try destruct Hv. cbn [escape_colon_value bind]. rewrite E. now eexists. }
  unfold zsh_list_function. rewrite E. now eexists.
Qed.

(** ** fish *)
Definition fish_fine (x : str) : Prop := ~ In BS x /\ ~ In BTICK x.
Lemma str0_desc v : str0 show v = match v with VNone => [] | _ => text_of show v end.
Proof. now destruct v. Qed.
Lemma fish_short ch : (forall t d, In (t, d) (meant ch) -> fish_fine t /\ fish_fine d /\ ~ In TAB t) ->
  fish_argument (fish_inline show ch) = Some (meant ch).
Proof.
  intros Ht. destruct ch as [l | d]; cbn [fish_inline].
  - rewrite (argument_ok _ (map (text_of show) l)).
    + f_equal. cbn [SpecChoices.meant]. rewrite map_map. apply map_ext_in. intros v Hv. apply candidate_text. apply (Ht (text_of show v) []). cbn [SpecChoices.meant]. apply in_map_iff. now exists v.
    + apply Forall2_map2. intros v Hv. destruct (Ht (text_of show v) []) as ((B1 & B2) & _); [cbn [SpecChoices.meant]; apply in_map_iff; now exists v |]. now apply fword_quote.
  - assert (forall k v, In (k, v) d -> In (text_of show k, str0 show v) (meant (CDict d))) as Hin.
    { intros k v Hi. rewrite str0_desc. cbn [SpecChoices.meant]. apply in_map_iff. now exists (k, v). }
    rewrite (argument_ok _ (map (fun kv => text_of show (fst kv) ++ TAB :: str0 show (snd kv)) d)).
    + f_equal. cbn [SpecChoices.meant]. rewrite map_map. apply map_ext_in. intros [k v] Hv. cbn [fst snd]. rewrite <- str0_desc. apply candidate_both. now apply (Ht _ _ (Hin k v Hv)).
    + apply Forall2_map2. intros [k v] Hv. cbn [fst snd]. destruct (Ht _ _ (Hin k v Hv)) as ((B1 & B2) & (B3 & B4) & _).
      change (text_of show k ++ TAB :: str0 show v) with (text_of show k ++ [TAB] ++ str0 show v).
      apply fword_app; [now apply fword_quote |]. apply fword_app; [apply fword_tab | now apply fword_quote].
Qed.

Lemma rstrip_ends x : ends_ok x -> (forall q c, x = q ++ [c] -> memc c [SP; BS; LF] = false) -> rstrip_continuation x = x.
Proof. intros (q & c & -> & _) H. apply rstrip_last. eapply H. reflexivity. Qed.
Lemma end_memc c : (is_safe c = true \/ c = SQ \/ c = DQ) -> memc c [SP; BS; LF] = false.
Proof.
  intros H. destruct (memc c [SP; BS; LF]) eqn:E; [| reflexivity]. exfalso. apply memc_In in E. cbn [In] in E.
  destruct E as [<- | [<- | [<- | []]]]; destruct H as [H | [H | H]]; discriminate.
Qed.
Lemma join_last_quote (items : list str) ts : ts <> [] -> (forall t, In t ts -> exists x, t = quote x) -> exists q c, join [SP] ts = q ++ [c] /\ memc c [SP; BS; LF] = false.
Proof.
  intros Hn H. induction ts as [| t ts IH]; [contradiction |]. destruct ts as [| t' ts].
  - destruct (H t (or_introl eq_refl)) as (x & ->). destruct (quote_end x) as (c & q & E & Hc). exists q, c. split; [exact E | now apply end_memc].
  - destruct IH as (q & c & E & Hc); [discriminate | intros y Hy; apply H; now right |]. rewrite join_cons, E. exists (t ++ [SP] ++ q), c. split; [now rewrite <- !app_assoc | exact Hc].
Qed.
Definition closed (x : str) : Prop := exists q c, x = q ++ [c] /\ memc c [SP; BS; LF] = false.
Lemma closed_app y x : closed x -> closed (y ++ x).
Proof. intros (q & c & -> & Hc). exists (y ++ q), c. split; [now rewrite <- app_assoc | exact Hc]. Qed.
Lemma rstrip_tail x q c b : x = q ++ [c] -> memc c [SP; BS; LF] = false -> (forall d, In d b -> memc d [SP; BS; LF] = true) -> rstrip_continuation (x ++ b) = x.
Proof.
  intros -> Hc Hb. unfold rstrip_continuation, rstrip_p. rewrite !rev_app_distr. cbn [rev app].
  assert (forall r y, (forall d, In d r -> memc d [SP; BS; LF] = true) -> lstrip_p (fun c => memc c [SP; BS; LF]) (r ++ c :: y) = c :: y) as K.
  { induction r as [| d r IH]; intros y Hr; cbn [app lstrip_p]; [now rewrite Hc |]. rewrite (Hr d (or_introl eq_refl)). apply IH. intros e He. apply Hr. now right. }
  rewrite K by (intros d Hd; apply Hb; now apply in_rev). cbn [rev]. now rewrite rev_involutive.
Qed.

Lemma sq_plain c w r : N.eqb c SQ = false -> N.eqb c BS = false -> fish_args (Some FInSQ) w (c :: r) = fish_args (Some FInSQ) (push w c) r.
Proof. intros H1 H2. cbn [fish_args]. now rewrite H1, H2. Qed.
Lemma sq_esc c w r : memc c [SQ; BS] = false -> fish_args (Some FInSQ) w (BS :: c :: r) = fish_args (Some FInSQ) (push (push w BS) c) r.
Proof. intros H. change (fish_args (Some FInSQ) w (BS :: c :: r)) with (fish_args (Some FInSQEsc) w (c :: r)). cbn [fish_args]. now rewrite H. Qed.
Lemma sq_open w r : fish_args (Some FUnquoted) w (SQ :: r) = fish_args (Some FInSQ) (start w) r.
Proof. reflexivity. Qed.
Lemma sq_close w r : fish_args (Some FInSQ) w (SQ :: r) = fish_args (Some FUnquoted) w r.
Proof. reflexivity. Qed.
Lemma format_one : fword (s "'%s\n'") (s "%s\n").
Proof.
  intros w rest. change (s "'%s\n'" ++ rest) with (SQ :: 37 :: 115 :: BS :: 110 :: SQ :: rest)%N.
  rewrite sq_open, !sq_plain, sq_esc, sq_close by reflexivity. rewrite start_val, !push_val. cbn [wval]. rewrite <- !app_assoc. reflexivity.
Qed.
Lemma format_two : fword (s "'%s\t%s\n'") (s "%s\t%s\n").
Proof.
  intros w rest. change (s "'%s\t%s\n'" ++ rest) with (SQ :: 37 :: 115 :: BS :: 116 :: 37 :: 115 :: BS :: 110 :: SQ :: rest)%N.
  rewrite sq_open. do 2 rewrite sq_plain by reflexivity. rewrite sq_esc by reflexivity. do 2 rewrite sq_plain by reflexivity. rewrite sq_esc, sq_close by reflexivity.
  rewrite start_val, !push_val. cbn [wval]. rewrite <- !app_assoc. reflexivity.
Qed.
Lemma fish_long ch len name : (80 < List.length (fish_inline show ch))%nat ->
  (forall t d, In (t, d) (meant ch) -> fish_fine t /\ fish_fine d /\ ~ In TAB t /\ calm t /\ calm d) ->
  exists text, get_code FishFunction (strip_p is_space (fish_code show len ch)) name [] = Ok text /\ fish_function name text = Some (meant ch).
Proof.
  intros Hlen Ht. destruct ch as [l | d]; cbn [fish_code].
  - assert (l <> []) as Hn by (intros ->; cbn in Hlen; lia).
    set (items := map (fun v => quote (py_str show v)) l).
    assert (forall v, In v l -> In (text_of show v, []) (meant (CList l))) as Hin by (intros v Hv; cbn [SpecChoices.meant]; apply in_map_iff; now exists v).
    destruct (wrapped_lines [SP] [SP; BS; LF] (len - 2) items) as (ls & E & E1 & E2 & E3); [unfold items; destruct l; [contradiction | discriminate] |].
    assert (Forall text_ok items) as Hok by (apply Forall_forall; intros t Hi; apply in_map_iff in Hi as (v & <- & Hv); apply text_ok_quote; now apply (Ht _ _ (Hin v Hv))).
    assert (Forall ends_ok items) as He by (apply Forall_forall; intros t Hi; apply in_map_iff in Hi as (v & <- & Hv); apply ends_quote).
    assert (Forall2 fword items (map (text_of show) l)) as Hw.
    { apply Forall2_map2. intros v Hv. destruct (Ht _ _ (Hin v Hv)) as ((B1 & B2) & _). now apply fword_quote. }
    assert (forall ts, In ts ls -> forall t, In t ts -> exists x, t = quote x) as Hq.
    { intros ts Hts t Hi. assert (In t items) as K by (rewrite <- E1; apply in_concat; now exists ts). apply in_map_iff in K as (v & <- & _). now eexists. }
    rewrite <- E1 in Hok, He, Hw. apply concat_Forall in Hok. apply concat_Forall in He. apply concat_Forall2 in Hw as (vss & Hw & Ev).
    assert (Forall (fun ts => ts <> [] /\ Forall text_ok ts) ls) as Hls by (rewrite Forall_forall in Hok |- *; intros ts Hts; auto).
    destruct (fish_function_ok name (s "'%s\n'") (s "%s\n") ls vss E3 Hls He Hw) as (text & G1 & G2).
    { apply format_one. }
    { repeat split; reflexivity. }
    exists text. split.
    + rewrite <- G1. f_equal. f_equal. rewrite E.
      assert (indent (join [SP; BS; LF] (map (join [SP]) ls)) 2 = join [LF] (continued (map (fun ts => s "  " ++ join [SP] ts) ls))) as ->.
      { rewrite join_continued.
        assert (forall l0, (forall x, In x l0 -> ~ In LF x /\ forallb is_space x = false) -> Forall (fun x => ~ In LF x /\ forallb is_space x = false) (continued l0)) as K.
        { induction l0 as [| a l0 IH]; intros H; [constructor |]. destruct l0 as [| b l0]; [constructor; [apply H; now left | constructor] |].
          rewrite continued_cons by discriminate. constructor; [| apply IH; intros x Hx; apply H; now right].
          destruct (H a (or_introl eq_refl)) as [K1 K2]. split; [| rewrite forallb_app, K2; reflexivity].
          intros Hi. apply in_app_iff in Hi as [Hi | [Hi | [Hi | []]]]; [contradiction | discriminate ..]. }
        rewrite (indent_join []).
        - f_equal. rewrite <- (map_map (join [SP]) (fun l => s "  " ++ l)). generalize (map (join [SP]) ls) as m. induction m as [| a m IH]; [reflexivity |].
          destruct m as [| b m]; [reflexivity |]. rewrite continued_cons by discriminate. cbn [map] in IH |- *. rewrite IH. rewrite (continued_cons (s "  " ++ a)) by (intros K'; discriminate K'). now rewrite <- app_assoc.
        - apply K. intros x Hx. apply in_map_iff in Hx as (ts & <- & Hts). rewrite Forall_forall in Hls. destruct (Hls ts Hts) as [K1 K2].
          split; [apply one_line_no_lf; now apply join_free |]. destruct (join_first ts K2 K1) as (c & q & -> & Hc & _). cbn [forallb]. now rewrite Hc.
        - destruct ls as [| a [| b ls]]; [contradiction | discriminate ..]. }
      unfold fish_lines.
      assert (exists p c, s "printf '%s\n' \" ++ [LF] ++ join [LF] (continued (map (fun ts => s "  " ++ join [SP] ts) ls)) = p ++ [c] /\ memc c [SP; BS; LF] = false) as (p & c & Ep & Hc).
      { rewrite <- join_continued. destruct (exists_last E3) as (l' & ts & El). destruct (join_last_quote [] ts) as (q & c & Eq & Hc); [apply E2; rewrite El; apply in_app_iff; right; now left | apply Hq; rewrite El; apply in_app_iff; right; now left |].
        rewrite El, map_app. cbn [map]. rewrite Eq. destruct l' as [| a l'].
        - apply (closed_app (s "printf '%s\n' \")), (closed_app [LF]), (closed_app (s "  ")). exists q, c. now split.
        - rewrite join_snoc by discriminate. do 5 apply closed_app. exists q, c. now split. }
      rewrite <- (app_nil_r (s "printf '%s\n' \" ++ [LF] ++ join [LF] _)). rewrite (rstrip_tail _ p c [] Ep Hc) by (intros ? []).
      destruct (continued _) as [| y ys] eqn:Ec; [destruct ls as [| a [| b ls]]; [contradiction | discriminate ..] |]. rewrite join_cons. reflexivity.
    + rewrite G2, Ev. change (fish_printf (s "%s\n") ?a) with (Some (concat (map (fun x : str => x ++ [LF]) (match a with [] => [[]] | _ => a end)))). cbn [option_map].
      destruct (map (text_of show) l) as [| x0 xs] eqn:Ex; [destruct l; [contradiction | discriminate] |]. rewrite <- Ex. rewrite lines_concat.
      * f_equal. cbn [SpecChoices.meant]. rewrite map_map. apply map_ext_in. intros v Hv. apply candidate_text. now apply (Ht _ _ (Hin v Hv)).
      * intros x Hx. apply in_map_iff in Hx as (v & <- & Hv). apply one_line_no_lf. now apply (Ht _ _ (Hin v Hv)).
  - assert (d <> []) as Hn by (intros ->; cbn in Hlen; lia).
    assert (forall k v, In (k, v) d -> In (text_of show k, str0 show v) (meant (CDict d))) as Hin.
    { intros k v Hi. rewrite str0_desc. cbn [SpecChoices.meant]. apply in_map_iff. now exists (k, v). }
    set (ls := map (fun kv : value * value => [quote (py_str show (fst kv)); quote (str0 show (snd kv))]) d).
    assert (ls <> []) as E3 by (unfold ls; destruct d; [contradiction | discriminate]).
    destruct (fish_function_ok name (s "'%s\t%s\n'") (s "%s\t%s\n") ls (map (fun kv => [text_of show (fst kv); str0 show (snd kv)]) d) E3) as (text & G1 & G2).
    { apply Forall_forall. intros ts Hi. apply in_map_iff in Hi as ([k v] & <- & Hi). split; [discriminate |]. destruct (Ht _ _ (Hin k v Hi)) as (_ & _ & _ & C1 & C2).
      repeat constructor; now apply text_ok_quote. }
    { apply Forall_forall. intros ts Hi. apply in_map_iff in Hi as ([k v] & <- & Hi). repeat constructor; apply ends_quote. }
    { apply Forall2_map2. intros [k v] Hi. destruct (Ht _ _ (Hin k v Hi)) as ((B1 & B2) & (B3 & B4) & _). repeat constructor; now apply fword_quote. }
    { apply format_two. }
    { repeat split; reflexivity. }
    exists text. split.
    + rewrite <- G1. f_equal. f_equal. unfold fish_lines. set (f2 := fun ts => s "  " ++ join [SP] ts).
      assert (concat (map (fun kv => s "  " ++ quote (py_str show (fst kv)) ++ [SP] ++ quote (str0 show (snd kv)) ++ [SP; BS; LF]) d) = join [SP; BS; LF] (map f2 ls) ++ [SP; BS; LF]) as ->.
      { unfold ls. clear - Hn. induction d as [| kv d IH]; [contradiction |]. destruct d as [| kv' d].
        - cbn [map concat join]. rewrite app_nil_r. unfold f2. cbn [join]. now rewrite <- !app_assoc.
        - cbn [map concat] in IH |- *. rewrite IH by discriminate. rewrite join_cons. unfold f2 at 3. cbn [join]. now rewrite <- !app_assoc. }
      assert (exists p c, s "printf '%s\t%s\n' \" ++ [LF] ++ join [SP; BS; LF] (map f2 ls) = p ++ [c] /\ memc c [SP; BS; LF] = false) as (p & c & Ep & Hc).
      { destruct (exists_last E3) as (l' & ts & El). assert (In ts ls) as Hts by (rewrite El; apply in_app_iff; right; now left).
        destruct (join_last_quote [] ts) as (q & c & Eq & Hc); [unfold ls in Hts; apply in_map_iff in Hts as (kv & <- & _); discriminate | |].
        { intros t Hi. unfold ls in Hts. apply in_map_iff in Hts as (kv & <- & _). destruct Hi as [<- | [<- | []]]; now eexists. }
        rewrite El, map_app. cbn [map]. unfold f2 at 2. rewrite Eq. destruct l' as [| a l'].
        - apply (closed_app (s "printf '%s\t%s\n' \")), (closed_app [LF]), (closed_app (s "  ")). exists q, c. now split.
        - rewrite join_snoc by discriminate. do 5 apply closed_app. exists q, c. now split. }
      rewrite (app_assoc [LF]), (app_assoc (s "printf '%s\t%s\n' \")). rewrite (rstrip_tail _ p c [SP; BS; LF] Ep Hc) by (intros e [<- | [<- | [<- | []]]]; reflexivity).
      rewrite join_continued. destruct (continued (map f2 ls)) as [| y ys] eqn:Ec; [destruct ls as [| a [| b ls']]; [contradiction | discriminate ..] |]. rewrite join_cons. reflexivity.
    + rewrite G2. set (args := concat (map (fun kv : value * value => [text_of show (fst kv); str0 show (snd kv)]) d)).
      assert (fish_printf (s "%s\t%s\n") args = Some (concat (map (fun x : str => x ++ [LF]) (map (fun kv : value * value => text_of show (fst kv) ++ TAB :: str0 show (snd kv)) d)))) as ->.
      { change (fish_printf (s "%s\t%s\n") args) with (Some (concat (map (fun '(a, b) => a ++ [TAB] ++ b ++ [LF]) (match args with [] => [([], [])] | _ => pairs args end)))).
        f_equal. assert (match args with [] => [([], [])] | _ => pairs args end = map (fun kv => (text_of show (fst kv), str0 show (snd kv))) d) as ->.
        { assert (pairs args = map (fun kv => (text_of show (fst kv), str0 show (snd kv))) d) as Ep.
          { unfold args. clear. induction d as [| kv d IH]; [reflexivity |]. cbn [map concat app pairs]. now rewrite IH. }
          rewrite <- Ep. destruct args eqn:Ea; [| reflexivity]. unfold args in Ea. destruct d; [contradiction | discriminate]. }
        rewrite !map_map. f_equal. apply map_ext. intros kv. rewrite <- app_assoc. reflexivity. }
      cbn [option_map]. f_equal. rewrite lines_concat.
      * cbn [SpecChoices.meant]. rewrite map_map. apply map_ext_in. intros [k v] Hi. cbn [fst snd]. rewrite <- str0_desc. apply candidate_both. now apply (Ht _ _ (Hin k v Hi)).
      * intros x Hx. apply in_map_iff in Hx as ([k v] & <- & Hi). cbn [fst snd]. destruct (Ht _ _ (Hin k v Hi)) as (_ & _ & _ & (C1 & _) & (C2 & _)).
        apply one_line_no_lf in C1. apply one_line_no_lf in C2. intros K. apply in_app_iff in K as [K | [K | K]]; [contradiction | discriminate | contradiction].
Qed.

(** ** Bash *)
Lemma values_meant ch : bash_values show ch = map fst (meant ch).
Proof. destruct ch as [l | d]; cbn [bash_values SpecChoices.meant]; rewrite map_map; apply map_ext; [reflexivity |]. now intros [k v]. Qed.
End Show.

Lemma first_nonword x y : text_behind x y <> None -> forall c, find (fun c => negb (is_word c)) x = Some c -> find (fun c => negb (is_word c)) y = Some c.
Proof.
  revert y. induction x as [| d x IH]; intros y H c Hc; [discriminate |]. destruct y as [| e y]; [contradiction |]. cbn [text_behind] in H.
  destruct (N.eqb_spec d e) as [<- | _]; [| contradiction]. cbn [find] in *. destruct (negb (is_word d)); [exact Hc |]. now apply IH.
Qed.
Lemma find_name name r : forallb is_word name = true -> find (fun c => negb (is_word c)) (name ++ SP :: r) = Some SP.
Proof. induction name as [| c name IH]; intros H; [reflexivity |]. cbn in H. apply andb_prop in H as [Hc H]. cbn [app find]. rewrite Hc. cbn [negb]. now apply IH. Qed.
Lemma not_compgen name r a : forallb is_word name = true -> find (fun c => negb (is_word c)) a <> Some SP -> find (fun c => negb (is_word c)) a <> None ->
  forall b, text_between a b (name ++ SP :: r) = None.
Proof.
  intros Hw H1 H2 b. unfold text_between. destruct (text_behind a (name ++ SP :: r)) eqn:E; [| reflexivity]. exfalso.
  destruct (find (fun c => negb (is_word c)) a) as [c |] eqn:F; [| contradiction].
  apply (first_nonword a (name ++ SP :: r)) in F; [| congruence]. rewrite find_name in F by exact Hw. congruence.
Qed.
Lemma name_quote name : forallb is_word name = true -> name <> [] -> quote name = name.
Proof.
  intros H Hn. destruct (quote_cases name) as [[_ [_ E]] | [[K _] | [[K _] | [K _]]]]; [exact E | exfalso ..]; unfold needs_quote in K; destruct name; try contradiction;
  apply negb_true_iff in K; rewrite (forallb_forall is_safe) in K || idtac.
  all: assert (forallb is_safe (n :: name) = true); [apply forallb_forall; intros c Hc; rewrite forallb_forall in H; unfold is_safe; now rewrite (H c Hc) | congruence].
Qed.
Lemma safe_printed x : forallb is_safe x = true -> x <> [] -> printed_words x = [x].
Proof.
  intros H Hn. assert (forall c, is_safe c = false -> ~ In c x) as K by (intros c Hc Hi; rewrite forallb_forall in H; apply H in Hi; congruence).
  unfold printed_words. rewrite split_none by (apply K; reflexivity). cbn [map concat]. rewrite (split_c_word TAB) by (apply K; reflexivity). cbn [app map concat].
  rewrite (split_c_word SP) by (apply K; reflexivity). cbn [app filter]. destruct x; [contradiction | reflexivity].
Qed.
Lemma bash_ok name append values cur before : forallb is_word name = true -> name <> [] -> (forall x, In x values -> x <> []) ->
  bash_code name (compgen_w name append values) cur before = Some ((if append then before else []) ++ filter (starts_with cur) values).
Proof.
  intros Hw Hn Hv. unfold compgen_w. destruct (existsb _ (filter needs_quote values)) eqn:E; cbn [negb].
  - set (r := (if append then s "-a " else []) ++ s "-- " ++ join_quoted values [SP]).
    unfold bash_code. change (name ++ s " " ++ r) with (name ++ SP :: r).
    rewrite !not_compgen by (exact Hw || discriminate).
    assert (name ++ SP :: r = join_quoted (name :: (if append then [s "-a"] else []) ++ s "--" :: values) [SP]) as ->.
    { assert (values <> []) as Hvn by (intros ->; discriminate E). unfold r, join_quoted. destruct values as [| v values]; [contradiction |].
      destruct append; cbn [app map]; rewrite (name_quote name Hw Hn); rewrite !join_cons; reflexivity. }
    rewrite posix_join_quoted. rewrite (proj2 (str_eqb_eq name name) eq_refl). destruct append; cbn [app].
    + change (str_eqb (s "-a") (s "-a")) with true. cbn iota. change (str_eqb (s "--") (s "--")) with true. reflexivity.
    + change (str_eqb (s "--") (s "-a")) with false. cbn iota. change (str_eqb (s "--") (s "--")) with true. reflexivity.
  - assert (forall x, In x values -> needs_quote x = false) as Hq.
    { intros x Hx. destruct (needs_quote x) eqn:Eq; [| reflexivity]. exfalso.
      assert (existsb (fun x => match x with [] => false | _ => true end) (filter needs_quote values) = true); [| congruence].
      apply existsb_exists. exists x. split; [now apply filter_In |]. specialize (Hv x Hx). now destruct x. }
    assert (compgen_words (quote (join [SP] values)) cur = Some (filter (starts_with cur) values)) as Ec.
    { unfold compgen_words. rewrite posix_quote.
      assert (join [SP] values = join_quoted values [SP]) as ->.
      { unfold join_quoted. f_equal. rewrite <- (map_id values) at 1. apply map_ext_in. intros x Hx. unfold quote, quote_gen. rewrite (Hq x Hx). cbn [negb andb]. now rewrite andb_false_r. }
      rewrite posix_join_quoted. cbn [option_map]. f_equal. assert (forall l, (forall x, In x l -> In x values) -> concat (map printed_words l) = l) as K.
      { induction l as [| x l IH]; intros H; [reflexivity |]. cbn [map concat]. rewrite IH by (intros y Hy; apply H; now right). specialize (Hq x (H x (or_introl eq_refl))). specialize (Hv x (H x (or_introl eq_refl))).
        rewrite safe_printed; [reflexivity | | exact Hv]. unfold needs_quote in Hq. destruct x; [contradiction |]. now apply negb_false_iff in Hq. }
      apply K. intros x Hx. now apply filter_In in Hx. }
    unfold bash_code. destruct append; cbn [app].
    + change (s "COMPREPLY" ++ s "+" ++ s "=($(compgen -W " ++ ?t ++ ?e) with (s "COMPREPLY+=($(compgen -W " ++ t ++ e).
      assert (text_between (s "COMPREPLY=($(compgen -W ") (s " -- ""$cur""))") (s "COMPREPLY+=($(compgen -W " ++ quote (join [SP] values) ++ s " -- ""$cur""))") = None) as -> by reflexivity.
      rewrite between_app, Ec. reflexivity.
    + change (s "COMPREPLY" ++ s "=($(compgen -W " ++ ?t ++ ?e) with (s "COMPREPLY=($(compgen -W " ++ t ++ e).
      rewrite between_app, Ec. reflexivity.
Qed.
