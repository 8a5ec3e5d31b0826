(** * Proofs about the conditions of fish scripts. *)
From Verif Require Import Base Value Algo StrUtils Shell SpecShell ShellProofs ShellParser When SpecWhen WhenProofs WhenTests Cli
  FishUtils SpecFish FishProofs.
From Verif Require Import ParserProofs.
Open Scope list_scope.

(** ** Lexing *)

Lemma lex_read x : forall m w ws, fish_read m w x = Some ws -> fish_lex m w x = Some (map FWord ws).
Proof.
  assert (He : forall w r l, emit w r = Some l -> (forall ws, r = Some ws -> exists t, t = Some (map FWord ws)) ->
     forall r', (forall ws, r = Some ws -> r' = Some (map FWord ws)) -> emit_word w r' = Some (map FWord l)).
  { intros w r l H _ r' Hr. apply emit_some in H as (ws & -> & ->). rewrite (Hr ws eq_refl). destruct w; reflexivity. }
  induction x as [| c x IH]; intros m w ws H.
  - destruct m; cbn [fish_read fish_lex] in *; try discriminate. destruct w; cbn in *; injection H as <-; reflexivity.
  - destruct m; cbn [fish_read fish_lex] in *.
    + destruct (N.eqb c SQ); [now apply IH |]. destruct (N.eqb c DQ); [now apply IH |].
      destruct (N.eqb c SP || N.eqb c TAB); [eapply He; [exact H | eauto | intros; now apply IH] |].
      destruct (N.eqb_spec c SEMI) as [-> | _]; [discriminate H |]. destruct (N.eqb_spec c AMP) as [-> | _]; [discriminate H |].
      destruct (N.eqb_spec c PIPE) as [-> | _]; [discriminate H |]. destruct (fish_special c); [discriminate |]. now apply IH.
    + destruct (N.eqb c SQ); [now apply IH |]. destruct (N.eqb c BS); now apply IH.
    + destruct (memc c [SQ; BS]); now apply IH.
    + destruct (N.eqb c DQ); [now apply IH |]. destruct (N.eqb c BS); [now apply IH |]. destruct (N.eqb c DOLLAR); [discriminate |]. now apply IH.
    + destruct (N.eqb c LF); [now apply IH |]. destruct (memc c [DOLLAR; DQ; BS]); now apply IH.
Qed.

Lemma emit_word_app w r ts rest :
  (forall ts', r = Some ts' -> exists r', r' = option_map (app ts') rest) -> emit_word w r = Some ts ->
  exists ts', r = Some ts' /\ ts = match w with Some x => FWord x :: ts' | None => ts' end.
Proof.
  intros _ H. destruct w as [x |]; cbn in H; [| eauto]. destruct r; [| discriminate]. injection H as <-. eauto.
Qed.
Lemma lex_app rest : forall n x, List.length x <= n -> forall m w ts, fish_lex m w x = Some ts ->
  fish_lex m w (x ++ SP :: rest) = option_map (app ts) (fish_lex FUnquoted None rest).
Proof.
  assert (He : forall w r ts, emit_word w r = Some ts ->
    exists ts', r = Some ts' /\ ts = match w with Some x => FWord x :: ts' | None => ts' end).
  { intros w r ts H. destruct w as [x |]; cbn in H; [| eauto]. destruct r; [| discriminate]. injection H as <-. eauto. }
  assert (Ho : forall o (r : option (list ftok)) ts, option_map (cons o) r = Some ts -> exists ts', r = Some ts' /\ ts = o :: ts').
  { intros o [r |] ts H; [| discriminate]. injection H as <-. eauto. }
  induction n as [| n IH]; intros x Hl m w ts H; (destruct x as [| c x]; [| cbn in Hl]); try lia.
  1,2: destruct m; cbn [fish_lex app] in *; try discriminate; change (N.eqb SP SQ) with false; change (N.eqb SP DQ) with false; cbv iota;
    change (N.eqb SP SP || N.eqb SP TAB) with true; cbv iota; destruct w; cbn in H; injection H as <-; cbn [emit_word];
    destruct (fish_lex FUnquoted None rest); reflexivity.
  assert (IH' : forall m w ts, fish_lex m w x = Some ts -> fish_lex m w (x ++ SP :: rest) = option_map (app ts) (fish_lex FUnquoted None rest)).
  { intros. apply IH; [lia | assumption]. }
  destruct m; cbn [fish_lex app] in *.
  - destruct (N.eqb c SQ); [now apply IH' |]. destruct (N.eqb c DQ); [now apply IH' |].
    destruct (N.eqb c SP || N.eqb c TAB).
    { apply He in H as (ts' & H & ->). rewrite (IH' _ _ _ H). destruct (fish_lex FUnquoted None rest), w; reflexivity. }
    destruct (N.eqb c SEMI).
    { apply He in H as (ts' & H & ->). apply Ho in H as (ts'' & H & ->). rewrite (IH' _ _ _ H). destruct (fish_lex FUnquoted None rest), w; reflexivity. }
    destruct (N.eqb c AMP).
    { destruct x as [| d x]; [discriminate |]. cbn [app]. destruct (N.eqb d AMP); [| discriminate].
      apply He in H as (ts' & H & ->). apply Ho in H as (ts'' & H & ->). cbn [List.length] in Hl.
      rewrite (IH x ltac:(lia) _ _ _ H). destruct (fish_lex FUnquoted None rest), w; reflexivity. }
    destruct (N.eqb c PIPE).
    { destruct x as [| d x]; [discriminate |]. cbn [app]. destruct (N.eqb d PIPE); [| discriminate].
      apply He in H as (ts' & H & ->). apply Ho in H as (ts'' & H & ->). cbn [List.length] in Hl.
      rewrite (IH x ltac:(lia) _ _ _ H). destruct (fish_lex FUnquoted None rest), w; reflexivity. }
    destruct (fish_special c); [discriminate |]. now apply IH'.
  - destruct (N.eqb c SQ); [now apply IH' |]. destruct (N.eqb c BS); now apply IH'.
  - destruct (memc c [SQ; BS]); now apply IH'.
  - destruct (N.eqb c DQ); [now apply IH' |]. destruct (N.eqb c BS); [now apply IH' |]. destruct (N.eqb c DOLLAR); [discriminate |]. now apply IH'.
  - destruct (N.eqb c LF); [now apply IH' |]. destruct (memc c [DOLLAR; DQ; BS]); now apply IH'.
Qed.
Lemma lex_words l tss : l <> [] -> Forall2 (fun x ts => fish_lex FUnquoted None x = Some ts) l tss ->
  fish_lex FUnquoted None (join [SP] l) = Some (concat tss).
Proof.
  intros Hn H. induction H as [| x ts l tss Hx Hl IH]; [congruence |]. destruct l as [| y l].
  - inversion Hl; subst. cbn. rewrite app_nil_r. exact Hx.
  - rewrite join_cons. cbn [app]. rewrite (lex_app _ _ x (le_n _) _ _ _ Hx), IH by discriminate. reflexivity.
Qed.

(** ** Reading the double quoted text *)

Lemma dq_escaped e x rest : ~ In BTICK x -> forall w,
  fish_expand e XInDQ (Some w) (escape_in_double x ++ rest) = fish_expand e XInDQ (Some (w ++ x)) rest.
Proof.
  induction x as [| c x IH]; intros H w; [cbn; now rewrite app_nil_r |].
  unfold escape_in_double in *. cbn [map concat]. rewrite <- app_assoc.
  assert (Hc : forall r, fish_expand e XInDQ (Some w) ((if memc c [DQ; DOLLAR; BTICK; BS] then [BS; c] else [c]) ++ r) =
                    fish_expand e XInDQ (Some (w ++ [c])) r).
  { intros r. destruct (N.eqb_spec c DQ) as [-> | H1]; [reflexivity |].
    destruct (N.eqb_spec c DOLLAR) as [-> | H2]; [reflexivity |].
    destruct (N.eqb_spec c BTICK) as [-> | H3]; [elim H; left; reflexivity |].
    destruct (N.eqb_spec c BS) as [-> | H4]; [reflexivity |].
    assert (E : memc c [DQ; DOLLAR; BTICK; BS] = false).
    { apply memc_false. intros [E | [E | [E | [E | []]]]]; congruence. }
    rewrite E. cbn [app fish_expand fish_char]. now rewrite (proj2 (N.eqb_neq _ _) H1), (proj2 (N.eqb_neq _ _) H4), (proj2 (N.eqb_neq _ _) H2). }
  rewrite Hc, IH by (intros Hi; apply H; now right). now rewrite <- app_assoc.
Qed.
Definition plain_dq (x : str) : bool := forallb (fun c => negb (memc c [DQ; BS; DOLLAR])) x.
Lemma dq_plain e x rest : plain_dq x = true -> forall w,
  fish_expand e XInDQ (Some w) (x ++ rest) = fish_expand e XInDQ (Some (w ++ x)) rest.
Proof.
  induction x as [| c x IH]; intros H w; [cbn; now rewrite app_nil_r |]. cbn [plain_dq forallb] in H. apply andb_true_iff in H as [Hc H].
  apply negb_true_iff, memc_false in Hc. cbn [app fish_expand fish_char].
  assert (E1 : N.eqb c DQ = false) by (apply N.eqb_neq; intros ->; apply Hc; now left).
  assert (E2 : N.eqb c BS = false) by (apply N.eqb_neq; intros ->; apply Hc; right; now left).
  assert (E3 : N.eqb c DOLLAR = false) by (apply N.eqb_neq; intros ->; apply Hc; right; right; now left).
  rewrite E1, E2, E3. unfold push. rewrite IH by exact H. now rewrite <- app_assoc.
Qed.
Lemma dq_variable e name v rest w : forallb is_word name = true -> e name = Some v ->
  fish_expand e XInDQ (Some w) (DOLLAR :: name ++ SP :: rest) = fish_expand e XInDQ (Some (w ++ v ++ [SP])) rest.
Proof.
  intros Hn Hv. cbn [fish_expand fish_char]. cbn [N.eqb Pos.eqb]. rewrite expand_name by exact Hn. cbn [app fish_expand].
  change (is_word SP) with false. change (N.eqb SP LBRK) with false. cbv iota. rewrite Hv. cbn [fish_char chars]. cbn [N.eqb Pos.eqb]. unfold push. now rewrite app_assoc.
Qed.

Definition no_btick (x : str) : Prop := ~ In BTICK x.
Lemma join_quoted_no_btick args : (forall x, In x args -> ~ In BTICK x) -> ~ In BTICK (join_quoted args [SP]).
Proof.
  intros H Hi. unfold join_quoted in Hi. apply join_chars in Hi as [[E | []] | (y & Hy & Hc)]; [discriminate |].
  apply in_map_iff in Hy as (x & <- & Hx). apply quote_chars in Hc as [Hc | [E | [E | E]]]; try discriminate. exact (H x Hx Hc).
Qed.
Lemma dq_command e name f args rest w : forallb is_word name = true -> e name = Some f -> (forall x, In x args -> ~ In BTICK x) ->
  fish_expand e XInDQ (Some w) (make_condition_command (DOLLAR :: name) args ++ rest) =
  fish_expand e XInDQ (Some (w ++ f ++ [SP] ++ join_quoted args [SP])) rest.
Proof.
  intros Hn Hf Ha. unfold make_condition_command, sp_join. rewrite <- (map_map quote escape_in_double), <- escape_join.
  change (join [SP] (map quote args)) with (join_quoted args [SP]). cbn [app]. rewrite <- app_assoc. cbn [app].
  rewrite (dq_variable e name f _ w Hn Hf), dq_escaped by (now apply join_quoted_no_btick). now rewrite <- !app_assoc.
Qed.

(** the commands that tests and conditions are *)
Definition helper (e : env) (name : str) : str := match e name with Some f => f | None => [] end.
Definition test_name (o : wobj) : str :=
  match o with
  | OptionIs _ _ _ _ => s "option_is"
  | OptionMatch _ _ _ _ => s "option_match"
  | HasOption _ => s "has_option"
  | PositionalCount _ _ => s "num_of_positionals"
  | PositionalContains _ _ _ => s "positional_contains"
  end.
Definition test_arguments (o : wobj) : list str :=
  match o with
  | OptionIs options values ic any => opt_word ic (s "-i") ++ opt_word any (s "-a") ++ [s "--"] ++ options ++ [s "--"] ++ values
  | OptionMatch options regex ic any => opt_word ic (s "-i") ++ opt_word any (s "-a") ++ [s "--"] ++ options ++ [s "--"] ++ [regex]
  | HasOption options => options
  | PositionalCount op n => [test_operator op; z_str n]
  | PositionalContains ic n values => opt_word ic (s "-i") ++ [z_str n] ++ values
  end.
Lemma fish_test_eq o : fish_test o = make_condition_command (DOLLAR :: test_name o) (test_arguments o).
Proof. destruct o; reflexivity. Qed.
Lemma test_name_word o : forallb is_word (test_name o) = true.
Proof. destruct o; reflexivity. Qed.

(** ** The text of conditions *)

Definition tok_value (e : env) (t : wtok) : str :=
  match t with
  | WAnd => s "&&"
  | WOr => s "||"
  | WNot => s "!"
  | WOpen => s "begin"
  | WClose => s ";end"
  | WObj o => helper e (test_name o) ++ [SP] ++ join_quoted (test_arguments o) [SP]
  end.
Definition no_ticks (o : wobj) : Prop := forall x, In x (test_arguments o) -> ~ In BTICK x.
Lemma helper_some e name f : e name = Some f -> helper e name = f.
Proof. unfold helper. now intros ->. Qed.
Lemma dq_token e t rest w : (forall o, t = WObj o -> e (test_name o) <> None /\ no_ticks o) ->
  fish_expand e XInDQ (Some w) (fish_token t ++ rest) = fish_expand e XInDQ (Some (w ++ tok_value e t)) rest.
Proof.
  intros H. destruct t as [| | | | | o]; try (apply dq_plain; reflexivity).
  destruct (H o eq_refl) as [Hn Ht]. cbn [fish_token tok_value]. rewrite fish_test_eq.
  destruct (e (test_name o)) as [f |] eqn:E; [| congruence]. rewrite (helper_some _ _ _ E). apply dq_command; [apply test_name_word | exact E | exact Ht].
Qed.
Lemma dq_tokens e ts rest : (forall o, In (WObj o) ts -> e (test_name o) <> None /\ no_ticks o) -> ts <> [] -> forall w,
  fish_expand e XInDQ (Some w) (fish_tokens ts ++ rest) = fish_expand e XInDQ (Some (w ++ join [SP] (map (tok_value e) ts))) rest.
Proof.
  unfold fish_tokens, sp_join. induction ts as [| t ts IH]; intros H Hne w; [congruence |]. destruct ts as [| t' ts].
  - cbn [map join]. apply dq_token. intros o ->. apply H. now left.
  - cbn [map]. rewrite !join_cons, <- !app_assoc. rewrite dq_token by (intros o ->; apply H; now left).
    rewrite (dq_plain e [SP] _ eq_refl). cbn [map] in IH. rewrite IH; [| intros o Ho; apply H; now right | discriminate].
    now rewrite <- !app_assoc.
Qed.
Lemma line_double e x text : (forall w rest, fish_expand e XInDQ (Some w) (x ++ rest) = fish_expand e XInDQ (Some (w ++ text)) rest) ->
  fish_line e (in_double x) = Some [text].
Proof.
  intros H. unfold fish_line, in_double. cbn [fish_expand fish_char]. cbn [N.eqb Pos.eqb]. unfold start. rewrite H. reflexivity.
Qed.
Lemma tokens_line e ts : (forall o, In (WObj o) ts -> e (test_name o) <> None /\ no_ticks o) -> ts <> [] ->
  fish_line e (in_double (fish_tokens ts)) = Some [join [SP] (map (tok_value e) ts)].
Proof. intros H Hn. apply line_double. intros w rest. now apply dq_tokens. Qed.

Fixpoint cond_value (e : env) (c : fcond) : str :=
  match c with
  | FNot c => s "not " ++ cond_value e c
  | FHasOption options => helper e (s "has_option") ++ [SP] ++ join_quoted options [SP]
  | FHasHiddenOption options => helper e (s "has_option") ++ [SP] ++ join_quoted (s "WITH_INCOMPLETE" :: options) [SP]
  | FPositionalNum operator number => helper e (s "num_of_positionals") ++ [SP] ++ join_quoted [test_operator operator; z_str number] [SP]
  | FPositionalContains number values => helper e (s "positional_contains") ++ [SP] ++ join_quoted (z_str number :: values) [SP]
  end.
Fixpoint cond_strings (c : fcond) : list str :=
  match c with
  | FNot c => cond_strings c
  | FHasOption options | FHasHiddenOption options => options
  | FPositionalNum _ _ => []
  | FPositionalContains _ values => values
  end.
Lemma z_str_plain z : ~ In BS (z_str z) /\ ~ In BTICK (z_str z).
Proof.
  pose proof (z_str_safe z) as H. rewrite forallb_forall in H. split; intros Hi; apply H in Hi; discriminate.
Qed.
Lemma operator_plain op : ~ In BS (test_operator op) /\ ~ In BTICK (test_operator op).
Proof.
  unfold test_operator. repeat (destruct (str_eqb _ _)); (split; intros Hi; cbn in Hi; repeat (destruct Hi as [Hi | Hi]; [discriminate |]); exact Hi).
Qed.
Definition has_helpers (e : env) : Prop :=
  e (s "has_option") <> None /\ e (s "num_of_positionals") <> None /\ e (s "positional_contains") <> None /\
  e (s "option_is") <> None /\ e (s "option_match") <> None.
Lemma helper_name e name : e name <> None -> e name = Some (helper e name).
Proof. unfold helper. destruct (e name); congruence. Qed.
Lemma has_test e o : has_helpers e -> e (test_name o) <> None.
Proof. intros (H1 & H2 & H3 & H4 & H5). destruct o; assumption. Qed.
Lemma dq_cond e c : has_helpers e -> (forall x, In x (cond_strings c) -> ~ In BTICK x) -> forall w rest,
  fish_expand e XInDQ (Some w) (cond_code c ++ rest) = fish_expand e XInDQ (Some (w ++ cond_value e c)) rest.
Proof.
  intros He. destruct He as (H1 & H2 & H3 & _). induction c as [c IH | os | os | op n | n vs]; intros H w rest; cbn [cond_code cond_value cond_strings] in *.
  - rewrite <- app_assoc, (dq_plain e (s "not ") _ eq_refl), (IH H). now rewrite <- app_assoc.
  - apply (dq_command e (s "has_option")); [reflexivity | now apply helper_name | exact H].
  - apply (dq_command e (s "has_option")); [reflexivity | now apply helper_name |]. intros x [<- | Hx]; [| now apply H].
    intros Hi; cbn in Hi; repeat (destruct Hi as [Hi | Hi]; [discriminate |]); exact Hi.
  - apply (dq_command e (s "num_of_positionals")); [reflexivity | now apply helper_name |].
    intros x [<- | [<- | []]]; [apply operator_plain | apply z_str_plain].
  - apply (dq_command e (s "positional_contains")); [reflexivity | now apply helper_name |]. intros x [<- | Hx]; [apply z_str_plain | now apply H].
Qed.
Lemma cond_line e c : has_helpers e -> (forall x, In x (cond_strings c) -> ~ In BTICK x) ->
  fish_line e (in_double (cond_code c)) = Some [cond_value e c].
Proof. intros He H. apply line_double. now apply dq_cond. Qed.

(** ** Readable in any case *)

Lemma dq_escaped_some e x : forall w, exists w', forall rest,
  fish_expand e XInDQ (Some w) (escape_in_double x ++ rest) = fish_expand e XInDQ (Some w') rest.
Proof.
  induction x as [| c x IH]; intros w; [exists w; reflexivity |]. unfold escape_in_double in *. cbn [map concat].
  assert (Hc : exists w', forall r, fish_expand e XInDQ (Some w) ((if memc c [DQ; DOLLAR; BTICK; BS] then [BS; c] else [c]) ++ r) =
                    fish_expand e XInDQ (Some w') r).
  { destruct (N.eqb_spec c DQ) as [-> | H1]; [eexists; reflexivity |].
    destruct (N.eqb_spec c DOLLAR) as [-> | H2]; [eexists; reflexivity |].
    destruct (N.eqb_spec c BTICK) as [-> | H3]; [eexists; reflexivity |].
    destruct (N.eqb_spec c BS) as [-> | H4]; [eexists; reflexivity |].
    assert (E : memc c [DQ; DOLLAR; BTICK; BS] = false).
    { apply memc_false. intros [E | [E | [E | [E | []]]]]; congruence. }
    eexists. intros r. rewrite E. cbn [app fish_expand fish_char].
    rewrite (proj2 (N.eqb_neq _ _) H1), (proj2 (N.eqb_neq _ _) H4), (proj2 (N.eqb_neq _ _) H2). reflexivity. }
  destruct Hc as [w1 Hc]. destruct (IH w1) as [w2 IH']. exists w2. intros rest. now rewrite <- app_assoc, Hc, IH'.
Qed.
Lemma dq_command_some e name args : forallb is_word name = true -> e name <> None -> forall w, exists w', forall rest,
  fish_expand e XInDQ (Some w) (make_condition_command (DOLLAR :: name) args ++ rest) = fish_expand e XInDQ (Some w') rest.
Proof.
  intros Hn Hf w. unfold make_condition_command, sp_join. rewrite <- (map_map quote escape_in_double), <- escape_join.
  destruct (dq_escaped_some e (join [SP] (map quote args)) (w ++ helper e name ++ [SP])) as [w' H]. exists w'. intros rest.
  cbn [app]. rewrite <- app_assoc. cbn [app]. rewrite (dq_variable e name _ _ w Hn (helper_name _ _ Hf)). apply H.
Qed.
Lemma dq_cond_some e c : has_helpers e -> forall w, exists w', forall rest,
  fish_expand e XInDQ (Some w) (cond_code c ++ rest) = fish_expand e XInDQ (Some w') rest.
Proof.
  intros He. destruct He as (H1 & H2 & H3 & _). induction c as [c IH | os | os | op n | n vs]; intros w; cbn [cond_code].
  - destruct (IH (w ++ s "not ")) as [w' H]. exists w'. intros rest. rewrite <- app_assoc, (dq_plain e (s "not ") _ eq_refl). apply H.
  - now apply (dq_command_some e (s "has_option")).
  - now apply (dq_command_some e (s "has_option")).
  - now apply (dq_command_some e (s "num_of_positionals")).
  - now apply (dq_command_some e (s "positional_contains")).
Qed.
Lemma dq_tokens_some e ts : has_helpers e -> ts <> [] -> forall w, exists w', forall rest,
  fish_expand e XInDQ (Some w) (fish_tokens ts ++ rest) = fish_expand e XInDQ (Some w') rest.
Proof.
  intros He. assert (Ht : forall t w, exists w', forall rest, fish_expand e XInDQ (Some w) (fish_token t ++ rest) = fish_expand e XInDQ (Some w') rest).
  { intros [| | | | | o] w; try (eexists; intros; apply dq_plain; reflexivity). cbn [fish_token]. rewrite fish_test_eq.
    apply dq_command_some; [apply test_name_word | now apply has_test]. }
  unfold fish_tokens, sp_join. induction ts as [| t ts IH]; intros Hne w; [congruence |]. destruct ts as [| t' ts].
  - apply Ht.
  - destruct (Ht t w) as [w1 H1]. destruct (IH ltac:(discriminate) (w1 ++ [SP])) as [w2 H2]. exists w2. intros rest.
    cbn [map]. rewrite join_cons, <- !app_assoc, H1.
    rewrite (dq_plain e [SP] _ eq_refl). apply H2.
Qed.
Lemma conditions_one_word e l w x : has_helpers e -> In x (get_conditions l w) -> one_word e x.
Proof.
  intros He H. unfold get_conditions in H. apply in_app_or in H as [H | H].
  - apply in_map_iff in H as (c & <- & _). destruct (dq_cond_some e c He []) as [w' H]. exists w'.
    unfold fish_line, in_double. cbn [fish_expand fish_char]. cbn [N.eqb Pos.eqb]. unfold start. rewrite H. reflexivity.
  - destruct w as [[| t ts] |]; [destruct H | | destruct H]. destruct H as [<- | []].
    destruct (dq_tokens_some e (t :: ts) He ltac:(discriminate) []) as [w' H]. exists w'.
    unfold fish_line, in_double. cbn [fish_expand fish_char]. cbn [N.eqb Pos.eqb]. unfold start. rewrite H. reflexivity.
Qed.
Lemma parse_args_frame args : forall c c', parse_args args c = Ok c' -> cc_command c' = cc_command c /\ cc_conditions c' = cc_conditions c.
Proof.
  assert (Hi : forall n args, List.length args <= n -> forall c c', parse_args args c = Ok c' -> cc_command c' = cc_command c /\ cc_conditions c' = cc_conditions c).
  { induction n as [| n IH]; intros l Hl c c' H; (destruct l as [| a l]; [injection H as <-; auto |]); cbn [List.length] in Hl; [lia |].
    cbn [parse_args] in H. destruct (str_eqb a (s "-f")); [apply IH in H; [| lia]; destruct c; exact H |].
    destruct (str_eqb a (s "-F")); [apply IH in H; [| lia]; destruct c; exact H |].
    destruct (str_eqb a (s "-a")); [| discriminate]. destruct l as [| x l]; [discriminate |]. apply IH in H; [| cbn in Hl; lia]. destruct c; exact H. }
  intros. now apply (Hi (List.length args) args).
Qed.
Lemma get_complete_cmd_ok e st d c : has_helpers e -> get_complete_cmd st d = Ok c -> command_ok e c.
Proof.
  intros He H. unfold get_complete_cmd in H. apply bind_ok in H as (c' & Hp & H). injection H as <-.
  apply parse_args_frame in Hp as [H1 H2]. destruct c' as [co de cs a sh lo ol f]. cbn [cc_command cc_conditions] in H1, H2.
  assert (E : co = Some (FString (s "$prog") true) /\ cs = []).
  { rewrite H1, H2. destruct st, (d_description d), (d_requires_argument d), (d_keep_order d); split; reflexivity. }
  destruct E as [-> ->]. split; [reflexivity |]. intros x Hx. unfold set_conditions in Hx. cbn [cc_conditions app] in Hx.
  apply in_map_iff in Hx as (y & <- & Hy). cbn [condition_text]. eapply conditions_one_word; eassumption.
Qed.
