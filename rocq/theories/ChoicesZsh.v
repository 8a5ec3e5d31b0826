(** * Proofs: zsh reads the texts made for choices. *)
From Verif Require Import Base PyStr Value Cli StrUtils StrUtilsProofs Preproc Shell ShellProofs WhenProofs ZshUtils SpecZsh ZshReading ZshSpecs
  Helpers HelpersMore Choices SpecChoices ChoicesEmit ParserPaths.
Open Scope list_scope.

(** ** Words *)
Definition zword (t v : str) : Prop :=
  forall rest, exists ms, map fst ms = v /\ has_brace ms = false /\ zread ZPlain None (t ++ rest) = zread ZPlain (Some ms) rest.
Lemma zword_quote x : hd 0%N x <> EQ -> zword (quote x) x.
Proof.
  intros H rest. destruct (needs_quote x) eqn:E; [now apply reads_first_quote |].
  destruct (quote_cases x) as [[Hf [Hn ->]] | [[K _] | [[K _] | [K _]]]]; [| congruence ..].
  exists (bare x). rewrite fst_bare. apply safe_no_brace in Hf as Hb. destruct Hb as [B1 B2].
  rewrite has_brace_bare by assumption. split; [reflexivity | split; [reflexivity |]].
  rewrite zread_bare; [reflexivity | | exact Hn | intros _; exact H].
  rewrite forallb_forall in *. intros c Hc. apply safe_zplain. auto.
Qed.
Lemma zword_app t v t2 v2 : zword t v -> reads t2 v2 -> zword (t ++ t2) (v ++ v2).
Proof.
  intros H1 H2 rest. destruct (H1 (t2 ++ rest)) as (m1 & E1 & B1 & R1). destruct (H2 m1 rest) as (m2 & E2 & B2 & R2).
  exists (m1 ++ m2). split; [rewrite map_app; congruence |]. split; [now rewrite has_brace_app, B1, B2 |].
  rewrite <- app_assoc. exact (eq_trans R1 R2).
Qed.

Definition zblank (b : str) : Prop := forall c, In c b -> memc c [SP; TAB; LF] = true.
Definition apart (r : str) : Prop := match r with [] => True | c :: _ => memc c [SP; TAB; LF] = true end.
Inductive zwords : str -> list str -> Prop :=
| zw_nil b : zblank b -> zwords b []
| zw_cons b t v r vs : zblank b -> zword t v -> apart r -> zwords r vs -> zwords (b ++ t ++ r) (v :: vs).

Lemma zread_blank w c r : memc c [SP; TAB; LF] = true -> zread ZPlain w (c :: r) = zemit w (zread ZPlain None r).
Proof.
  intros H. rewrite memc_In in H. cbn [In] in H. destruct H as [<- | [<- | [<- | []]]]; reflexivity.
Qed.
Lemma zread_blanks b r : zblank b -> zread ZPlain None (b ++ r) = zread ZPlain None r.
Proof.
  induction b as [| c b IH]; intros H; [reflexivity |]. cbn [app]. rewrite zread_blank by (apply H; now left).
  cbn [zemit]. apply IH. intros d Hd. apply H. now right.
Qed.
Lemma zwords_read x vs : zwords x vs -> exists l, zread ZPlain None x = Some l /\ expand_all l = Some vs.
Proof.
  induction 1 as [b Hb | b t v r vs Hb Ht Hr _ (l & E1 & E2)].
  - exists []. split; [| reflexivity]. rewrite <- (app_nil_r b), zread_blanks by exact Hb. reflexivity.
  - destruct (Ht r) as (ms & Ev & B & R). exists (ms :: l). rewrite zread_blanks by exact Hb. rewrite R. split.
    + destruct r as [| c r]; [cbn [zread zemit option_map] in *; injection E1 as <-; reflexivity |].
      cbn [apart] in Hr. rewrite zread_blank in E1 |- * by exact Hr. cbn [zemit] in *. now rewrite E1.
    + cbn [expand_all]. rewrite (expand_plain ms []) by exact B. rewrite E2. cbn [app]. now rewrite Ev.
Qed.
Lemma zwords_array x vs : zwords x vs -> zsh_array x = Some vs.
Proof. intros H. apply zwords_read in H as (l & E1 & E2). unfold zsh_array. now rewrite E1. Qed.
Lemma zwords_blank b x vs : zblank b -> zwords x vs -> zwords (b ++ x) vs.
Proof.
  intros Hb H. assert (forall b', zblank b' -> zblank (b ++ b')) as K by (intros b' H' c Hc; apply in_app_iff in Hc as [Hc | Hc]; auto).
  destruct H as [b' Hb' | b' t v r vs Hb' Ht Hr Hv]; [apply zw_nil; auto |]. rewrite app_assoc. apply zw_cons; auto.
Qed.
Lemma apart_app r b : apart r -> apart b -> apart (r ++ b).
Proof. destruct r; auto. Qed.
Lemma zwords_app a vs b ws : zwords a vs -> zwords b ws -> apart b -> zwords (a ++ b) (vs ++ ws).
Proof.
  induction 1 as [b' Hb' | b' t v r vs Hb' Ht Hr _ IH]; intros H Hp; [now apply zwords_blank |].
  rewrite <- !app_assoc. cbn [app]. apply zw_cons; auto. now apply apart_app.
Qed.
Lemma zblank_sp n : zblank (repeat SP n).
Proof. intros c H. apply repeat_spec in H as ->. reflexivity. Qed.
Lemma zblank_one c : memc c [SP; TAB; LF] = true -> zblank [c].
Proof. intros H d [<- | []]. exact H. Qed.
Lemma zwords_join ts vs b e : Forall2 zword ts vs -> zblank b -> zblank e -> zwords (b ++ join [SP] ts ++ e) vs.
Proof.
  intros H. revert b. induction H as [| t v ts vs Ht H IH]; intros b Hb He.
  - cbn [join app]. apply zw_nil. intros c Hc. apply in_app_iff in Hc as [Hc | Hc]; auto.
  - destruct ts as [| t' ts].
    + inversion H; subst. cbn [join]. apply zw_cons; auto; [destruct e; [exact I | apply He; now left] | now apply zw_nil].
    + rewrite join_cons, <- !app_assoc. apply zw_cons; auto; [reflexivity |].
      apply IH; [now apply zblank_one | exact He].
Qed.

(** ** The parenthesis behind the elements *)
Lemma to_parenthesis_end x r : forall m w l, zread m w x = Some l -> to_parenthesis m (x ++ RPAR :: r) = Some (x, r).
Proof.
  induction x as [| c x IH]; intros m w l H.
  - cbn [zread] in H. destruct m; try discriminate. reflexivity.
  - cbn [app to_parenthesis zread] in *. destruct m; cbn [zquoting].
    + destruct (N.eqb_spec c RPAR) as [-> | _]; [discriminate H |].
      destruct (N.eqb c SQ); [now rewrite (IH _ _ _ H) |]. destruct (N.eqb c DQ); [now rewrite (IH _ _ _ H) |].
      destruct (N.eqb c BS); [now rewrite (IH _ _ _ H) |].
      destruct (memc c [SP; TAB; LF]).
      * destruct (zread ZPlain None x) eqn:E; [now rewrite (IH _ _ _ E) |]. destruct w; discriminate H.
      * destruct (zsh_special c); [discriminate |]. destruct (N.eqb c EQ && negb (is_some w)); [discriminate |]. now rewrite (IH _ _ _ H).
    + destruct (N.eqb c LF); now rewrite (IH _ _ _ H).
    + destruct (N.eqb c SQ); now rewrite (IH _ _ _ H).
    + destruct (N.eqb c DQ); [now rewrite (IH _ _ _ H) |]. destruct (N.eqb c BS); [now rewrite (IH _ _ _ H) |].
      destruct (N.eqb c DOLLAR || N.eqb c BTICK); [discriminate |]. now rewrite (IH _ _ _ H).
    + destruct (N.eqb c LF); [now rewrite (IH _ _ _ H) |]. destruct (memc c [DOLLAR; BTICK; DQ; BS]); now rewrite (IH _ _ _ H).
Qed.

(** ** [_describe] *)
Lemma drop_id x : ~ In BS x -> drop_backslashes x = x.
Proof.
  induction x as [| c x IH]; intros H; [reflexivity |]. assert (N.eqb c BS = false) as E by (apply N.eqb_neq; intros ->; apply H; now left).
  destruct x as [| d x]; cbn [drop_backslashes]; rewrite E; [reflexivity |]. f_equal. apply IH. intros K. apply H. now right.
Qed.
Lemma drop_step c x : N.eqb c BS = false -> drop_backslashes (c :: x) = c :: drop_backslashes x.
Proof. intros E. destruct x; cbn [drop_backslashes]; rewrite E; reflexivity. Qed.
Lemma drop_escaped x : ~ In BS x -> drop_backslashes (escape_colon x) = x.
Proof.
  unfold escape_colon. induction x as [| c x IH]; intros H; [reflexivity |]. cbn [replace_c].
  destruct (N.eqb_spec c COLON) as [-> | Hc].
  - cbn [app drop_backslashes]. change (N.eqb BS BS) with true. cbn iota. f_equal. apply IH. intros K. apply H. now right.
  - cbn [app]. rewrite drop_step by (apply N.eqb_neq; intros ->; apply H; now left).
    f_equal. apply IH. intros K. apply H. now right.
Qed.
Lemma upto_step stop c x : N.eqb c BS = false -> stop (c :: x) = false -> upto stop (c :: x) = (let (a, r) := upto stop x in (c :: a, r)).
Proof. intros E H. destruct x; cbn [upto]; rewrite H; [reflexivity |]. rewrite E. reflexivity. Qed.
Lemma upto_escaped x r : ~ In BS x -> (r = [] \/ exists d, r = COLON :: d) -> upto (starts [COLON]) (escape_colon x ++ r) = (escape_colon x, r).
Proof.
  unfold escape_colon. intros H Hr. induction x as [| c x IH].
  - cbn [replace_c app]. destruct Hr as [-> | (d & ->)]; reflexivity.
  - cbn [replace_c]. destruct (N.eqb_spec c COLON) as [-> | Hc].
    + cbn [app upto]. change (starts [COLON] (BS :: COLON :: replace_c COLON [BS; COLON] x ++ r)) with false. cbn iota.
      change (N.eqb BS BS) with true. cbn iota. rewrite IH by (intros K; apply H; now right). reflexivity.
    + cbn [app]. rewrite upto_step.
      * rewrite IH by (intros K; apply H; now right). reflexivity.
      * apply N.eqb_neq. intros ->. apply H. now left.
      * cbn [starts memc existsb]. destruct (N.eqb_spec c COLON); [contradiction | reflexivity].
Qed.
Lemma describe_text x : ~ In BS x -> zsh_describe (escape_colon x) = (x, []).
Proof.
  intros H. unfold zsh_describe. rewrite <- (app_nil_r (escape_colon x)), upto_escaped by auto. cbn [tl drop_backslashes]. now rewrite drop_escaped.
Qed.
Lemma describe_both x d : ~ In BS x -> ~ In BS d -> zsh_describe (escape_colon x ++ COLON :: d) = (x, d).
Proof.
  intros H Hd. unfold zsh_describe. rewrite upto_escaped by eauto. cbn [tl]. now rewrite drop_escaped, drop_id.
Qed.

(** ** Texts between others *)
Lemma behind_app p x : text_behind p (p ++ x) = Some x.
Proof. induction p as [| c p IH]; [now destruct x |]. cbn [app text_behind]. now rewrite N.eqb_refl. Qed.
Lemma before_app p x : text_before p (x ++ p) = Some x.
Proof. unfold text_before. rewrite rev_app_distr, behind_app. cbn [option_map]. now rewrite rev_involutive. Qed.
Lemma between_app a x b : text_between a b (a ++ x ++ b) = Some x.
Proof. unfold text_between. now rewrite behind_app, before_app. Qed.

Lemma quote_start x : exists c q, quote x = c :: q /\ (is_safe c = true \/ c = SQ \/ c = DQ).
Proof.
  destruct (quote_cases x) as [[Hs [Hn E]]|[[_ [Hs E]]|[[_ [_ [Hd E]]]|[_ [_ [_ E]]]]]]; rewrite E; try (eexists _, _; split; [reflexivity | tauto]).
  destruct x as [| c x]; [congruence |]. cbn in Hs. apply andb_true_iff in Hs as [Hc _]. eexists _, _. split; [reflexivity | tauto].
Qed.
Lemma quote_end x : exists c q, quote x = q ++ [c] /\ (is_safe c = true \/ c = SQ \/ c = DQ).
Proof.
  destruct (quote_cases x) as [[Hs [Hn E]]|[[_ [Hs E]]|[[_ [_ [Hd E]]]|[_ [_ [_ E]]]]]]; rewrite E; try (eexists _, (_ :: _); split; [reflexivity | tauto]).
  destruct (exists_last Hn) as (q & c & ->). exists c, q. split; [reflexivity |]. left. rewrite forallb_app in Hs. apply andb_true_iff in Hs as [_ Hc].
  cbn in Hc. now rewrite andb_true_r in Hc.
Qed.
Lemma start_neq c d : (is_safe c = true \/ c = SQ \/ c = DQ) -> is_safe d = false -> d <> SQ -> d <> DQ -> c <> d.
Proof. intros [H | [-> | ->]] Hd H1 H2 <-; congruence. Qed.
Lemma start_space c : (is_safe c = true \/ c = SQ \/ c = DQ) -> is_space c = false.
Proof. intros [H | [-> | ->]]; [now apply is_space_safe | reflexivity ..]. Qed.

(** ** Actions *)
Lemma action_plain ts vs : Forall2 zword ts vs -> (forall t, In t ts -> exists c q, t = c :: q /\ c <> LPAR) ->
  zsh_action (s "(" ++ join [SP] ts ++ s ")") = Some (map (fun w => (w, [])) vs).
Proof.
  intros H Hf. unfold zsh_action.
  assert (text_between (s "((") (s "))") (s "(" ++ join [SP] ts ++ s ")") = None) as ->.
  { unfold text_between. assert (text_behind (s "((") (s "(" ++ join [SP] ts ++ s ")") = None) as ->; [| reflexivity].
    change (text_behind (s "((") (s "(" ++ join [SP] ts ++ s ")")) with (text_behind [LPAR] (join [SP] ts ++ s ")")).
    destruct ts as [| t ts]; [reflexivity |]. destruct (Hf t (or_introl eq_refl)) as (c & q & -> & Hc).
    destruct ts; cbn [join app text_behind]; rewrite N.eqb_sym, (proj2 (N.eqb_neq _ _) Hc); reflexivity. }
  rewrite between_app. rewrite (zwords_array (join [SP] ts) vs); [reflexivity |].
  rewrite <- (app_nil_r (join [SP] ts)). apply (zwords_join ts vs [] []); [exact H | intros ? [] ..].
Qed.
Lemma action_described ts vs : Forall2 zword ts vs ->
  zsh_action (s "((" ++ join [SP] ts ++ s "))") = Some (map zsh_describe vs).
Proof.
  intros H. unfold zsh_action. rewrite between_app, (zwords_array (join [SP] ts) vs); [reflexivity |].
  rewrite <- (app_nil_r (join [SP] ts)). apply (zwords_join ts vs [] []); [exact H | intros ? [] ..].
Qed.
Lemma action_text a : hd 0%N a <> EQ -> zsh_action_text (quote a) = zsh_action a.
Proof.
  intros H. unfold zsh_action_text. rewrite (zwords_array (quote a) [a]); [reflexivity |].
  rewrite <- (app_nil_r (quote a)). apply (zw_cons [] (quote a) a [] []); [intros ? [] | now apply zword_quote | exact I | apply zw_nil; intros ? []].
Qed.

(** ** Functions *)
Definition code_lines (metavar : str) (lines : list (list str)) : list str :=
  s "local items=(" :: map (fun ts => s "  " ++ join [SP] ts) lines ++ [s ")"; []; s "_describe -- " ++ quote metavar ++ s " items"].
Definition text_ok (t : str) : Prop :=
  one_line t = true /\ contains FN t = false /\ exists c q, t = c :: q /\ is_space c = false /\ c <> HASH.

Lemma join_free ts : Forall text_ok ts -> one_line (join [SP] ts) = true /\ contains FN (join [SP] ts) = false.
Proof.
  induction 1 as [| t ts (H1 & H2 & _) Hts (I1 & I2)]; [split; reflexivity |]. destruct ts as [| t' ts]; [split; assumption |].
  rewrite join_cons. split; [now rewrite !one_line_app, H1, I1 |]. now apply contains_stop2.
Qed.
Lemma join_first ts : Forall text_ok ts -> ts <> [] -> exists c q, join [SP] ts = c :: q /\ is_space c = false /\ c <> HASH.
Proof.
  intros H Hn. destruct H as [| t ts (_ & _ & c & q & -> & Hc & Hh) _]; [contradiction |].
  exists c. destruct ts; [exists q | rewrite join_cons; eexists]; (split; [reflexivity | auto]).
Qed.
Lemma lines_ok ts : Forall text_ok ts -> ts <> [] -> line_ok (s "  " ++ join [SP] ts).
Proof.
  intros H Hn. destruct (join_free ts H) as (H1 & H2). destruct (join_first ts H Hn) as (c & q & E & Hc & Hh). split; [| split].
  - now rewrite one_line_app, H1.
  - rewrite E. change (lstrip_p is_space (s "  " ++ c :: q)) with (lstrip_p is_space (c :: q)). cbn [lstrip_p]. rewrite Hc. cbn [starts_with].
    rewrite N.eqb_sym, (proj2 (N.eqb_neq _ _) Hh). reflexivity.
  - change (s "  " ++ join [SP] ts) with ([] ++ SP :: ([] ++ SP :: join [SP] ts)). now repeat apply contains_stop2.
Qed.
Lemma line_indented ts : Forall text_ok ts -> ts <> [] -> indent_line 2 (s "  " ++ join [SP] ts) = s "    " ++ join [SP] ts.
Proof.
  intros H Hn. destruct (join_first ts H Hn) as (c & q & E & Hc & _). unfold indent_line.
  assert (forallb is_space (s "  " ++ join [SP] ts) = false) as ->; [| reflexivity].
  rewrite forallb_app, E. cbn [forallb]. rewrite Hc. apply andb_false_r.
Qed.
Lemma gaps_app a b : (forall l, In l a -> l <> []) -> a <> [] -> gaps (a ++ b) = gaps ([1%N] :: b).
Proof.
  intros H Hn. induction a as [| l a IH]; [contradiction |]. destruct a as [| l' a].
  - cbn [app gaps]. reflexivity.
  - assert (gaps (l :: (l' :: a) ++ b) = gaps ((l' :: a) ++ b)) as E.
    { cbn [gaps app]. destruct l' as [| c l']; [exfalso; apply (H []); [right; now left | reflexivity] |]. reflexivity. }
    change ((l :: l' :: a) ++ b) with (l :: (l' :: a) ++ b). rewrite E. apply IH; [| discriminate]. intros x Hx. apply H. now right.
Qed.
Lemma concat_lines (f : list str -> str) lines : lines <> [] -> concat (map (fun ts => LF :: f ts) lines) = LF :: join [LF] (map f lines).
Proof.
  intros H. induction lines as [| ts lines IH]; [contradiction |]. destruct lines as [| ts' lines]; [cbn; now rewrite app_nil_r |].
  cbn [map concat]. cbn [map] in IH. rewrite join_cons. cbn [concat map] in IH |- *. rewrite IH by discriminate. reflexivity.
Qed.
Lemma zwords_lines lines vss : Forall2 (Forall2 zword) lines vss ->
  zwords (concat (map (fun ts => LF :: s "    " ++ join [SP] ts) lines)) (concat vss).
Proof.
  induction 1 as [| ts vs lines vss Hts H IH]; [apply zw_nil; intros ? [] |]. cbn [map concat].
  apply zwords_app; [| exact IH |].
  - rewrite <- (app_nil_r (join [SP] ts)). apply (zwords_join ts vs (LF :: s "    ") []); [exact Hts | | intros ? []].
    intros c [<- | Hc]; [reflexivity |]. now apply (zblank_sp 4).
  - destruct lines; [exact I | reflexivity].
Qed.
Lemma function_ok name metavar lines vss : lines <> [] -> Forall (fun ts => ts <> [] /\ Forall text_ok ts) lines ->
  Forall2 (Forall2 zword) lines vss -> hd 0%N metavar <> EQ -> one_line metavar = true -> contains FN metavar = false ->
  exists text, get_code ShellFunction (strip_p is_space (join [LF] (code_lines metavar lines))) name [] = Ok text /\
    zsh_function name text = Some (map zsh_describe (concat vss)).
Proof.
  intros Hn Hl Hw Hm1 Hm2 Hm3.
  set (body := join [LF] (map (indent_line 2) (code_lines metavar lines))).
  assert (body = s "  local items=(" ++ concat (map (fun ts => LF :: s "    " ++ join [SP] ts) lines) ++ [LF] ++ s "  )" ++ [LF; LF]
                 ++ s "  _describe -- " ++ quote metavar ++ s " items") as Eb.
  { unfold body, code_lines. cbn [map]. rewrite map_app, map_map. cbn [map].
    change (indent_line 2 (s "local items=(")) with (s "  local items=("). change (indent_line 2 (s ")")) with (s "  )"). change (indent_line 2 []) with (@nil N).
    change (indent_line 2 (s "_describe -- " ++ quote metavar ++ s " items")) with (s "  _describe -- " ++ quote metavar ++ s " items").
    rewrite (map_ext_in _ (fun ts => s "    " ++ join [SP] ts)).
    2:{ intros ts Hts. rewrite Forall_forall in Hl. destruct (Hl ts Hts). now apply line_indented. }
    destruct lines as [| ts lines]; [contradiction |]. change (join [LF] (?a :: map ?f (?b :: ?c) ++ ?d)) with (join [LF] ([a] ++ (map f (b :: c) ++ d))).
    rewrite join_app by discriminate. rewrite join_app by discriminate. rewrite concat_lines by discriminate. cbn [join].
    change (s "  local items=(" ++ [LF] ++ (join [LF] (map (fun ts0 => s "    " ++ join [SP] ts0) (ts :: lines))) ++ ?r) with
      (s "  local items=(" ++ (LF :: join [LF] (map (fun ts0 => s "    " ++ join [SP] ts0) (ts :: lines))) ++ r). reflexivity. }
  exists (wrapped ShellFunction name body). split.
  - apply (emitted ShellFunction name (code_lines metavar lines) 108%N (s "ocal items=(" ++ [LF] ++ join [LF] (map (fun ts => s "  " ++ join [SP] ts) lines ++ [s ")"; []; s "_describe -- " ++ quote metavar ++ s " items"]))
      (removelast body) 115%N).
    + unfold code_lines. constructor; [repeat split; reflexivity |]. apply Forall_app. split.
      * apply Forall_forall. intros l Hi. apply in_map_iff in Hi as (ts & <- & Hi). rewrite Forall_forall in Hl. destruct (Hl ts Hi). now apply lines_ok.
      * constructor; [repeat split; reflexivity |]. constructor; [repeat split; reflexivity |]. constructor; [| constructor]. split; [| split; [reflexivity |]].
        -- rewrite !one_line_app. now rewrite one_line_quote.
        -- change (s "_describe -- " ++ quote metavar ++ s " items") with (s "_describe --" ++ SP :: (quote metavar ++ SP :: s "items")).
           repeat apply contains_stop2; try reflexivity. now apply contains_quote.
    + unfold code_lines. change (s "local items=(" :: ?a ++ ?b) with ((s "local items=(" :: a) ++ b). rewrite gaps_app; [reflexivity | | discriminate].
      intros l [<- | Hi]; [discriminate |]. apply in_map_iff in Hi as (ts & <- & _). discriminate.
    + unfold code_lines. destruct lines; [contradiction |]. reflexivity.
    + reflexivity.
    + fold body. rewrite (app_removelast_last 0%N) at 1; [| rewrite Eb; discriminate]. f_equal. f_equal. rewrite Eb.
      rewrite !app_assoc. change (s " items") with (s " item" ++ [115%N]). rewrite app_assoc. apply last_last.
    + reflexivity.
    + exists (removelast (join [LF] (code_lines metavar lines))). rewrite (app_removelast_last 0%N) at 1; [| unfold code_lines; destruct lines; discriminate].
      f_equal. f_equal. unfold code_lines. change (s "local items=(" :: ?a ++ ?b) with ((s "local items=(" :: a) ++ b).
      rewrite join_app by discriminate. cbn [join]. change (s " items") with (s " item" ++ [115%N]). rewrite !app_assoc. apply last_last.
    + discriminate.
  - unfold zsh_function, wrapped. replace (name ++ s "() {" ++ [LF] ++ body ++ [LF] ++ s "}") with ((name ++ s "() {" ++ [LF]) ++ body ++ ([LF] ++ s "}")) by (now rewrite <- !app_assoc).
    rewrite between_app.
    unfold zsh_code. rewrite Eb.
    set (items := concat (map (fun ts => LF :: s "    " ++ join [SP] ts) lines)).
    set (rest := [LF; LF] ++ s "  _describe -- " ++ quote metavar ++ s " items").
    change (s "  local items=(" ++ items ++ [LF] ++ s "  )" ++ rest) with (SP :: SP :: (s "local items=(" ++ (items ++ [LF; SP; SP] ++ RPAR :: rest))).
    change (skip_blanks (SP :: SP :: (s "local items=(" ++ ?x))) with (s "local items=(" ++ x). rewrite behind_app.
    assert (zwords (items ++ [LF; SP; SP]) (concat vss ++ [])) as W.
    { apply zwords_app; [now apply zwords_lines | apply zw_nil; intros c [<- | [<- | [<- | []]]]; reflexivity | reflexivity]. }
    rewrite app_nil_r in W. rewrite app_assoc. destruct (zwords_read _ _ W) as (l & E1 & _). rewrite (to_parenthesis_end _ rest _ _ _ E1).
    rewrite (zwords_array _ _ W).
    assert (zwords rest [s "_describe"; s "--"; metavar; s "items"]) as W2.
    { change rest with ([LF; LF; SP; SP] ++ (s "_describe -- " ++ quote metavar ++ s " items")). rewrite <- (app_nil_r (s "_describe -- " ++ quote metavar ++ s " items")).
      change (s "_describe -- " ++ quote metavar ++ s " items") with (join [SP] [s "_describe"; s "--"; quote metavar; s "items"]).
      apply zwords_join.
      - constructor; [apply (zword_quote (s "_describe")); discriminate |]. constructor; [apply (zword_quote (s "--")); discriminate |].
        constructor; [now apply zword_quote |]. constructor; [apply (zword_quote (s "items")); discriminate | constructor].
      - intros c [<- | [<- | [<- | [<- | []]]]]; reflexivity.
      - intros ? []. }
    rewrite (zwords_array _ _ W2). reflexivity.
Qed.
