(** * Proofs about help texts. *)
From Verif Require Import Base HelpParser SpecHelp.
Open Scope list_scope.

Lemma memc_In c l : memc c l = true <-> In c l.
Proof.
  unfold memc. rewrite existsb_exists. split; [intros (d & Hd & E); apply N.eqb_eq in E; now subst | intros H; exists c; split; [exact H | apply N.eqb_refl]].
Qed.
Lemma blank_memc c : memc c [SP; TAB] = true <-> blank c.
Proof. rewrite memc_In. cbn. unfold blank. intuition. Qed.
Lemma delim_memc c : memc c [COMMA; PIPE] = true <-> delimiter c.
Proof. rewrite memc_In. cbn. unfold delimiter. intuition. Qed.

(** ** The readers take what they return *)
Lemma eat_line_spec x l r : eat_line x = (l, r) -> x = l ++ r /\ ((exists u, l = u ++ [LF] /\ ~ In LF u) \/ (~ In LF l /\ r = [])).
Proof.
  revert l r. induction x as [| c x IH]; intros l r H; cbn [eat_line] in H.
  - injection H as <- <-. split; [reflexivity |]. right. split; [intros [] | reflexivity].
  - destruct (N.eqb c LF) eqn:E.
    + apply N.eqb_eq in E. subst c. injection H as <- <-. split; [reflexivity |]. left. exists []. split; [reflexivity | intros []].
    + apply N.eqb_neq in E. destruct (eat_line x) as [l' r'] eqn:El. injection H as <- <-. destruct (IH l' r' eq_refl) as [-> Hl].
      split; [reflexivity |]. destruct Hl as [(u & -> & Hu) | [Hl ->]].
      * left. exists (c :: u). split; [reflexivity |]. intros [-> | K]; [now apply E | now apply Hu].
      * right. split; [| reflexivity]. intros [-> | K]; [now apply E | now apply Hl].
Qed.
Lemma eat_line_line x l r : eat_line x = (l, r) -> line l.
Proof. intros H. apply eat_line_spec in H as [_ [H | [H _]]]; [now right | now left]. Qed.
Lemma eat_space_spec x sp r : eat_space x = (sp, r) -> x = sp ++ r /\ blanks sp /\ stream_is_space r = false.
Proof.
  revert sp r. induction x as [| c x IH]; intros sp r H; cbn [eat_space] in H.
  - injection H as <- <-. repeat split. intros c [].
  - destruct (memc c [SP; TAB]) eqn:E.
    + destruct (eat_space x) as [l' r'] eqn:El. injection H as <- <-. destruct (IH l' r' eq_refl) as (-> & Hb & Hr).
      split; [reflexivity |]. split; [| exact Hr]. intros d [<- | Hd]; [now apply blank_memc | now apply Hb].
    + injection H as <- <-. split; [reflexivity |]. split; [intros d [] | exact E].
Qed.
Lemma option_chars_spec x o r : option_chars x = (o, r) -> x = o ++ r /\
  (forall c, In c o -> memc c OPTION_BREAK_CHARS = false) /\ (r = [] \/ peek_in OPTION_BREAK_CHARS r = true).
Proof.
  revert o r. induction x as [| c x IH]; intros o r H; cbn [option_chars] in H.
  - injection H as <- <-. split; [reflexivity |]. split; [intros c [] | now left].
  - destruct (memc c OPTION_BREAK_CHARS) eqn:E.
    + injection H as <- <-. split; [reflexivity |]. split; [intros d [] | now right].
    + destruct (option_chars x) as [l' r'] eqn:El. injection H as <- <-. destruct (IH l' r' eq_refl) as (-> & Hb & Hr).
      split; [reflexivity |]. split; [| exact Hr]. intros d [<- | Hd]; [exact E | now apply Hb].
Qed.
Lemma option_string_spec x o r : parse_option_string x = Some (o, r) ->
  exists sp, x = sp ++ o ++ r /\ blanks sp /\ option_string o /\ (r = [] \/ peek_in OPTION_BREAK_CHARS r = true).
Proof.
  unfold parse_option_string. destruct (eat_space x) as [sp p] eqn:Es. cbn [snd]. apply eat_space_spec in Es as (-> & Hb & _).
  destruct (peek_in [DASH] p) eqn:Ed; [| discriminate]. cbn [negb]. destruct (option_chars p) as [o' r'] eqn:Eo.
  destruct (mems o' _) eqn:Em; [discriminate |]. intros H. injection H as -> ->. pose proof Eo as Eo'.
  apply option_chars_spec in Eo as (-> & Ho & Hr). exists sp. split; [reflexivity |]. split; [exact Hb |]. split; [| exact Hr].
  assert (Hd : exists o', o = DASH :: o').
  { destruct o as [| c o'].
    - destruct Hr as [-> | Hr]; [discriminate |]. cbn [app] in Ed. destruct r as [| c r]; [discriminate |].
      cbn in Ed. destruct (N.eqb_spec c DASH); [subst; discriminate | discriminate].
    - cbn in Ed. destruct (N.eqb_spec c DASH); [subst; now exists o' | discriminate]. }
  split; [exact Hd |]. split; [intros -> ; discriminate |]. split; [intros ->; discriminate |].
  intros c Hc. specialize (Ho c Hc). assert (K : ~ In c OPTION_BREAK_CHARS) by (intros K; apply memc_In in K; congruence).
  unfold blank, delimiter. cbn in K. intuition.
Qed.
Lemma metavar_spec x : forall inside m r, parse_metavar_ inside x = (m, r) -> x = m ++ r.
Proof.
  induction x as [| c x IH]; intros inside m r H; cbn [parse_metavar_] in H; [now injection H as <- <- |].
  destruct inside as [d |].
  - destruct (parse_metavar_ _ x) as [l' r'] eqn:E. injection H as <- <-. now rewrite (IH _ _ _ E).
  - destruct (memc c [SP; TAB; LF]); [now injection H as <- <- |]. destruct (closing c).
    + destruct (parse_metavar_ _ x) as [l' r'] eqn:E. injection H as <- <-. now rewrite (IH _ _ _ E).
    + destruct (memc c OPTION_DELIMITER_CHARS); [now injection H as <- <- |].
      destruct (parse_metavar_ None x) as [l' r'] eqn:E. injection H as <- <-. now rewrite (IH _ _ _ E).
Qed.
Lemma delimiter_spec x b r : parse_option_delimiter x = Ok (b, r) ->
  match b with true => exists sp d, x = sp ++ [d] ++ r /\ blanks sp /\ delimiter d | false => r = x end.
Proof.
  unfold parse_option_delimiter. destruct (eat_space x) as [sp p] eqn:Es. cbn [snd]. apply eat_space_spec in Es as (-> & Hb & _).
  destruct p as [| c p]; [discriminate |]. destruct (memc c [COMMA; PIPE]) eqn:E; intros H; injection H as <- <-; [| reflexivity]. exists sp, c. split; [reflexivity |]. split; [exact Hb | now apply delim_memc].
Qed.
Lemma option_spec x o r : parse_option_with_metavar x = Ok (Some (o, r)) -> exists t, x = t ++ r /\ option_text o t.
Proof.
  unfold parse_option_with_metavar. destruct (parse_option_string x) as [[opt r0] |] eqn:Eo; [| discriminate].
  apply option_string_spec in Eo as (sp & -> & Hb & Ho & _).
  assert (K : forall m f t, r0 = t ++ r -> o = MkOption opt m f -> argument_text m f t -> exists t', sp ++ opt ++ r0 = t' ++ r /\ option_text o t').
  { intros m f t -> -> Ha. exists (sp ++ opt ++ t). split; [now rewrite <- !app_assoc | now constructor]. }
  destruct (str_eqb (firstn 2 r0) (s "[=")) eqn:Eb.
  { apply str_eqb_eq in Eb. destruct r0 as [| a [| b r0]]; try discriminate.
    assert (Ea : a = LBRK) by exact (f_equal (fun l => hd 0%N l) Eb). assert (Eb' : b = EQ) by exact (f_equal (fun l => hd 0%N (tl l)) Eb). subst a b.
    unfold parse_metavar. change (parse_metavar_ None (LBRK :: EQ :: r0)) with
      (let '(l, r) := (let '(l, r) := parse_metavar_ (Some RBRK) r0 in (EQ :: l, r)) in (LBRK :: l, r)).
    destruct (parse_metavar_ (Some RBRK) r0) as [m r'] eqn:Em. intros H. injection H as <- <-. apply metavar_spec in Em. subst r0.
    apply (K (Some (LBRK :: EQ :: m)) true (LBRK :: EQ :: m) eq_refl eq_refl). constructor. }
  destruct (peek_in [EQ] r0) eqn:Ee.
  { destruct r0 as [| c r0]; [discriminate |]. cbn [peek_in memc existsb] in Ee. rewrite orb_false_r in Ee. apply N.eqb_eq in Ee. subst c.
    cbn [tl]. destruct (parse_metavar r0) as [m r'] eqn:Em. intros H. injection H as <- <-. apply metavar_spec in Em. subst r0.
    apply (K (Some m) false (EQ :: m) eq_refl eq_refl). constructor. }
  assert (N : o = MkOption opt None false -> r0 = r -> exists t', sp ++ opt ++ r0 = t' ++ r /\ option_text o t').
  { intros Ho' Er. apply (K None false []); [exact Er | exact Ho' | constructor]. }
  destruct (isspace (firstn 2 r0)); [intros H; injection H as <- <-; now apply N |].
  destruct (parse_option_delimiter r0) as [e | [b q]]; [discriminate |]. cbn [bind].
  destruct b; [intros H; injection H as <- <-; now apply N |].
  destruct (stream_is_space r0) eqn:Es; [| intros H; injection H as <- <-; now apply N].
  destruct r0 as [| c r0]; [discriminate |]. cbn [tl]. destruct (parse_metavar r0) as [m r'] eqn:Em.
  intros H. injection H as <- <-. apply metavar_spec in Em. subst r0.
  apply (K (Some m) false (c :: m) eq_refl eq_refl). constructor. now apply blank_memc.
Qed.
Lemma option_text_nonempty o t : option_text o t -> t <> [].
Proof. intros H. destruct H as [sp o m f t Hb ((o' & ->) & _) Ha]. destruct sp; discriminate. Qed.

(** ** Nothing is lost *)
Lemma options_spec fuel : forall acc x os r, options_loop fuel acc x = Ok (os, r) ->
  exists os', os = acc ++ os' /\ ((os' = [] /\ r = x) \/ exists t, x = t ++ r /\ options_text os' t).
Proof.
  induction fuel as [| fuel IH]; intros acc x os r H; cbn [options_loop] in H.
  - destruct x; [| discriminate]. injection H as <- <-. exists []. split; [now rewrite app_nil_r | now left].
  - destruct x as [| c x0]; [injection H as <- <-; exists []; split; [now rewrite app_nil_r | now left] |].
    set (x := c :: x0) in *. destruct (parse_option_with_metavar x) as [e | [[o q] |]] eqn:Eo; [discriminate | |]; cbn [bind] in H.
    + apply option_spec in Eo as (t & Ex & Ht). destruct (parse_option_delimiter q) as [e | [b q']] eqn:Ed; [discriminate |]. cbn [bind] in H.
      apply delimiter_spec in Ed. destruct b.
      * destruct Ed as (sp & d & -> & Hb & Hd). apply IH in H as (os' & -> & Hos). exists (o :: os'). split; [now rewrite <- app_assoc |].
        right. destruct Hos as [[-> ->] | (t' & -> & Ht')].
        -- exists (t ++ sp ++ [d]). split; [now rewrite Ex, <- !app_assoc | now constructor].
        -- exists (t ++ sp ++ [d] ++ t'). split; [now rewrite Ex, <- !app_assoc | now constructor].
      * subst q'. injection H as <- <-. exists [o]. split; [reflexivity |]. right. exists t. split; [exact Ex | now constructor].
    + injection H as <- <-. exists []. split; [now rewrite app_nil_r | now left].
Qed.
Lemma trailing_line_spec x l r : parse_trailing_description_line x = Some (l, r) ->
  exists sp, sp <> [] /\ blanks sp /\ x = sp ++ l ++ r /\ ((exists u, l = u ++ [LF] /\ ~ In LF u) \/ (~ In LF l /\ r = [])).
Proof.
  unfold parse_trailing_description_line. destruct (stream_is_space x) eqn:Ex; [| discriminate]. cbn [negb].
  destruct (eat_space x) as [sp p] eqn:Es. apply eat_space_spec in Es as (-> & Hb & Hp).
  destruct (_ && _); [discriminate |]. intros H. injection H as H. apply eat_line_spec in H as [-> H].
  exists sp. split; [| now repeat split]. intros ->. cbn [app] in Ex. congruence.
Qed.
Lemma trailing_none_nil : parse_trailing_description_line [] = None.
Proof. reflexivity. Qed.
(** [content] and the lines that follow, where [content] is a whole line *)
Lemma trailing_spec fuel : forall content x d r, trailing_lines fuel content x = Ok (d, r) ->
  exists d' t, d = content ++ d' /\ x = t ++ r /\ ((d' = [] /\ t = []) \/ description_text d' t).
Proof.
  induction fuel as [| fuel IH]; intros content x d r H; [discriminate |]. cbn [trailing_lines] in H.
  destruct (parse_trailing_description_line x) as [[l q] |] eqn:El; [| injection H as <- <-; exists [], []; rewrite app_nil_r; repeat split; now left].
  pose proof El as El'. apply trailing_line_spec in El as (sp & Hn & Hb & -> & Hl).
  destruct l as [| c l].
  - injection H as <- <-. exists [], sp. rewrite app_nil_r. split; [reflexivity |]. split; [reflexivity |]. right.
    rewrite <- (app_nil_r sp). constructor; [exact Hb | left; intros []].
  - apply IH in H as (d' & t & -> & -> & Hd). exists ((c :: l) ++ d'), (sp ++ (c :: l) ++ t).
    split; [now rewrite app_assoc |]. split; [now rewrite <- !app_assoc |]. right.
    destruct Hl as [(u & Eu & Hu) | [Hl Hr]].
    + rewrite Eu. destruct Hd as [[-> ->] | Hd].
      * rewrite !app_nil_r. constructor; [exact Hb |]. right. now exists u.
      * rewrite <- !app_assoc. exact (next_line sp u d' t Hb Hu Hd).
    + destruct Hd as [[-> ->] | Hd].
      * rewrite !app_nil_r. constructor; [exact Hb | now left].
      * apply app_eq_nil in Hr as [-> ->]. inversion Hd as [sp' l' Hb' Hl' E1 E2 | sp' l' d2 t2 _ _ _ E1 E2].
        -- apply app_eq_nil in E2 as [-> ->]. subst. rewrite !app_nil_r. constructor; [exact Hb | now left].
        -- destruct sp'; [destruct l' |]; discriminate.
Qed.
Lemma description_spec x d r : parse_description x = Ok (d, r) -> exists t, x = t ++ r /\ description_text d t.
Proof.
  unfold parse_description. destruct (eat_space x) as [sp p] eqn:Es. cbn [snd]. apply eat_space_spec in Es as (-> & Hb & _).
  destruct (eat_line p) as [l q] eqn:El. pose proof (eat_line_line _ _ _ El) as Hline. apply eat_line_spec in El as [-> Hl]. intros H.
  apply trailing_spec in H as (d' & t & -> & -> & Hd). exists (sp ++ l ++ t). split; [now rewrite <- !app_assoc |].
  destruct Hd as [[-> ->] | Hd]; [rewrite !app_nil_r; now constructor |].
  destruct Hl as [(u & -> & Hu) | [Hl Hr]]; [rewrite <- !app_assoc; now apply next_line |].
  apply app_eq_nil in Hr as [-> ->]. inversion Hd as [sp' l' Hb' Hl' E1 E2 | sp' l' d2 t2 _ _ _ E1 E2].
  - apply app_eq_nil in E2 as [-> ->]. subst. rewrite !app_nil_r. now constructor.
  - destruct sp'; [destruct l' |]; discriminate.
Qed.
Lemma item_spec x i r : parse_options_with_description x = Ok (Some (i, r)) -> exists t, x = t ++ r /\ t <> [] /\ item_text i t.
Proof.
  unfold parse_options_with_description. destruct (options_loop _ [] x) as [e | [os q]] eqn:Eo; [discriminate |]. cbn [bind].
  apply options_spec in Eo as (os' & -> & Ho). cbn [app]. destruct os' as [| o os']; [discriminate |].
  destruct Ho as [[Ho _] | (t & -> & Ht)]; [discriminate |].
  assert (Hne : t <> []).
  { inversion Ht as [o0 t0 H0 | o0 t0 sp d H0 | o0 os0 t0 sp d t' H0]; apply option_text_nonempty in H0; subst; [exact H0 | |]; destruct t0; (discriminate || congruence). }
  destruct (peek_in _ q).
  - destruct (parse_description q) as [e | [d q']] eqn:Ed; [discriminate |]. cbn [bind]. intros H. injection H as <- <-.
    apply description_spec in Ed as (t' & -> & Ht'). exists (t ++ t'). split; [now rewrite app_assoc |]. split; [destruct t; (discriminate || congruence) | now constructor].
  - intros H. injection H as <- <-. exists t. split; [reflexivity |]. split; [exact Hne | now constructor].
Qed.
Lemma items_spec fuel : forall acc x is, parse_loop fuel acc x = Ok is -> exists is', is = acc ++ is' /\ items_text is' x.
Proof.
  induction fuel as [| fuel IH]; intros acc x is H; cbn [parse_loop] in H.
  - destruct x; [| discriminate]. injection H as <-. exists []. split; [now rewrite app_nil_r | constructor].
  - destruct x as [| c x0]; [injection H as <-; exists []; split; [now rewrite app_nil_r | constructor] |].
    set (x := c :: x0) in *. destruct (parse_options_with_description x) as [e | [[i q] |]] eqn:Eo; [discriminate | |]; cbn [bind] in H.
    + apply item_spec in Eo as (t & -> & _ & Ht). apply IH in H as (is' & -> & Hi). exists (i :: is'). split; [now rewrite <- app_assoc | now constructor].
    + destruct (eat_line x) as [l q] eqn:El. pose proof (eat_line_line _ _ _ El) as Hline. apply eat_line_spec in El as [-> _].
      apply IH in H as (is' & -> & Hi). exists (Unparsed l :: is'). split; [now rewrite <- app_assoc |]. constructor; [now constructor | exact Hi].
Qed.
