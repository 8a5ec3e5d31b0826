(** * Proofs: the specifications for [_arguments] are read back as they were meant. *)
From Coq Require Import Permutation DecimalNat.
From Verif Require Import Base PyStr Algo AlgoProofs Shell ShellProofs Cli CliProofs ZshUtils SpecZsh ZshReading.
Open Scope list_scope.

(** ** Escaped texts *)

Definition escaped (chars : str) (x : str) : str := flat_map (fun c => if memc c chars then [BS; c] else [c]) x.
Lemma escape_colon_escaped x : escape_colon x = escaped [COLON] x.
Proof.
  unfold escape_colon, escaped. induction x as [| c x IH]; [reflexivity |]. cbn [replace_c flat_map]. rewrite IH. unfold memc. cbn [existsb].
  rewrite orb_false_r. destruct (N.eqb_spec c COLON) as [-> | _]; reflexivity.
Qed.
Lemma brackets_escaped x : escape_colon (escape_square_brackets x) = escaped [COLON; LBRK; RBRK] x.
Proof.
  unfold escape_colon, escape_square_brackets, escaped. induction x as [| c x IH]; [reflexivity |]. cbn [flat_map]. rewrite <- IH. unfold memc. cbn [existsb].
  rewrite orb_false_r. cbn [replace_c]. destruct (N.eqb_spec c LBRK) as [-> | H1]; [reflexivity |]. cbn [replace_c].
  destruct (N.eqb_spec c RBRK) as [-> | H2]; [reflexivity |]. cbn [replace_c]. destruct (N.eqb_spec c COLON) as [-> | H3]; reflexivity.
Qed.
Lemma memc_cons c d l : memc c (d :: l) = N.eqb c d || memc c l.
Proof. reflexivity. Qed.
Lemma tame_head chars d x : tame chars (BS :: d :: x) = true -> memc d (BS :: chars) = false /\ tame chars x = true.
Proof.
  cbn [tame]. replace (N.eqb BS BS) with true by reflexivity. cbn [at_end_or]. intros H. apply andb_true_iff in H as [H1 H2].
  apply negb_true_iff in H1. split; [exact H1 |]. rewrite memc_cons in H1. apply orb_false_iff in H1 as [H1 _]. rewrite H1 in H2. exact H2.
Qed.
Lemma upto_escaped chars d x : memc BS chars = false -> memc d chars = true -> tame chars x = true ->
  forall r, r = [] \/ starts [d] r = true -> upto (starts [d]) (escaped chars x ++ r) = (escaped chars x, r).
Proof.
  intros Hb Hd.
  assert (Hbd : N.eqb BS d = false). { destruct (N.eqb_spec BS d) as [<- | ]; [congruence | reflexivity]. }
  assert (Hr : forall r, r = [] \/ starts [d] r = true -> upto (starts [d]) r = ([], r)).
  { intros r [-> | H]; [reflexivity |]. destruct r as [| c r]; [discriminate |]. cbn [upto]. now rewrite H. }
  remember (List.length x) as n eqn:En. assert (Hn : List.length x <= n) by lia. clear En. revert x Hn.
  induction n as [| n IH]; intros x Hn Ht r Hs.
  { destruct x; [| cbn in Hn; lia]. cbn [escaped flat_map app]. auto. }
  destruct x as [| c x]; [cbn [escaped flat_map app]; auto |]. cbn [List.length] in Hn.
  change (escaped chars (c :: x)) with ((if memc c chars then [BS; c] else [c]) ++ escaped chars x).
  destruct (N.eqb_spec c BS) as [-> | Hc].
  - rewrite Hb. destruct x as [| e x].
    { cbn in Ht. discriminate. }
    apply tame_head in Ht as [He Ht]. rewrite memc_cons in He. apply orb_false_iff in He as [He1 He2].
    change (escaped chars (e :: x)) with ((if memc e chars then [BS; e] else [e]) ++ escaped chars x). rewrite He2. cbn [app upto].
    change (starts [d] (BS :: e :: escaped chars x ++ r)) with (N.eqb BS d || false)%bool. rewrite Hbd. cbn [orb].
    replace (N.eqb BS BS) with true by reflexivity. rewrite IH by (cbn in Hn; lia || assumption). reflexivity.
  - assert (Htx : tame chars x = true). { cbn [tame] in Ht. now apply andb_true_iff in Ht as [_ Ht]. }
    destruct (memc c chars) eqn:Em.
    + cbn [app upto]. change (starts [d] (BS :: c :: escaped chars x ++ r)) with (N.eqb BS d || false)%bool. rewrite Hbd. cbn [orb].
      replace (N.eqb BS BS) with true by reflexivity. rewrite IH by (lia || assumption). reflexivity.
    + cbn [app upto]. assert (Hcd : N.eqb c d = false). { destruct (N.eqb_spec c d) as [<- | ]; [congruence | reflexivity]. }
      change (starts [d] (c :: escaped chars x ++ r)) with (N.eqb c d || false)%bool. rewrite Hcd. cbn [orb].
      assert (He : N.eqb c BS = false) by now apply N.eqb_neq. rewrite He. specialize (IH x ltac:(lia) Htx r Hs).
      destruct (escaped chars x ++ r) as [| e t] eqn:E.
      * apply app_eq_nil in E as [E1 E2]. now rewrite E1, E2.
      * rewrite IH. reflexivity.
Qed.
Lemma unescape_escaped chars x : memc BS chars = false -> tame chars x = true -> unescape chars (escaped chars x) = x.
Proof.
  intros Hb. induction x as [| c x IH]; intros Ht; [reflexivity |].
  change (escaped chars (c :: x)) with ((if memc c chars then [BS; c] else [c]) ++ escaped chars x).
  assert (Htx : tame chars x = true). { cbn [tame] in Ht. now apply andb_true_iff in Ht as [_ Ht]. }
  destruct (memc c chars) eqn:Em.
  - cbn [app unescape]. replace (N.eqb BS BS) with true by reflexivity. cbn [starts andb]. rewrite Em.
    assert (He : N.eqb c BS = false). { destruct (N.eqb_spec c BS) as [-> | ]; [congruence | reflexivity]. } rewrite He. cbn [andb]. now rewrite IH.
  - cbn [app unescape]. destruct (N.eqb_spec c BS) as [-> | Hc]; cbn [andb]; [| now rewrite IH].
    destruct x as [| e x]; [reflexivity |]. apply tame_head in Ht as [He _]. rewrite memc_cons in He. apply orb_false_iff in He as [_ He].
    replace (starts chars (escaped chars (e :: x))) with false; [now rewrite IH |].
    change (escaped chars (e :: x)) with ((if memc e chars then [BS; e] else [e]) ++ escaped chars x). rewrite He. cbn [app starts]. now rewrite He.
Qed.

(** Texts without a colon need not be tame. *)
Lemma upto_free d x : ~ In d x -> forall r, (r = [] \/ (starts [d] r = true /\ last x 0%N <> BS)) -> upto (starts [d]) (x ++ r) = (x, r).
Proof.
  remember (List.length x) as n eqn:En. assert (Hn : List.length x <= n) by lia. clear En. revert x Hn.
  induction n as [| n IH]; intros x Hn Hx r Hs.
  { destruct x; [| cbn in Hn; lia]. destruct Hs as [-> | [H _]]; [reflexivity |]. destruct r as [| c r]; [reflexivity |]. cbn [app upto]. now rewrite H. }
  destruct x as [| c x].
  { destruct Hs as [-> | [H _]]; [reflexivity |]. destruct r as [| c r]; [reflexivity |]. cbn [app upto]. now rewrite H. }
  cbn [List.length] in Hn. cbn [app upto]. assert (Hc : N.eqb c d = false). { apply N.eqb_neq. intros ->. apply Hx. now left. }
  change (starts [d] (c :: x ++ r)) with (N.eqb c d || false)%bool. rewrite Hc. cbn [orb].
  destruct x as [| e x].
  - cbn [app]. destruct r as [| e r]; [reflexivity |]. destruct Hs as [H | [H Hl]]; [discriminate |]. cbn in Hl.
    assert (He : N.eqb c BS = false) by now apply N.eqb_neq. rewrite He. cbn [upto]. now rewrite H.
  - cbn [app]. destruct (N.eqb c BS).
    + rewrite IH; [reflexivity | cbn in Hn; lia | cbn in Hx; tauto |]. destruct Hs as [Hs | [Hs Hl]]; [now left |]. right. split; [assumption |].
      destruct x as [| f x]; [discriminate | exact Hl].
    + specialize (IH (e :: x) ltac:(cbn in *; lia) ltac:(cbn in Hx |- *; tauto) r). cbn [app] in IH. rewrite IH; [reflexivity |].
      destruct Hs as [Hs | [Hs Hl]]; [now left |]. right. split; [assumption | exact Hl].
Qed.
Lemma unescape_free chars x : (forall c, In c chars -> ~ In c x) -> unescape chars x = x.
Proof.
  induction x as [| c x IH]; intros H; [reflexivity |]. cbn [unescape].
  assert (Hs : starts chars x = false).
  { destruct x as [| d x]; [reflexivity |]. cbn [starts]. apply memc_false. intros Hd. apply (H d Hd). right. now left. }
  rewrite Hs, andb_false_r, IH; [reflexivity |]. intros e He Hi. apply (H e He). now right.
Qed.
Lemma escaped_free chars x : (forall c, In c chars -> ~ In c x) -> escaped chars x = x.
Proof.
  induction x as [| c x IH]; intros H; [reflexivity |]. unfold escaped in *. cbn [flat_map].
  replace (memc c chars) with false; [cbn [app]; f_equal; apply IH; intros e He Hi; apply (H e He); now right |].
  symmetry. apply memc_false. intros Hc. apply (H c Hc). now left.
Qed.

(** ** Braces *)

Definition brace_free (x : str) : Prop := ~ In LBRC x /\ ~ In RBRC x.
Lemma expand_plain ms : forall before, has_brace ms = false -> expand_braces before ms = Some [map fst (before ++ ms)].
Proof.
  induction ms as [| m ms IH]; intros before H; [now rewrite app_nil_r |]. cbn in H. apply orb_false_iff in H as [H1 H2]. apply orb_false_iff in H1 as [H3 H4].
  cbn [expand_braces]. rewrite H3, H4, IH by assumption. now rewrite <- app_assoc.
Qed.
Lemma expand_skip a : forall before b, has_brace a = false -> expand_braces before (a ++ b) = expand_braces (before ++ a) b.
Proof.
  induction a as [| m a IH]; intros before b H; [now rewrite app_nil_r |]. cbn in H. apply orb_false_iff in H as [H1 H2]. apply orb_false_iff in H1 as [H3 H4].
  cbn [app expand_braces]. rewrite H3, H4, IH by assumption. now rewrite <- app_assoc.
Qed.
Definition list_item (x : str) : Prop := brace_free x /\ ~ In COMMA x.
Lemma alternatives_item x l r al ar : list_item x -> alternatives r = Some (al :: l, ar) ->
  alternatives (bare x ++ r) = Some ((bare x ++ al) :: l, ar).
Proof.
  intros [[H1 H2] H3] Hr. induction x as [| c x IH]; [exact Hr |]. cbn [bare map app alternatives]. unfold is_mark. cbn [fst snd negb]. rewrite !andb_true_r.
  cbn in H1, H2, H3. destruct (N.eqb_spec c LBRC) as [-> | _]; [tauto |]. destruct (N.eqb_spec c RBRC) as [-> | _]; [tauto |].
  change (map (fun c => (c, false)) x) with (bare x). rewrite IH by tauto. destruct (N.eqb_spec c COMMA) as [-> | _]; [tauto |]. reflexivity.
Qed.
Lemma alternatives_join l : forall r, l <> [] -> (forall x, In x l -> list_item x) ->
  alternatives (bare (join [COMMA] l) ++ (RBRC, false) :: r) = Some (map bare l, r).
Proof.
  induction l as [| x l IH]; intros r Hn H; [congruence |]. destruct l as [| y l].
  - cbn [join map]. rewrite (alternatives_item x [] ((RBRC, false) :: r) [] r); [now rewrite app_nil_r | apply H; now left | reflexivity].
  - specialize (IH r ltac:(discriminate) (fun z Hz => H z (or_intror Hz))).
    change (join [COMMA] (x :: y :: l)) with (x ++ [COMMA] ++ join [COMMA] (y :: l)). rewrite !bare_app, <- !app_assoc.
    change (bare [COMMA]) with [(COMMA, false)].
    eapply eq_trans.
    { apply (alternatives_item x (map bare (y :: l)) ([(COMMA, false)] ++ bare (join [COMMA] (y :: l)) ++ (RBRC, false) :: r) [] r);
        [apply H; now left |]. cbn [app alternatives]. rewrite IH. reflexivity. }
    now rewrite app_nil_r.
Qed.
Lemma expand_list pre l post : has_brace pre = false -> has_brace post = false -> 2 <= List.length l -> (forall x, In x l -> list_item x) ->
  expand_braces [] (pre ++ bare (s "{" ++ join [COMMA] l ++ s "}") ++ post)
  = Some (map (fun x => map fst pre ++ x ++ map fst post) l).
Proof.
  intros Hpre Hpost Hl H. rewrite expand_skip by assumption. cbn [app]. rewrite !bare_app, <- !app_assoc. change (bare (s "{")) with [(LBRC, false)].
  change (bare (s "}")) with [(RBRC, false)]. cbn [app expand_braces]. change (is_mark LBRC (LBRC, false)) with true. cbv iota.
  rewrite alternatives_join; [| intros ->; cbn in Hl; lia | assumption]. destruct l as [| x [| y l]]; try (cbn in Hl; lia).
  cbn [map]. rewrite Hpost. f_equal. rewrite !map_app, !fst_bare. f_equal. f_equal. rewrite map_map. apply map_ext. intros z.
  now rewrite !map_app, fst_bare.
Qed.

(** ** Reading one specification *)

Definition word_item (x : str) : Prop := x <> [] /\ ~ In SP x /\ ~ In RPAR x.
Lemma read_words_item x : forall w t, ~ In SP x -> ~ In RPAR x -> read_words w (x ++ t) = read_words (w ++ x) t.
Proof.
  induction x as [| c x IH]; intros w t H1 H2; [now rewrite app_nil_r |]. cbn [app read_words]. cbn in H1, H2.
  destruct (N.eqb_spec c RPAR) as [-> | _]; [tauto |]. destruct (N.eqb_spec c SP) as [-> | _]; [tauto |].
  rewrite IH by tauto. now rewrite <- app_assoc.
Qed.
Lemma read_words_join l : forall t, l <> [] -> (forall x, In x l -> word_item x) ->
  read_words [] (join [SP] l ++ s ")" ++ t) = Some (l, t).
Proof.
  induction l as [| x l IH]; intros t Hn H; [congruence |]. destruct (H x (or_introl eq_refl)) as (H1 & H2 & H3). destruct l as [| y l].
  - cbn [join]. rewrite read_words_item by assumption. cbn [app read_words s]. destruct x; [congruence | reflexivity].
  - change (join [SP] (x :: y :: l)) with (x ++ [SP] ++ join [SP] (y :: l)). rewrite <- !app_assoc, read_words_item by assumption.
    cbn [app]. assert (E : read_words x (SP :: join [SP] (y :: l) ++ s ")" ++ t)
      = option_map (fun '(l, r) => ((if nonempty x then [x] else []) ++ l, r)) (read_words [] (join [SP] (y :: l) ++ s ")" ++ t))) by reflexivity.
    rewrite E, IH by (discriminate || intros z Hz; apply H; now right). destruct x; [congruence | reflexivity].
Qed.

Lemma plain_char x c : plain_option_string x -> In c x ->
  zplain c = true /\ c <> LBRC /\ c <> RBRC /\ c <> COMMA /\ c <> COLON /\ c <> LBRK /\ c <> EQ /\ c <> SP /\ c <> RPAR /\ c <> BS.
Proof.
  intros (_ & H & _) Hc. destruct (H c Hc) as [H1 H2]. pose proof (proj1 (memc_false _ _) H2) as H3. cbn [In] in H3.
  assert (H4 : forall d, zsh_special d = true -> c <> d). { intros d Hd ->. congruence. }
  repeat split; try (intros ->; tauto); try (apply H4; reflexivity).
  unfold zplain. rewrite H1. cbn [orb]. apply negb_true_iff, memc_false. cbn [In]. tauto.
Qed.
Lemma upto_name x tail : forall pre, pre ++ x <> [] -> (forall c, In c x -> c <> COLON /\ c <> LBRK /\ c <> EQ /\ c <> BS) ->
  (x <> [] -> last x 0%N <> DASH /\ last x 0%N <> PLUS) -> name_ends tail = true -> upto name_ends (x ++ tail) = (x, tail).
Proof.
  intros pre _ H Hl Ht. clear pre. induction x as [| c x IH].
  - cbn [app]. destruct tail as [| d tail]; [reflexivity |]. cbn [upto]. now rewrite Ht.
  - destruct (H c (or_introl eq_refl)) as (H1 & H2 & H3 & H4). cbn [app upto].
    assert (Hn : name_ends (c :: x ++ tail) = false).
    { cbn [name_ends]. unfold memc. cbn [existsb]. destruct (N.eqb_spec c COLON); [contradiction |]. destruct (N.eqb_spec c LBRK); [contradiction |].
      destruct (N.eqb_spec c EQ); [contradiction |]. cbn [orb andb]. rewrite orb_false_r. destruct x as [| d x].
      - destruct (Hl ltac:(discriminate)) as [L1 L2]. cbn in L1, L2. destruct (N.eqb_spec c DASH); [contradiction |]. destruct (N.eqb_spec c PLUS); [contradiction |]. reflexivity.
      - cbn [app at_end_or]. destruct (H d (or_intror (or_introl eq_refl))) as (D1 & D2 & _). unfold memc. cbn [existsb].
        destruct (N.eqb_spec d COLON); [contradiction |]. destruct (N.eqb_spec d LBRK); [contradiction |]. cbn [orb]. now rewrite andb_false_r. }
    rewrite Hn. assert (He : N.eqb c BS = false) by now apply N.eqb_neq. rewrite He.
    assert (IH' : upto name_ends (x ++ tail) = (x, tail)).
    { apply IH; [intros d Hd; apply H; now right |]. intros Hx. destruct x as [| d x]; [congruence |]. apply Hl. discriminate. }
    destruct (x ++ tail) as [| d t] eqn:E; [apply app_eq_nil in E as [-> ->]; reflexivity |]. now rewrite IH'.
Qed.

(** what follows the name: the mark, the description, the argument *)
Definition mark_text (p : place_of_arg) : str :=
  match p with InNextWord => [] | Joined => s "-" | JoinedOrNext => s "+" | EqualsOrNext => s "=" | WithEquals => s "=-" end.
Definition description_text (d : option str) : str :=
  match d with Some d => s "[" ++ escaped [COLON; LBRK; RBRK] d ++ s "]" | None => [] end.
Definition argument_text (a : option (str * str)) : str :=
  match a with Some (m, act) => s ":" ++ escaped [COLON] m ++ s ":" ++ escaped [COLON] act | None => [] end.
Definition plain_argument (a : option (str * str)) : Prop :=
  match a with Some (m, act) => m <> [] /\ hd 0%N m <> STAR /\ tame [COLON] m = true /\ plain_action act | None => True end.

Lemma upto_action act : plain_action act -> upto (starts [COLON]) (escaped [COLON] act) = (escaped [COLON] act, []).
Proof.
  intros [H | H].
  - rewrite escaped_free by (intros c [<- | []]; assumption). rewrite <- (app_nil_r act) at 1. apply upto_free; [assumption | now left].
  - rewrite <- (app_nil_r (escaped [COLON] act)) at 1. apply upto_escaped; auto.
Qed.
Lemma unescape_action act : plain_action act -> unescape [COLON] (escaped [COLON] act) = act.
Proof.
  intros [H | H]; [| now apply unescape_escaped].
  rewrite escaped_free, unescape_free by (intros c [<- | []]; assumption). reflexivity.
Qed.
Lemma read_args_text a n : plain_argument a -> read_args (S (S n)) (argument_text a) =
  Some (match a with Some (m, act) => [(Required, m, act)] | None => [] end).
Proof.
  destruct a as [[m act] |]; [| reflexivity]. intros (Hm & Hs & Ht & Ha). cbn [argument_text].
  change (s ":" ++ escaped [COLON] m ++ s ":" ++ escaped [COLON] act) with (COLON :: escaped [COLON] m ++ COLON :: escaped [COLON] act).
  cbn [read_args]. replace (N.eqb COLON COLON) with true by reflexivity. cbn [negb].
  assert (Hst : starts [STAR] (escaped [COLON] m ++ COLON :: escaped [COLON] act) = false /\ starts [COLON] (escaped [COLON] m ++ COLON :: escaped [COLON] act) = false).
  { destruct m as [| c m]; [congruence |]. change (escaped [COLON] (c :: m)) with ((if memc c [COLON] then [BS; c] else [c]) ++ escaped [COLON] m).
    destruct (memc c [COLON]) eqn:Ec; cbn [app starts]; [split; reflexivity |]. rewrite Ec. split; [| reflexivity]. cbn in Hs. unfold memc. cbn [existsb].
    apply N.eqb_neq in Hs. now rewrite Hs. }
  destruct Hst as [-> ->]. unfold read_message. rewrite upto_escaped by auto. rewrite upto_action by assumption. rewrite (unescape_action act) by assumption.
  rewrite unescape_escaped by auto. reflexivity.
Qed.

Lemma read_option_text h ex many x p d a : plain_option_string x -> plain_description d -> plain_argument a ->
  read_option h ex many (x ++ mark_text p ++ description_text d ++ argument_text a) =
  Some (SpecOption (ZOption h ex many x p d (match a with Some (m, act) => [(Required, m, act)] | None => [] end))).
Proof.
  intros Hx Hd Ha. pose proof Hx as ((c & y & E & Hc & Hnd) & _ & Hl1 & Hl2).
  set (tail := description_text d ++ argument_text a).
  assert (Ht : name_ends (mark_text p ++ tail) = true /\ read_mark (mark_text p ++ tail) = (p, tail)).
  { assert (Htail : tail = [] \/ (exists t, tail = LBRK :: t) \/ (exists t, tail = COLON :: t)).
    { unfold tail. destruct d as [d |]; [right; left; eexists; reflexivity |]. destruct a as [[m act] |]; [right; right; eexists; reflexivity | now left]. }
    destruct Htail as [-> | [[t ->] | [t ->]]]; destruct p; split; reflexivity. }
  destruct Ht as [Ht1 Ht2].
  assert (Hname : exists dashes name, x = dashes ++ name /\ name <> [] /\ (dashes = [DASH] \/ dashes = [DASH; DASH]) /\
            (forall t, read_dashes (x ++ t) = (dashes, name ++ t)) /\ (dashes = [DASH] -> hd 0%N name <> PLUS)).
  { rewrite E. destruct (N.eq_dec c DASH) as [-> | Hcd].
    - destruct y as [| e y]; [congruence |]. exists [DASH; DASH], (e :: y). repeat split; auto; discriminate.
    - exists [DASH], (c :: y). split; [reflexivity |]. split; [discriminate |]. split; [now left |].
      split; [| intros _; exact Hc]. intros t. unfold read_dashes. cbn [app tl starts]. replace (memc c [DASH]) with false.
      + rewrite andb_false_r. reflexivity.
      + symmetry. apply memc_false. cbn. intuition congruence. }
  destruct Hname as (dashes & name & Ex & Hne & Hdash & Hsplit & Hplus).
  unfold read_option. rewrite Hsplit.
  assert (Hend : at_end_or [] (name ++ mark_text p ++ tail) || str_eqb dashes [DASH] && starts [PLUS] (name ++ mark_text p ++ tail) &&
                   negb (at_end_or [COLON; LBRK; EQ; DASH; PLUS] (tl (name ++ mark_text p ++ tail))) = false).
  { destruct name as [| e name]; [congruence |]. cbn [app at_end_or memc existsb orb].
    destruct Hdash as [-> | ->]; [| reflexivity]. specialize (Hplus eq_refl). cbn in Hplus. cbn [starts]. unfold memc at 1. cbn [existsb].
    apply N.eqb_neq in Hplus. rewrite Hplus. cbn [orb]. now rewrite andb_false_r. }
  rewrite Hend. rewrite (upto_name name (mark_text p ++ tail) dashes).
  2: { intros E'. apply app_eq_nil in E' as [_ E']. contradiction. }
  2: { intros e He. assert (Hex : In e x) by (rewrite Ex; apply in_or_app; now right). destruct (plain_char x e Hx Hex) as (_ & _ & _ & _ & P1 & P2 & P3 & _ & _ & P4). auto. }
  2: { intros _. replace (last name 0%N) with (last x 0%N); [auto |]. rewrite Ex. destruct Hdash as [-> | ->]; destruct name as [| e name]; try congruence; reflexivity. }
  2: assumption.
  rewrite Ht2.
  assert (Hu : unescape [COLON] (dashes ++ name) = x).
  { rewrite <- Ex. apply unescape_free. intros e [<- | []] He. destruct (plain_char x COLON Hx He) as (_ & _ & _ & _ & P & _). congruence. }
  rewrite Hu. unfold tail.
  assert (Hdes : read_description (description_text d ++ argument_text a) = Some (d, argument_text a)).
  { unfold read_description. destruct d as [d |].
    - cbn [description_text]. change (s "[" ++ escaped [COLON; LBRK; RBRK] d ++ s "]") with (LBRK :: escaped [COLON; LBRK; RBRK] d ++ [RBRK]).
      cbn [app tl]. change (starts [LBRK] (LBRK :: (escaped [COLON; LBRK; RBRK] d ++ [RBRK]) ++ argument_text a)) with true. cbv iota.
      rewrite <- app_assoc. rewrite (upto_escaped [COLON; LBRK; RBRK] RBRK d) by (auto || now right).
      cbn [app tl]. change (starts [RBRK] (RBRK :: argument_text a)) with true. cbv iota. rewrite unescape_escaped by auto. reflexivity.
    - destruct a as [[m act] |]; reflexivity. }
  rewrite Hdes, read_args_text by assumption. reflexivity.
Qed.

Definition excludes_text (text : str) (ex : list str) : Prop :=
  (text = [] /\ ex = []) \/ exists body, text = s "(" ++ body ++ s ")" /\ forall t, read_words [] (body ++ s ")" ++ t) = Some (ex, t).
Lemma read_spec_option (h : bool) ext ex (many : bool) x t : excludes_text ext ex -> (exists c y, x = DASH :: c :: y) ->
  read_spec ((if h then s "!" else []) ++ ext ++ (if many then s "*" else []) ++ x ++ t) = read_option h ex many (x ++ t).
Proof.
  intros He (c & y & Ex). unfold read_spec.
  assert (Hh : forall u : str, starts [BANG] u = false ->
            (if starts [BANG] ((if h then s "!" else []) ++ u) then (true, tl ((if h then s "!" else []) ++ u)) else (false, (if h then s "!" else []) ++ u)) = (h, u)).
  { intros u Hu. destruct h; [reflexivity |]. cbn [app]. now rewrite Hu. }
  assert (Hm : starts [BANG] ((if many then s "*" else []) ++ x ++ t) = false /\ starts [LPAR] ((if many then s "*" else []) ++ x ++ t) = false).
  { subst x. destruct many; split; reflexivity. }
  assert (Hu : starts [BANG] (ext ++ (if many then s "*" else []) ++ x ++ t) = false).
  { destruct He as [[-> ->] | (body & -> & _)]; [apply (proj1 Hm) | reflexivity]. }
  rewrite (Hh _ Hu).
  assert (Hw : (if starts [LPAR] (ext ++ (if many then s "*" else []) ++ x ++ t) then read_words [] (tl (ext ++ (if many then s "*" else []) ++ x ++ t))
                else Some ([], ext ++ (if many then s "*" else []) ++ x ++ t)) = Some (ex, (if many then s "*" else []) ++ x ++ t)).
  { destruct He as [[-> ->] | (body & -> & Hb)]; [cbn [app]; now rewrite (proj2 Hm) |].
    change ((s "(" ++ body ++ s ")") ++ (if many then s "*" else []) ++ x ++ t) with (LPAR :: (body ++ s ")") ++ (if many then s "*" else []) ++ x ++ t).
    change (starts [LPAR] (LPAR :: (body ++ s ")") ++ (if many then s "*" else []) ++ x ++ t)) with true. cbv iota. cbn [tl]. rewrite <- app_assoc. apply Hb. }
  rewrite Hw. subst x. destruct many; reflexivity.
Qed.

(** ** The text of the specification of an option *)

Definition xtrue (b : xbool) : bool := negb (xbool_eqb b XFalse).
Definition option_spec (o : opt) (conflicting : list str) (action : str) : res str :=
  make_option_spec (o_strings o) conflicting (o_help o) (otruthy (o_complete o)) (o_optional_arg o)
    (xtrue (o_repeatable o)) (o_hidden o) (o_final o) (o_metavar o) action (o_sep o).

Definition place_for (complete optional : bool) (sep : argsep) (x : str) : place_of_arg :=
  if complete then
    if two_chars x then if optional then Joined else JoinedOrNext
    else if optional then WithEquals else match sep with SepBoth => EqualsOrNext | SepEquals => WithEquals | _ => InNextWord end
  else InNextWord.
Lemma marked_eq strings complete optional sep : (complete = true -> optional = false -> sep <> SepInherit) ->
  marked_option_strings strings complete optional sep = Ok (map (fun x => x ++ mark_text (place_for complete optional sep x)) strings).
Proof.
  intros H. unfold marked_option_strings, place_for. destruct complete; cbn [andb].
  - destruct optional.
    + f_equal. apply map_ext. intros x. destruct (two_chars x); reflexivity.
    + specialize (H eq_refl eq_refl). destruct sep; [congruence | | |]; f_equal; apply map_ext; intros x; destruct (two_chars x); cbn [mark_text]; now rewrite ?app_nil_r.
  - f_equal. rewrite <- (map_id strings) at 1. apply map_ext. intros x. cbn [mark_text]. now rewrite app_nil_r.
Qed.
Lemma mark_text_plain p : forallb zplain (mark_text p) = true /\ list_item (mark_text p).
Proof. destruct p; (split; [reflexivity |]); (split; [split |]); cbn; intuition discriminate. Qed.
Lemma plain_list_item x p : plain_option_string x -> forallb zplain (x ++ mark_text p) = true /\ list_item (x ++ mark_text p).
Proof.
  intros H. destruct (mark_text_plain p) as (P1 & (P2 & P3) & P4). split.
  - rewrite forallb_app, P1, andb_true_r. apply forallb_forall. intros c Hc. now apply (plain_char x c H).
  - split; [split |]; intros Hi; apply in_app_iff in Hi as [Hi | Hi]; try contradiction; destruct (plain_char x _ H Hi) as (_ & Q1 & Q2 & Q3 & _); congruence.
Qed.

Lemma zread_begin c t : ~ In c [SP; TAB; LF; EQ; BS] -> zread ZPlain None (c :: t) = zread ZPlain (Some []) (c :: t).
Proof.
  intros H. cbn [In] in H. cbn [zread]. destruct (N.eqb c SQ); [reflexivity |]. destruct (N.eqb c DQ); [reflexivity |].
  destruct (N.eqb_spec c BS) as [-> | _]; [tauto |].
  replace (memc c [SP; TAB; LF]) with false by (symmetry; apply memc_false; cbn [In]; tauto).
  destruct (zsh_special c); [reflexivity |]. destruct (N.eqb_spec c EQ) as [-> | _]; [tauto | reflexivity].
Qed.
Lemma forallb_join l : (forall x, In x l -> forallb zplain x = true) -> forallb zplain (join [COMMA] l) = true.
Proof.
  induction l as [| x l IH]; intros H; [reflexivity |]. destruct l as [| y l]; [apply H; now left |].
  change (join [COMMA] (x :: y :: l)) with (x ++ [COMMA] ++ join [COMMA] (y :: l)). rewrite !forallb_app, (H x), IH; [reflexivity | | now left].
  intros z Hz. apply H. now right.
Qed.

(** The elements that zsh makes of [t1 ++ options ++ t2]. *)
Lemma elements_read t1 pre opts t2 post rest : reads t1 pre -> reads t2 post -> opts <> [] ->
  (forall x, In x opts -> forallb zplain x = true /\ list_item x /\ hd 0%N x = DASH) ->
  (t1 = [] \/ exists q t, t1 = q :: t /\ (q = SQ \/ q = DQ)) ->
  exists ms, zread ZPlain None ((t1 ++ match opts with [o] => o | _ => s "{" ++ join [COMMA] opts ++ s "}" end ++ t2) ++ rest) = zread ZPlain (Some ms) rest /\
    expand_braces [] ms = Some (map (fun x => pre ++ x ++ post) opts).
Proof.
  intros H1 H2 Hn Ho Ht1.
  set (mid := match opts with [o] => o | _ => s "{" ++ join [COMMA] opts ++ s "}" end).
  assert (Hmid : forallb zplain mid = true /\ exists c t, mid = c :: t /\ (c = DASH \/ c = LBRC)).
  { unfold mid. destruct opts as [| x [| y l]]; [congruence | |].
    - destruct (Ho x (or_introl eq_refl)) as (P1 & _ & P2). split; [assumption |]. destruct x as [| c t]; [discriminate |]. exists c, t. auto.
    - split; [| exists LBRC; eexists; split; [reflexivity | now right]].
      rewrite !forallb_app, forallb_join; [reflexivity |]. intros z Hz. now apply Ho. }
  destruct Hmid as (Hm1 & c & t & Em & Hc).
  assert (Hb : zread ZPlain None ((t1 ++ mid ++ t2) ++ rest) = zread ZPlain (Some []) (t1 ++ mid ++ t2 ++ rest)).
  { rewrite <- !app_assoc. destruct Ht1 as [-> | (q & u & -> & Hq)].
    - cbn [app]. rewrite Em. cbn [app]. apply zread_begin. cbn. destruct Hc as [-> | ->]; intuition discriminate.
    - cbn [app]. apply zread_begin. cbn. destruct Hq as [-> | ->]; intuition discriminate. }
  destruct (H1 [] (mid ++ t2 ++ rest)) as (m1 & E1 & B1 & R1). destruct (H2 (m1 ++ bare mid) rest) as (m2 & E2 & B2 & R2).
  exists ((m1 ++ bare mid) ++ m2). split.
  - rewrite Hb, R1. cbn [app]. rewrite zread_bare_some by assumption. exact R2.
  - rewrite <- E1, <- E2. rewrite <- app_assoc. unfold mid. destruct opts as [| x [| y l]]; [congruence | |].
    + destruct (Ho x (or_introl eq_refl)) as (_ & [[P1 P2] _] & _). rewrite expand_plain.
      * cbn [app map]. now rewrite !map_app, fst_bare.
      * rewrite !has_brace_app, B1, B2, has_brace_bare by assumption. reflexivity.
    + apply expand_list; [assumption | assumption | cbn; lia |]. intros z Hz. now apply Ho.
Qed.

(** The texts survive quoting and are read as they are meant. *)
Definition says_option (o : opt) (conflicting : list str) (action : str) (ms : list mark) : Prop :=
  exists words, expand_braces [] ms = Some words /\
    Forall2 (fun x w => exists z, read_spec w = Some (SpecOption z) /\ describes_option o conflicting action x z) (o_strings o) words.

Lemma nots_words o conflicting : (forall x, In x (o_strings o) \/ In x conflicting -> plain_option_string x) ->
  let nots := not_options (o_strings o) conflicting (xtrue (o_repeatable o)) (o_final o) in
  exists ex, excludes_text (if nonempty nots then s "(" ++ join [SP] (uniq str_eqb nots) ++ s ")" else []) ex /\
    forall y, In y ex <-> if o_final o then y = s "-" \/ y = s "*"
                          else In y conflicting \/ (o_repeatable o = XFalse /\ In y (o_strings o)).
Proof.
  intros H nots. unfold nots, not_options. destruct (o_final o).
  { exists [s "-"; s "*"]. split.
    - right. exists (s "- *"). split; reflexivity.
    - intros y. cbn [In]. intuition congruence. }
  set (l := map escape_colon (sort_strs conflicting) ++ (if xtrue (o_repeatable o) then [] else map escape_colon (sort_strs (o_strings o)))).
  assert (Hesc : forall x, plain_option_string x -> escape_colon x = x).
  { intros x Hx. apply escape_colon_id. intros Hi. destruct (plain_char x _ Hx Hi) as (_ & _ & _ & _ & P & _). congruence. }
  assert (Hs : forall l y, (forall x, In x l -> plain_option_string x) -> In y (map escape_colon (sort_strs l)) <-> In y l).
  { intros l0 y Hl. rewrite in_map_iff. split.
    - intros (x & E & Hx). apply (Permutation_in _ (sort_strs_perm l0)) in Hx. rewrite Hesc in E by auto. now subst.
    - intros Hy. exists y. split; [apply Hesc; auto |]. now apply (Permutation_in _ (Permutation_sym (sort_strs_perm l0))). }
  assert (Hl : forall y, In y l <-> In y conflicting \/ (o_repeatable o = XFalse /\ In y (o_strings o))).
  { intros y. unfold l. rewrite in_app_iff, Hs by auto. destruct (o_repeatable o); cbn [xtrue xbool_eqb negb].
    - cbn. intuition discriminate.
    - rewrite Hs by auto. intuition.
    - cbn. intuition discriminate. }
  exists (uniq str_eqb l). split.
  - destruct l as [| x0 l0] eqn:El; [left; auto |]. cbn [nonempty]. right. exists (join [SP] (uniq str_eqb (x0 :: l0))). split; [reflexivity |]. intros t.
    apply read_words_join.
    + intros E. assert (Hi : In x0 (uniq str_eqb (x0 :: l0))) by (apply (uniq_In str_eqb (list_eq_dec N.eq_dec) str_eqb_spec); now left). rewrite E in Hi. exact Hi.
    + intros x Hx. apply (proj1 (uniq_In str_eqb (list_eq_dec N.eq_dec) str_eqb_spec _ _)) in Hx. apply Hl in Hx.
      assert (Hp : plain_option_string x) by (apply H; destruct Hx as [Hx | [_ Hx]]; auto).
      split; [| split].
      * destruct Hp as ((c & y & -> & _) & _). discriminate.
      * intros Hi. destruct (plain_char x _ Hp Hi) as (_ & _ & _ & _ & _ & _ & _ & P & _). congruence.
      * intros Hi. destruct (plain_char x _ Hp Hi) as (_ & _ & _ & _ & _ & _ & _ & _ & P & _). congruence.
  - intros y. rewrite (uniq_In str_eqb (list_eq_dec N.eq_dec) str_eqb_spec). apply Hl.
Qed.

Lemma quote_first x : needs_quote x = true -> exists q t, quote x = q :: t /\ (q = SQ \/ q = DQ).
Proof.
  intros Hq. destruct (quote_cases x) as [[Hf [Hn _]] | [[_ [Hs ->]] | [[_ [_ [Hd ->]]] | [_ [_ [_ ->]]]]]]; try (eexists; eexists; split; [reflexivity |]; auto; fail).
  unfold needs_quote in Hq. destruct x; [congruence |]. rewrite Hf in Hq. discriminate.
Qed.
Lemma reads_fixed t x : t = SQ :: x ++ [SQ] -> ~ In SQ x -> reads t x.
Proof. intros -> H. now apply reads_sq. Qed.

Lemma option_spec_read o conflicting act : o_strings o <> [] ->
  (forall x, In x (o_strings o) \/ In x conflicting -> plain_option_string x) ->
  plain_description (o_help o) -> plain_metavar (o_metavar o) -> plain_action act -> simple_action act ->
  (otruthy (o_complete o) = true -> o_optional_arg o = false -> o_sep o <> SepInherit) ->
  exists text, option_spec o conflicting (quote act) = Ok text /\
    forall rest, exists ms, zread ZPlain None (text ++ rest) = zread ZPlain (Some ms) rest /\ says_option o conflicting act ms.
Proof.
  intros Hne Hp Hd Hm Ha Hsa Hsep.
  pose proof (nots_words o conflicting Hp) as Hnw. cbv zeta in Hnw.
  unfold option_spec, make_option_spec. cbv zeta.
  set (nots := not_options (o_strings o) conflicting (xtrue (o_repeatable o)) (o_final o)) in *.
  destruct Hnw as (ex & Hex & Hexs). rewrite marked_eq by assumption. cbn [bind].
  destruct (action_read act Hsa) as (e & Ee & Re).
  set (metavar := match o_metavar o with Some m => m | None => s " " end) in *.
  set (argument := if otruthy (o_complete o) then Some (metavar, act) else None).
  assert (Hargp : plain_argument argument).
  { unfold argument. destruct (otruthy (o_complete o)); [| exact I]. unfold metavar. cbn [plain_argument].
    destruct (o_metavar o) as [m |]; [destruct Hm as (M1 & M2 & M3); auto |]. repeat split; auto; discriminate. }
  assert (Harg : exists ta, (if otruthy (o_complete o) then do a <- escape_colon_in_quoted_string (quote act);
             Ok (s ":" ++ quote (escape_colon metavar) ++ s ":" ++ a) else Ok []) = Ok ta /\ reads ta (argument_text argument)).
  { unfold argument. destruct (otruthy (o_complete o)); [| exists []; split; [reflexivity | apply reads_nil]].
    rewrite Ee. cbn [bind]. eexists. split; [reflexivity |]. cbn [argument_text]. rewrite <- !escape_colon_escaped.
    apply reads_app; [apply reads_bare; [reflexivity | |]; cbn; intuition discriminate |]. apply reads_app; [apply reads_quote |].
    apply reads_app; [apply reads_bare; [reflexivity | |]; cbn; intuition discriminate | assumption]. }
  destruct Harg as (ta & Eta & Rta). rewrite Eta. cbn [bind]. eexists. split; [reflexivity |]. intros rest.
  set (dt := match o_help o with Some d => quote (s "[" ++ escape_colon (escape_square_brackets d) ++ s "]") | None => [] end).
  assert (Rd : reads dt (description_text (o_help o))).
  { unfold dt. destruct (o_help o) as [d |]; [| apply reads_nil]. cbn [description_text]. rewrite brackets_escaped. apply reads_quote. }
  set (t1h := if o_hidden o then s "'!'" else []).
  set (t1x := if nonempty nots then quote (s "(" ++ join [SP] (uniq str_eqb nots) ++ s ")") else []).
  set (t1m := if xtrue (o_repeatable o) then s "'*'" else []).
  set (prh := if o_hidden o then s "!" else []).
  set (prx := if nonempty nots then s "(" ++ join [SP] (uniq str_eqb nots) ++ s ")" else []) in *.
  set (prm := if xtrue (o_repeatable o) then s "*" else []).
  assert (Rh : reads t1h prh).
  { unfold t1h, prh. destruct (o_hidden o); [apply reads_fixed; [reflexivity | cbn; intuition discriminate] | apply reads_nil]. }
  assert (Rx : reads t1x prx).
  { unfold t1x, prx. destruct (nonempty nots); [apply reads_quote | apply reads_nil]. }
  assert (Rm : reads t1m prm).
  { unfold t1m, prm. destruct (xtrue (o_repeatable o)); [apply reads_fixed; [reflexivity | cbn; intuition discriminate] | apply reads_nil]. }
  set (strings := map (fun x => x ++ mark_text (place_for (otruthy (o_complete o)) (o_optional_arg o) (o_sep o) x)) (o_strings o)).
  assert (Hfirst : t1h ++ t1x ++ t1m = [] \/ exists q t, t1h ++ t1x ++ t1m = q :: t /\ (q = SQ \/ q = DQ)).
  { unfold t1h, t1x, t1m. destruct (o_hidden o); [right; eexists; eexists; split; [reflexivity | now left] |].
    destruct (nonempty nots).
    - right. destruct (quote_first (s "(" ++ join [SP] (uniq str_eqb nots) ++ s ")")) as (q & t & -> & Hq); [reflexivity |]. cbn [app]. eauto.
    - destruct (xtrue (o_repeatable o)); [right; eexists; eexists; split; [reflexivity | now left] | now left]. }
  destruct (elements_read (t1h ++ t1x ++ t1m) (prh ++ prx ++ prm) strings (dt ++ ta) (description_text (o_help o) ++ argument_text argument) rest)
    as (ms & Ems & Hms).
  - apply reads_app; [assumption |]. now apply reads_app.
  - now apply reads_app.
  - unfold strings. intros E. apply map_eq_nil in E. contradiction.
  - intros x Hx. unfold strings in Hx. apply in_map_iff in Hx as (y & <- & Hy). assert (Py : plain_option_string y) by (apply Hp; now left).
    destruct (plain_list_item y (place_for (otruthy (o_complete o)) (o_optional_arg o) (o_sep o) y) Py) as [Q1 Q2]. split; [assumption |]. split; [assumption |].
    destruct Py as ((c & z & -> & _) & _). reflexivity.
  - exact Hfirst.
  - exists ms. split.
    + rewrite <- Ems. f_equal. unfold dt, t1h, t1x, t1m, strings. rewrite <- !app_assoc. reflexivity.
    + eexists. split; [exact Hms |]. unfold strings. rewrite map_map.
      assert (G : forall l, (forall x, In x l -> In x (o_strings o)) ->
                Forall2 (fun x w => exists z, read_spec w = Some (SpecOption z) /\ describes_option o conflicting act x z) l
                  (map (fun x => (prh ++ prx ++ prm) ++ (x ++ mark_text (place_for (otruthy (o_complete o)) (o_optional_arg o) (o_sep o) x)) ++
                                 description_text (o_help o) ++ argument_text argument) l)).
      2: { apply G. auto. }
      induction l as [| x l IH]; intros Hl; [constructor |]. cbn [map]. constructor; [| apply IH; intros y Hy; apply Hl; now right].
      assert (Px : plain_option_string x) by (apply Hp; left; apply Hl; now left).
      set (p := place_for (otruthy (o_complete o)) (o_optional_arg o) (o_sep o) x).
      exists (ZOption (o_hidden o) ex (xtrue (o_repeatable o)) x p (o_help o) (match argument with Some (m, a) => [(Required, m, a)] | None => [] end)).
      split.
      * rewrite <- (read_option_text (o_hidden o) ex (xtrue (o_repeatable o)) x p (o_help o) argument Px Hd Hargp).
        rewrite <- (read_spec_option (o_hidden o) prx ex (xtrue (o_repeatable o)) x).
        -- f_equal. unfold prh, prm. rewrite <- !app_assoc. reflexivity.
        -- exact Hex.
        -- destruct Px as ((c & y & -> & _) & _). eauto.
      * constructor; cbn [z_name z_hidden z_description z_many z_args z_place z_excludes]; auto.
        -- destruct (o_repeatable o); cbn; split; intros; congruence.
        -- unfold argument. destruct (otruthy (o_complete o)); reflexivity.
        -- unfold p, place_for. destruct (otruthy (o_complete o)) eqn:Ec; [| reflexivity]. unfold expected_forms, two_chars.
           destruct (Nat.eqb (List.length x) 2); [destruct (o_optional_arg o); reflexivity |].
           destruct (o_optional_arg o) eqn:Eo; [reflexivity |]. specialize (Hsep eq_refl eq_refl). destruct (o_sep o); [congruence | reflexivity ..].
Qed.

(** ** Positional arguments *)

Lemma read_number_uint d : forall n t, match t with c :: _ => is_digit c = false | [] => True end ->
  read_number n (uint_str d ++ t) = (Nat.of_uint_acc d n, t).
Proof.
  induction d; intros n t Ht; cbn [uint_str app].
  { cbn [Nat.of_uint_acc]. destruct t as [| c t]; [reflexivity |]. cbn [read_number]. now rewrite Ht. }
  all: cbn [read_number is_digit]; cbn [Nat.of_uint_acc]; rewrite Nat.tail_mul_spec.
  all: match goal with |- context [if ?b then _ else _] => replace b with true by reflexivity end.
  all: rewrite IHd by assumption; f_equal; f_equal.
  all: match goal with |- context [N.to_nat ?x] => let v := eval vm_compute in (N.to_nat x) in change (N.to_nat x) with v end; lia.
Qed.

Lemma read_number_show n t : match t with c :: _ => is_digit c = false | [] => True end -> read_number 0 (show_nat n ++ t) = (n, t).
Proof.
  intros H. unfold show_nat. rewrite read_number_uint by assumption. f_equal. exact (Unsigned.of_to n).
Qed.
Lemma digit_zplain c : is_digit c = true -> zplain c = true /\ c <> LBRC /\ c <> RBRC /\ memc c [BANG; LPAR; DASH; PLUS; STAR] = false /\ c <> EQ.
Proof.
  intros H. assert (Hs : is_safe c = true). { unfold is_safe, is_word. now rewrite H, !orb_true_r. }
  split; [now apply safe_zplain |]. unfold is_digit in H. apply andb_true_iff in H as [H1 H2]. apply N.leb_le in H1, H2.
  repeat split; try lia. apply memc_false. cbn [In]. lia.
Qed.

Lemma read_message_only m act : tame [COLON] m = true -> plain_action act ->
  read_message true (escaped [COLON] m ++ s ":" ++ escaped [COLON] act) = (m, act, []).
Proof.
  intros Hm Ha. unfold read_message. change (s ":" ++ escaped [COLON] act) with (COLON :: escaped [COLON] act).
  rewrite upto_escaped by auto. rewrite (unescape_action act) by assumption. rewrite unescape_escaped by auto. reflexivity.
Qed.
(** what the specification of a positional argument is to say: its number, unless it takes all the
    other arguments, its description and its action *)
Definition argument_for (number : Z) (repeatable : bool) (description act : str) : zargument :=
  ZArgument (if repeatable then None else Some (Z.to_nat number)) (str_eqb act (s "_normal")) description act.
Lemma positional_spec_read number repeatable description act : (1 <= number)%Z -> description <> [] ->
  tame [COLON] description = true -> plain_action act -> simple_action act ->
  exists text, make_positional_spec number repeatable description (quote act) = Ok text /\
    forall rest, exists ms w, zread ZPlain None (text ++ rest) = zread ZPlain (Some ms) rest /\ expand_braces [] ms = Some [w] /\
      read_spec w = Some (SpecArgument (argument_for number repeatable description act)).
Proof.
  intros Hn Hd Ht Ha Hs. destruct (action_read act Hs) as (e & Ee & Re).
  set (digits := show_nat (Z.to_nat number)).
  assert (Hdig : show_Z number = digits).
  { unfold show_Z. destruct (Z.ltb_spec number 0); [lia |]. unfold digits. f_equal. lia. }
  pose proof (show_nat_digits (Z.to_nat number)) as D1. pose proof (show_nat_nonempty (Z.to_nat number)) as D2. fold digits in D1, D2.
  set (ntext := if repeatable then s "'*'" else digits). set (nval := if repeatable then s "*" else digits).
  assert (Rn : reads ntext nval).
  { unfold ntext, nval. destruct repeatable; [apply reads_fixed; [reflexivity | cbn; intuition discriminate] |].
    rewrite forallb_forall in D1. apply reads_bare; [apply forallb_forall; intros c Hc; now apply digit_zplain, D1 | |];
      intros Hi; specialize (D1 _ Hi); discriminate. }
  assert (Hq : str_eqb (quote act) (s "_normal") = str_eqb act (s "_normal")).
  { destruct (str_eqb_spec act (s "_normal")) as [-> | Hne]; [reflexivity |]. apply str_eqb_neq. intros E. apply Hne.
    destruct (quote_cases act) as [[_ [_ E1]] | [[_ [_ E1]] | [[_ [_ [_ E1]]] | [_ [_ [_ E1]]]]]]; rewrite E1 in E; [assumption | | |]; discriminate E. }
  set (sep := if str_eqb act (s "_normal") then s "::" else s ":").
  assert (Rs : reads sep sep). { unfold sep. destruct (str_eqb act (s "_normal")); apply reads_bare; try reflexivity; cbn; intuition discriminate. }
  assert (Htext : exists text, make_positional_spec number repeatable description (quote act) = Ok text /\
            exists ta, text = ntext ++ sep ++ quote (escape_colon description) ++ s ":" ++ ta /\ reads ta (escape_colon act)).
  { unfold make_positional_spec. cbv zeta. rewrite Hq, Hdig. unfold sep. destruct (str_eqb_spec act (s "_normal")) as [-> | _].
    - eexists. split; [reflexivity |]. exists (quote (s "_normal")). split; [reflexivity |]. change (quote (s "_normal")) with (s "_normal"); change (escape_colon (s "_normal")) with (s "_normal"); apply reads_bare; [reflexivity | |]; cbn; intuition discriminate.
    - rewrite Ee. cbn [bind]. eexists. split; [reflexivity |]. exists e. split; [reflexivity | assumption]. }
  destruct Htext as (text & Etext & ta & -> & Rta). exists (ntext ++ sep ++ quote (escape_colon description) ++ s ":" ++ ta). split; [assumption |]. intros rest.
  assert (Rall : reads (ntext ++ sep ++ quote (escape_colon description) ++ s ":" ++ ta) (nval ++ sep ++ escape_colon description ++ s ":" ++ escape_colon act)).
  { repeat apply reads_app; try assumption; [apply reads_quote |]. apply reads_bare; [reflexivity | |]; cbn; intuition discriminate. }
  destruct (Rall [] rest) as (ms & E1 & B1 & R1). exists ms, (nval ++ sep ++ escape_colon description ++ s ":" ++ escape_colon act). split; [| split].
  - cbn [app] in R1. rewrite <- R1. unfold ntext. destruct repeatable; [cbn [app s]; rewrite zread_begin; [reflexivity | cbn; intuition discriminate] |].
    destruct digits as [| c dg]; [congruence |]. cbn [app]. apply zread_begin. cbn [forallb] in D1. apply andb_true_iff in D1 as [D1 _].
    unfold is_digit in D1. apply andb_true_iff in D1 as [H1 H2]. apply N.leb_le in H1, H2. cbn. lia.
  - rewrite expand_plain by assumption. cbn [app]. now rewrite E1.
  - rewrite !escape_colon_escaped. unfold argument_for.
    assert (Harg : forall n, read_argument n (sep ++ escaped [COLON] description ++ s ":" ++ escaped [COLON] act)
              = Some (SpecArgument (ZArgument n (str_eqb act (s "_normal")) description act))).
    { intros n. unfold read_argument, sep. destruct (str_eqb act (s "_normal")).
      - change (s "::" ++ escaped [COLON] description ++ s ":" ++ escaped [COLON] act)
          with (COLON :: COLON :: escaped [COLON] description ++ s ":" ++ escaped [COLON] act). cbn [starts tl skipn].
        change (memc COLON [COLON]) with true. cbv iota. rewrite read_message_only by assumption. reflexivity.
      - change (s ":" ++ escaped [COLON] description ++ s ":" ++ escaped [COLON] act)
          with (COLON :: escaped [COLON] description ++ s ":" ++ escaped [COLON] act). cbn [starts tl].
        change (memc COLON [COLON]) with true. cbv iota.
        replace (starts [COLON] (escaped [COLON] description ++ s ":" ++ escaped [COLON] act)) with false.
        + rewrite read_message_only by assumption. reflexivity.
        + destruct description as [| c d]; [congruence |]. change (escaped [COLON] (c :: d)) with ((if memc c [COLON] then [BS; c] else [c]) ++ escaped [COLON] d).
          destruct (memc c [COLON]) eqn:Ec; cbn [app starts]; [reflexivity | now rewrite Ec]. }
    unfold read_spec, nval. destruct repeatable.
    + change (s "*" ++ sep ++ escaped [COLON] description ++ s ":" ++ escaped [COLON] act)
        with (STAR :: sep ++ escaped [COLON] description ++ s ":" ++ escaped [COLON] act).
      cbn [starts]. change (memc STAR [BANG]) with false. change (memc STAR [LPAR]) with false. change (memc STAR [DASH; PLUS]) with false.
      change (memc STAR [STAR]) with true. cbv iota. cbn [starts tl]. change (memc STAR [LPAR]) with false. cbv iota. cbn [starts tl].
      change (memc STAR [DASH; PLUS]) with false. change (memc STAR [STAR]) with true. cbv iota.
      replace (starts [DASH; PLUS] (sep ++ escaped [COLON] description ++ s ":" ++ escaped [COLON] act)) with false; [apply Harg |].
      unfold sep. destruct (str_eqb act (s "_normal")); reflexivity.
    + destruct digits as [| c dg] eqn:Edg; [congruence |]. cbn [forallb] in D1. apply andb_true_iff in D1 as [D1 _].
      destruct (digit_zplain c D1) as (_ & _ & _ & Hc & _). rewrite !memc_cons in Hc. cbn [memc existsb] in Hc.
      apply orb_false_iff in Hc as [C1 Hc]. apply orb_false_iff in Hc as [C2 Hc]. apply orb_false_iff in Hc as [C3 Hc]. apply orb_false_iff in Hc as [C4 Hc]. apply orb_false_iff in Hc as [C5 _].
      cbn [app starts]. unfold memc. cbn [existsb]. rewrite C1. cbn [orb]. cbn [starts]. unfold memc. cbn [existsb]. rewrite C2. cbn [orb starts]. unfold memc. cbn [existsb]. rewrite C3, C4, C5, D1. cbn [orb].
      change (c :: dg ++ sep ++ escaped [COLON] description ++ s ":" ++ escaped [COLON] act) with ((c :: dg) ++ sep ++ escaped [COLON] description ++ s ":" ++ escaped [COLON] act).
      rewrite <- Edg. unfold digits. rewrite read_number_show; [apply Harg |]. unfold sep. destruct (str_eqb act (s "_normal")); reflexivity.
Qed.
