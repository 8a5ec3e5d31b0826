(** * Proofs for C132 and C133 *)
From Coq Require Import Lia.
From Verif Require Import Base Exec ExecProofs ZshUtils SpecChoices ChoicesZsh OutputProofs MimeFile SpecMimeFile MimeFileProofs SystemLists SpecSystemLists.
Open Scope list_scope.

Lemma unescape_id x : ~ In BS x -> unescape x = x.
Proof.
  induction x as [| b x IH]; intros H; [reflexivity |].
  assert (E : N.eqb b BS = false) by (apply N.eqb_neq; intros ->; apply H; now left).
  assert (IH' : unescape x = x) by (apply IH; intros K; apply H; now right).
  destruct x as [| c x]; cbn [unescape]; rewrite E; [reflexivity |]. cbn [unescape] in IH'. now rewrite IH'.
Qed.
Lemma digit_not c d : is_digit c = true -> is_digit d = false -> c <> d.
Proof. intros H K ->. congruence. Qed.
Lemma first_colon n t : forallb is_digit n = true -> at_first_colon (n ++ s ": " ++ t) = Some (n, t).
Proof.
  induction n as [| c n IH]; intros H.
  - reflexivity.
  - cbn [forallb] in H. apply Bool.andb_true_iff in H as [Hc Hn]. specialize (IH Hn). cbn [app].
    destruct (n ++ s ": " ++ t) as [| d x] eqn:E; [destruct n; discriminate E |]. cbn [at_first_colon] in IH |- *.
    replace (N.eqb c COLON) with false by (symmetry; apply N.eqb_neq, digit_not; [exact Hc | reflexivity]). cbn [andb].
    now rewrite IH.
Qed.
Lemma without_card_app x : without_card (s "card " ++ x) = x.
Proof. reflexivity. Qed.

Section Card.
Variable c : card.
Hypothesis G : good_card c.
Lemma digits_free d : is_digit d = false -> ~ In d (card_number c).
Proof.
  intros H K. destruct G as (_ & D & _). rewrite forallb_forall in D. specialize (D d K). congruence.
Qed.
Lemma card_free d : is_digit d = false -> ~ In d (s "card ") -> ~ In d (s ": ") -> ~ In d (card_title c) -> ~ In d (show_card c).
Proof.
  intros H1 H2 H3 H4. unfold show_card. rewrite !in_app_iff. intros [K | [K | [K | K]]]; try contradiction. now apply (digits_free d).
Qed.
Lemma card_tidy : tidy (show_card c).
Proof.
  destruct G as (G1 & G2 & G3 & G4 & G5 & G6). split.
  - apply card_free; [reflexivity | apply memc_false; reflexivity | apply memc_false; reflexivity | exact G4].
  - intros _. split; [intros [E | E]; discriminate E |]. unfold show_card. destruct (exists_last G3) as (m & d & E).
    rewrite E in *. rewrite last_last in G6. rewrite !app_assoc, last_last. exact G6.
Qed.
Lemma card_unescaped : unescape (show_card c) = show_card c.
Proof. apply unescape_id, card_free; [reflexivity | apply memc_false; reflexivity | apply memc_false; reflexivity | apply G]. Qed.
Lemma id_right : card_id (without_card (show_card c)) = card_number c.
Proof. unfold show_card. rewrite without_card_app. unfold card_id. now rewrite first_colon by apply G. Qed.
Lemma name_right : card_name (without_card (show_card c)) = card_title c.
Proof. unfold show_card. rewrite without_card_app. unfold card_name. now rewrite first_colon by apply G. Qed.
End Card.

Lemma cards_tidy l : Forall good_card l -> Forall tidy (map show_card l).
Proof. induction 1; constructor; [now apply card_tidy | assumption]. Qed.
Lemma cards_one_line l : Forall good_card l -> Forall (fun x => ~ In LF x) (map show_card l).
Proof. intros H. eapply Forall_impl; [| exact (cards_tidy l H)]. intros x Hx. apply Hx. Qed.

Lemma bash_ids before l : Forall good_card l ->
  map (fun line => before ++ card_id (without_card line)) (read_unescaped (print_cards l)) = map (fun c => before ++ card_number c) l.
Proof.
  intros H. unfold read_unescaped, print_cards. rewrite read_tidy by now apply cards_tidy. rewrite !map_map.
  apply map_ext_in. intros c Hc. rewrite Forall_forall in H. now rewrite card_unescaped, id_right by now apply H.
Qed.
Lemma digit_no_space c : is_digit c = true -> is_space c = false.
Proof. intros H. destruct (is_space c) eqn:E; [| reflexivity]. unfold is_digit in H. unfold is_space in E.
  rewrite Bool.andb_true_iff, !N.leb_le in H. repeat rewrite Bool.orb_true_iff in E. repeat rewrite Bool.andb_true_iff in E. repeat rewrite ?N.eqb_eq, ?N.leb_le in E. lia. Qed.
Lemma bash_cards_right before cur l : Forall good_card l -> forallb (fun c => negb (is_space c)) before = true ->
  bash_cards before cur (print_cards l) = filter (starts_with cur) (map (fun c => before ++ card_number c) l).
Proof.
  intros H Hb. unfold bash_cards, compgen_words. rewrite bash_ids by exact H. rewrite ws_join; [reflexivity |].
  intros w Hw. apply in_map_iff in Hw as (c & <- & Hc). rewrite Forall_forall in H. destruct (H c Hc) as (G1 & G2 & _). split.
  - intros E. apply app_eq_nil in E as [_ E]. contradiction.
  - rewrite forallb_app, Hb. apply forallb_forall. intros d Hd. rewrite forallb_forall in G2. now rewrite digit_no_space by now apply G2.
Qed.

(** A line determines the card. *)
Lemma show_inj c d : good_card c -> good_card d -> show_card c = show_card d -> c = d.
Proof.
  intros Hc Hd E. assert (E1 := id_right c Hc). assert (E2 := name_right c Hc). rewrite E in E1, E2.
  rewrite (id_right d Hd) in E1. rewrite (name_right d Hd) in E2. destruct c, d. cbn in *. congruence.
Qed.
Lemma uniq_from_right l : forall c, good_card c -> Forall good_card l ->
  exists l', once (c :: l) (c :: l') /\ uniq_from (show_card c) (map show_card l) = map show_card l'.
Proof.
  induction l as [| d l IH]; intros c Hc Hl; [exists []; split; [apply once_one | reflexivity] |].
  inversion Hl as [| ? ? Hd Hl']; subst. cbn [map uniq_from]. destruct (str_eqb_spec (show_card d) (show_card c)) as [E | E].
  - apply show_inj in E; [| exact Hd | exact Hc]. subst d. destruct (IH c Hc Hl') as (l' & O & U). exists l'. split; [now apply once_same | exact U].
  - destruct (IH d Hd Hl') as (l' & O & U). exists (d :: l'). split; [apply once_other; [congruence | exact O] |]. cbn [map]. now rewrite U.
Qed.
Lemma uniq_right l : Forall good_card l -> exists l', once l l' /\ uniq (map show_card l) = map show_card l'.
Proof.
  destruct 1 as [| c l Hc Hl]; [exists []; split; [apply once_nil | reflexivity] |].
  destruct (uniq_from_right l c Hc Hl) as (l' & O & U). exists (c :: l'). split; [exact O |]. cbn [map uniq]. now rewrite U.
Qed.
Lemma once_in l l' : once l l' -> forall c, In c l' <-> In c l.
Proof.
  induction 1 as [| c | c l l' _ IH | c d l l' _ _ IH]; intros x; try tauto.
  - rewrite IH. simpl. tauto.
  - simpl. rewrite IH. simpl. tauto.
Qed.

Lemma fish_card_right before c : good_card c -> at_first_colon (card_title c) = None ->
  fish_card before (show_card c) = before ++ card_number c ++ [TAB] ++ card_title c ++ [LF].
Proof.
  intros G T. unfold fish_card, fish_split, show_card. rewrite without_card_app, first_colon by apply G.
  unfold card_id. now rewrite T.
Qed.
Lemma no_colon x : (forall u v, x <> u ++ s ": " ++ v) -> at_first_colon x = None.
Proof.
  induction x as [| c x IH]; intros H; [reflexivity |]. destruct x as [| d x]; [reflexivity |]. cbn [at_first_colon] in IH |- *.
  destruct (N.eqb c COLON && N.eqb d SP) eqn:E.
  - apply Bool.andb_true_iff in E as [E1 E2]. apply N.eqb_eq in E1, E2. subst. destruct (H [] x). reflexivity.
  - rewrite IH; [reflexivity |]. intros u v K. apply (H (c :: u) v). cbn [app]. now rewrite K.
Qed.

Lemma zsh_card_right hw c : good_card c -> ~ In BS hw ->
  zsh_describe (escape_colon hw ++ card_number c ++ [COLON] ++ card_title c) = (hw ++ card_number c, card_title c).
Proof.
  intros G H. replace (card_number c) with (escape_colon (card_number c)) at 1 by (apply replace_c_notin, (digits_free c G); reflexivity).
  rewrite app_assoc. unfold escape_colon. rewrite <- replace_c_app. cbn [app]. apply describe_both; [| apply G].
  rewrite in_app_iff. intros [K | K]; [contradiction |]. now apply (digits_free c G) in K.
Qed.
Lemma zsh_cards_right hw l : Forall good_card l -> ~ In BS hw ->
  exists l', once l l' /\ map zsh_describe (zsh_cards (escape_colon hw) (print_cards l)) = map (fun c => (hw ++ card_number c, card_title c)) l'.
Proof.
  intros H Hb. destruct (uniq_right l H) as (l' & O & U). exists l'. split; [exact O |]. unfold zsh_cards, print_cards.
  rewrite read_print by now apply cards_one_line. rewrite U, !map_map. apply map_ext_in. intros c Hc.
  apply (once_in l l' O) in Hc. rewrite Forall_forall in H. specialize (H c Hc). cbv zeta.
  rewrite strip_tidy by now apply card_tidy. rewrite card_unescaped, id_right, name_right by exact H. now apply zsh_card_right.
Qed.

(** A check for examples *)
Definition good_cardb (c : card) : bool :=
  negb (str_eqb (card_number c) []) && forallb is_digit (card_number c) && negb (str_eqb (card_title c) []) &&
  negb (memc LF (card_title c)) && negb (memc BS (card_title c)) && negb (is_blank (last (card_title c) 0%N)).
Lemma good_card1 c : good_cardb c = true -> good_card c.
Proof.
  unfold good_cardb. rewrite !Bool.andb_true_iff, !Bool.negb_true_iff, !memc_false, !str_eqb_neq.
  intros (((((H1 & H2) & H3) & H4) & H5) & H6). repeat split; auto. rewrite <- blank_iff. congruence.
Qed.
