(** * Proofs: the value of a scalar. *)
From Verif Require Import Base Value YamlParser SpecYamlScalar.
Open Scope list_scope.

Lemma mems_In x l : mems x l = true <-> In x l.
Proof.
  induction l as [| y l IH]; cbn; [split; [discriminate | contradiction] |]. rewrite orb_true_iff, IH, str_eqb_eq. split; intros [H | H]; auto.
Qed.
Lemma mems_not x l : mems x l = false <-> ~ In x l.
Proof. rewrite <- mems_In. destruct (mems x l); split; congruence. Qed.

(** texts that no number starts like *)
Definition no_start (y : str) : Prop := match y with [] => True | c :: _ => is_digit c = false /\ c <> DOT end.
Lemma unsigned_int_none y : no_start y -> unsigned_int y = None.
Proof. destruct y as [| c y]; [reflexivity |]. intros [H _]. unfold unsigned_int. now rewrite H. Qed.
Lemma cut_first_prefix p x a b : cut_first p x = Some (a, b) -> exists c, x = a ++ c :: b /\ p c = true.
Proof.
  revert a. induction x as [| c x IH]; intros a H; cbn in H; [discriminate |]. destruct (p c) eqn:E.
  - injection H as <- <-. now exists c.
  - destruct (cut_first p x) as [[a' b'] |] eqn:E'; [| discriminate]. injection H as <- <-. destruct (IH a' eq_refl) as (d & -> & Hd). exists d. now split.
Qed.
Lemma digit_run_not c y : is_digit c = false -> digit_run (c :: y) = false.
Proof. intros H. unfold digit_run, unsigned_int. now rewrite H. Qed.
Lemma mantissa_none y : no_start y -> mantissa y = false.
Proof.
  destruct y as [| c y]; [reflexivity |]. intros [H Hd]. unfold mantissa. destruct (cut_first (N.eqb DOT) (c :: y)) as [[a b] |] eqn:E.
  - apply cut_first_prefix in E as (d & E & Hd'). apply N.eqb_eq in Hd'. subst d. destruct a as [| a0 a]; [cbn in E; injection E as -> _; contradiction |].
    cbn in E. injection E as <- _. now rewrite digit_run_not.
  - now rewrite digit_run_not.
Qed.
Lemma float_none y : no_start y -> ~ In (lower y) [s "inf"; s "infinity"; s "nan"] -> unsigned_float y = false.
Proof.
  intros H Hn. unfold unsigned_float. apply mems_not in Hn. rewrite Hn. cbn [orb]. destruct (cut_first is_exponent_mark y) as [[a b] |] eqn:E; [| now apply mantissa_none].
  apply cut_first_prefix in E as (c & E & _). rewrite mantissa_none; [reflexivity |]. destruct a as [| a0 a]; [exact I |]. rewrite E in H. exact H.
Qed.
Lemma with_sign_unsigned {A} (f : str -> A) x : with_sign (fun _ => f) x = f (unsigned x).
Proof. destruct x as [| c x]; [reflexivity |]. cbn. destruct (N.eqb c DASH); [reflexivity |]. now destruct (N.eqb c PLUS). Qed.

Lemma strip_trimmed x : trimmed x -> strip_p is_space x = x.
Proof.
  intros [H1 H2]. unfold strip_p. assert (lstrip_p is_space x = x) as ->.
  { destruct x as [| c x]; [reflexivity |]. cbn. now rewrite (H1 c x eq_refl). }
  unfold rstrip_p. destruct (rev x) as [| c y] eqn:E; [apply (f_equal (@rev N)) in E; rewrite rev_involutive in E; now subst |].
  assert (x = rev y ++ [c]) as Ex by (rewrite <- (rev_involutive x), E; reflexivity). cbn [lstrip_p]. rewrite (H2 _ _ Ex). now rewrite Ex.
Qed.
Lemma int_none x : trimmed x -> no_start (unsigned x) -> int_of x = None.
Proof.
  intros Ht H. unfold int_of. rewrite strip_trimmed by exact Ht. destruct x as [| c x]; [reflexivity |]. cbn [with_sign unsigned] in *.
  destruct (N.eqb c DASH); cbn [orb] in H; [now rewrite unsigned_int_none |]. destruct (N.eqb c PLUS); now rewrite unsigned_int_none.
Qed.
Lemma float_none_x x : trimmed x -> no_start (unsigned x) -> ~ In (lower (unsigned x)) [s "inf"; s "infinity"; s "nan"] -> float_of x = false.
Proof. intros Ht H Hn. unfold float_of. rewrite strip_trimmed by exact Ht. rewrite with_sign_unsigned. now apply float_none. Qed.

Lemma not_decimal y : no_start y -> decimal y = false.
Proof.
  destruct y as [| c y]; [reflexivity |]. intros [H _]. unfold decimal. rewrite H. cbn [andb]. rewrite orb_false_r.
  destruct (str_eqb (c :: y) (s "0")) eqn:E; [| reflexivity]. apply str_eqb_eq in E. injection E as -> ->. discriminate.
Qed.
Lemma not_zero c : is_digit c = false -> N.eqb c 48 = false.
Proof. intros H. destruct (N.eqb_spec c 48) as [-> | _]; [discriminate | reflexivity]. Qed.
Lemma split_hd c x : exists first more, split_c c x = first :: more /\ (forall d y, first = d :: y -> exists z, x = d :: z).
Proof.
  induction x as [| e x IH]; [exists [], []; split; [reflexivity | discriminate] |]. cbn. destruct IH as (f & more & E & _). rewrite E.
  destruct (N.eqb e c); [exists [], (f :: more); split; [reflexivity | discriminate] |].
  exists (e :: f), more. split; [reflexivity |]. intros d y K. injection K as <- _. now exists x.
Qed.
Lemma not_sexagesimal y : no_start y -> sexagesimal y = false.
Proof.
  intros H. unfold sexagesimal. destruct (split_hd COLON y) as (f & more & E & K). rewrite E. destruct more; [reflexivity |].
  rewrite not_decimal; [reflexivity |]. destruct f as [| d f]; [exact I |]. destruct (K d f eq_refl) as (z & ->). exact H.
Qed.
Lemma yaml_int_none x : no_start (unsigned x) -> yaml_int x = false.
Proof.
  intros H. unfold yaml_int. cbv zeta. rewrite not_decimal, not_sexagesimal by exact H. destruct (unsigned x) as [| c y]; [reflexivity |]. destruct H as [H _].
  unfold octal, binary, hexadecimal. rewrite not_zero by exact H. destruct y as [| d y]; reflexivity.
Qed.
Lemma split_none c y a : split_c c y = [a] -> y = a.
Proof.
  revert a. induction y as [| e y IH]; intros a H; cbn in H; [congruence |]. destruct (split_c c y) as [| f more] eqn:E; [destruct (split_c_nonnil _ _ E) |].
  destruct (N.eqb e c); [discriminate |]. injection H as <- ->. now rewrite (IH f eq_refl).
Qed.
Lemma split_first_dot y a b : split_c DOT y = [a; b] -> y = a ++ DOT :: b.
Proof.
  revert a b. induction y as [| e y IH]; intros a b H; cbn in H; [discriminate |]. destruct (split_c DOT y) as [| f more] eqn:E; [destruct (split_c_nonnil _ _ E) |].
  destruct (N.eqb_spec e DOT) as [-> | Hc].
  - injection H as <- <- ->. cbn. f_equal. now apply split_none in E.
  - injection H as <- ->. cbn. now rewrite (IH f b eq_refl).
Qed.
Lemma yaml_float_none x : no_start (unsigned x) -> yaml_float x = false.
Proof.
  intros H. unfold yaml_float. cbv zeta. unfold behind_dot. destruct (split_c DOT (unsigned x)) as [| a [| b [|]]] eqn:E; try reflexivity.
  apply split_first_dot in E. destruct a as [| c a]; [rewrite E in H; destruct H as [_ H]; contradiction |].
  rewrite E in H. destruct H as [H1 H2].
  assert (starts_with_digit (c :: a) = false) as -> by exact H1. cbn [andb orb].
  assert (match split_c COLON (c :: a) with first :: (_ :: _) as more => starts_with_digit first && forallb digit_or_underscore first && forallb sixtieth (tl more) && forallb digit_or_underscore b | _ => false end = false) as ->.
  { destruct (split_hd COLON (c :: a)) as (f & more & Es & K). rewrite Es. destruct more; [reflexivity |]. destruct f as [| d f]; [reflexivity |].
    destruct (K d f eq_refl) as (z & Ez). injection Ez as <- _. unfold starts_with_digit. now rewrite H1. }
  cbn [orb].
  assert (mems (unsigned x) [s ".inf"; s ".Inf"; s ".INF"] = false) as ->.
  { apply mems_not. rewrite E. intros [K | [K | [K | []]]]; injection K as K _; apply H2; now symmetry. }
  apply mems_not. intros K. assert (exists r, x = DOT :: r) as (r & ->) by (destruct K as [<- | [<- | [<- | []]]]; now eexists).
  cbn in E. injection E as E _. apply H2. now symmetry.
Qed.


(** words *)
Lemma no_start_iff x : no_number_start x <-> no_start (unsigned x).
Proof. unfold no_number_start, no_start. destruct (unsigned x) as [| c y]; split; intros H; auto; [discriminate | now apply (H c y) |]. intros d z E. injection E as <- _. exact H. Qed.
Lemma special_agree x : In x (s "~" :: [] :: usual_spellings) -> yaml_value x true = Some (convert_scalar x true).
Proof. intros H. repeat (destruct H as [<- | H]; [reflexivity |]). destruct H. Qed.
Lemma spelled l x : (forall w, In w l -> In (lower w) (s "~" :: [] :: special_words)) -> ~ In (lower x) (s "~" :: [] :: special_words) -> mems x l = false.
Proof. intros H K. apply mems_not. intros Hx. apply K. now apply H. Qed.
Lemma incl_mems x l l' : ~ In x l' -> incl l l' -> mems x l = false.
Proof. intros H K. apply mems_not. intros Hx. apply H. now apply K. Qed.
Ltac among := let w := fresh in let K := fresh in intros w K; repeat (destruct K as [<- | K]; [cbn; tauto |]); destruct K.
Lemma words_agree x : ordinary_word x -> yaml_value x true = Some (convert_scalar x true).
Proof.
  intros (Ht & H & Hn & Hu & H1 & H2). apply no_start_iff in H.
  destruct (in_dec (list_eq_dec N.eq_dec) (lower x) (s "~" :: [] :: special_words)) as [E | E].
  - apply special_agree. destruct E as [E | [E | E]].
    + left. destruct x as [| c [| d x]]; try discriminate. assert (lower_c c = 126%N) as L by (apply (f_equal (hd 0%N)) in E; symmetry; exact E). clear E. unfold lower_c in L. destruct (is_upper c) eqn:U; [| rewrite L; reflexivity].
      unfold is_upper in U. apply andb_true_iff in U as [U1 U2]. apply N.leb_le in U1, U2. exfalso. lia.
    + right. left. destruct x; [reflexivity | discriminate].
    + right. right. now apply Hu.
  - unfold yaml_value, convert_scalar. cbn [negb]. rewrite yaml_int_none, yaml_float_none by exact H. rewrite int_none by assumption. rewrite float_none_x by assumption.
    assert (like_a_date x = false) as ->.
    { destruct x as [| a [| b [| c [| d [| e [| f y]]]]]]; try reflexivity. unfold like_a_date. cbn [unsigned] in H. destruct (is_digit a) eqn:D; [| reflexivity].
      destruct (N.eqb_spec a DASH) as [-> | _]; [discriminate |]. destruct (N.eqb_spec a PLUS) as [-> | _]; [discriminate |]. cbn [orb] in H. destruct H; congruence. }
    rewrite (incl_mems x [s "<<"; s "="] [s "<<"; s "="]); [| intros [K | [K | []]]; congruence | apply incl_refl]. cbn [orb].
    rewrite !(incl_mems (lower x) _ _ E) by among. rewrite !(spelled _ x) by (try exact E; among). reflexivity.
Qed.

(** integers *)
Lemma digits_number y acc : Forall (fun d => is_digit d = true) y -> digits_value acc y = Some (fold_left (fun z c => z * 10 + digit_value c)%Z y acc).
Proof.
  revert acc. induction y as [| c y IH]; intros acc H; [reflexivity |]. inversion H; subst. cbn. rewrite H2. rewrite IH by assumption. f_equal. f_equal.
  unfold digit_value. rewrite H2. unfold is_digit in H2. apply andb_true_iff in H2 as [H2 _]. apply N.leb_le in H2. lia.
Qed.

Lemma digits_no_underscore y : Forall (fun d => is_digit d = true) y -> remove_underscores y = y.
Proof.
  induction 1 as [| c y H _ IH]; [reflexivity |]. unfold remove_underscores in *. cbn [filter]. rewrite IH. destruct (N.eqb_spec c UND) as [-> | _]; [discriminate | reflexivity].
Qed.
Lemma digit_not_space c : is_digit c = true -> is_space c = false.
Proof.
  unfold is_digit, is_space. intros H. apply andb_true_iff in H as [H1 H2]. apply N.leb_le in H1, H2.
  repeat match goal with |- context [N.eqb ?a ?b] => destruct (N.eqb_spec a b); [lia |] | |- context [N.leb ?a ?b] => destruct (N.leb_spec a b); try lia end; reflexivity.
Qed.

Lemma ordinary_digits x : ordinary_integer x -> exists c y, unsigned x = c :: y /\ Forall (fun d => is_digit d = true) (c :: y) /\ decimal (c :: y) = true.
Proof.
  intros [E | (c & y & E & Hc & Hz & Hy)].
  - exists 48%N, []. split; [exact E |]. split; [repeat constructor | reflexivity].
  - exists c, y. split; [exact E |]. split; [now constructor |]. unfold decimal. rewrite Hc. destruct (N.eqb_spec c 48) as [-> | _]; [contradiction |]. cbn [negb andb].
    assert (forallb digit_or_underscore y = true) as ->; [| apply orb_true_r]. apply forallb_forall. intros d Hd. rewrite Forall_forall in Hy. unfold digit_or_underscore. now rewrite Hy.
Qed.
Lemma unsigned_cases x : x = unsigned x \/ x = DASH :: unsigned x \/ x = PLUS :: unsigned x.
Proof.
  destruct x as [| c x]; [now left |]. cbn. destruct (N.eqb_spec c DASH) as [-> | _]; [now right; left |]. destruct (N.eqb_spec c PLUS) as [-> | _]; [now right; right | now left].
Qed.
Lemma ordinary_trimmed x : ordinary_integer x -> trimmed x.
Proof.
  intros H. apply ordinary_digits in H as (c & y & E & H & _). assert (forall d, In d x -> is_space d = false) as K.
  { intros d Hd. rewrite Forall_forall in H. destruct (unsigned_cases x) as [Ex | [Ex | Ex]]; rewrite Ex, E in Hd.
    - apply digit_not_space, H, Hd.
    - destruct Hd as [<- | Hd]; [reflexivity | apply digit_not_space, H, Hd].
    - destruct Hd as [<- | Hd]; [reflexivity | apply digit_not_space, H, Hd]. }
  split; intros; apply K; subst x; [now left | apply in_elt].
Qed.
Lemma hd_not_in x (l : list str) c : hd_error x = Some c -> forallb (fun w => match w with d :: _ => negb (N.eqb d c) | [] => true end) l = true -> mems x l = false.
Proof.
  intros Hx Hl. apply mems_not. intros Hi. rewrite forallb_forall in Hl. apply Hl in Hi. destruct x as [| d x]; [discriminate |]. injection Hx as ->. now rewrite N.eqb_refl in Hi.
Qed.
Definition number_mark (c : N) : bool := is_digit c || N.eqb c DASH || N.eqb c PLUS.
Lemma mark_not_in x (l : list str) c : hd_error x = Some c -> number_mark c = true -> forallb (fun w => match w with d :: _ => negb (number_mark d) | [] => true end) l = true -> mems x l = false.
Proof.
  intros Hx Hc Hl. apply (hd_not_in x l c Hx). apply forallb_forall. intros w Hw. rewrite forallb_forall in Hl. apply Hl in Hw. destruct w as [| d w]; [reflexivity |].
  destruct (N.eqb_spec d c) as [-> | _]; [now rewrite Hc in Hw | reflexivity].
Qed.
Lemma mark_not_upper c : number_mark c = true -> lower_c c = c.
Proof.
  intros H. unfold lower_c. destruct (is_upper c) eqn:U; [| reflexivity]. unfold number_mark, is_digit, is_upper in *. apply andb_true_iff in U as [U1 U2]. apply N.leb_le in U1, U2.
  apply orb_true_iff in H as [H | H]; [apply orb_true_iff in H as [H | H] |].
  - apply andb_true_iff in H as [H1 H2]. apply N.leb_le in H1, H2. lia.
  - apply N.eqb_eq in H. lia.
  - apply N.eqb_eq in H. lia.
Qed.
Lemma integers_agree x : ordinary_integer x -> yaml_value x true = Some (convert_scalar x true) /\ convert_scalar x true = VInt (int_value x).
Proof.
  intros H. pose proof (ordinary_trimmed x H) as Ht. apply ordinary_digits in H as (c & y & E & Hd & Hdec).
  assert (exists d, hd_error x = Some d /\ number_mark d = true) as (d & Hx & Hm).
  { destruct (unsigned_cases x) as [Ex | [Ex | Ex]]; rewrite Ex, ?E; eexists; (split; [reflexivity |]); try reflexivity. inversion Hd; subst. unfold number_mark. now rewrite H1. }
  assert (hd_error (lower x) = Some d) as Hl.
  { destruct x as [| d' x']; [discriminate |]. injection Hx as ->. cbn. now rewrite mark_not_upper. }
  assert (int_of x = Some (int_value x)) as Ei.
  { unfold int_of, int_value. rewrite strip_trimmed by exact Ht. rewrite E, digits_no_underscore by exact Hd. cbv zeta. rewrite Hdec.
    assert (unsigned_int (c :: y) = Some (number 10 (c :: y))) as Eu.
    { unfold unsigned_int. inversion Hd; subst. rewrite H1. rewrite digits_number by exact Hd. reflexivity. }
    destruct (unsigned_cases x) as [Ex | [Ex | Ex]].
    - assert (with_sign (fun negative y0 => option_map (fun z => if negative : bool then (- z)%Z else z) (unsigned_int y0)) x = option_map (fun z => z) (unsigned_int (unsigned x)) /\ negative x = false) as [-> ->].
      { destruct x as [| a x]; [discriminate |]. cbn in *. destruct (N.eqb_spec a DASH) as [-> | _]; [cbn in Ex; apply (f_equal (@length N)) in Ex; cbn in Ex; lia |].
        destruct (N.eqb_spec a PLUS) as [-> | _]; [cbn in Ex; apply (f_equal (@length N)) in Ex; cbn in Ex; lia |]. now split. }
      rewrite E, Eu. reflexivity.
    - rewrite Ex, E. cbn [with_sign negative]. change (N.eqb DASH DASH) with true. cbv iota. now rewrite Eu.
    - rewrite Ex, E. cbn [with_sign negative]. change (N.eqb PLUS DASH) with false. change (N.eqb PLUS PLUS) with true. cbv iota. now rewrite Eu. }
  assert (convert_scalar x true = VInt (int_value x)) as Ec.
  { unfold convert_scalar. rewrite !(mark_not_in (lower x) _ d Hl Hm) by reflexivity. now rewrite Ei. }
  split; [| exact Ec]. rewrite Ec. unfold yaml_value. cbn [negb]. rewrite !(mark_not_in x _ d Hx Hm) by reflexivity.
  unfold yaml_int. rewrite E, Hdec. reflexivity.
Qed.
Lemma quoted_agree x : yaml_value x false = Some (convert_scalar x false).
Proof. reflexivity. Qed.
Lemma ordinary_agree x plain : ordinary x plain -> yaml_value x plain = Some (convert_scalar x plain).
Proof. intros H. destruct plain; [| reflexivity]. destruct (H eq_refl) as [K | K]; [now apply words_agree | now apply integers_agree]. Qed.
