(** * Proofs about the conversion of help texts. *)
From Verif Require Import Base PyStr Value Dict DictSource StrUtils SchemeValidator SchemeNested SpecHelp HelpParser HelpProofs HelpConverter.
Open Scope list_scope.

Definition is_cmd (x : str) : bool := str_eqb (lower (strip_p (fun c => memc c [LT; GT]) x)) (s "cmd").

Lemma each_choices l : each (fun v => check_type v str_or_int) (map (fun item => VStr (strip_p is_space item)) l) = Ok tt.
Proof. induction l as [| x l IH]; [reflexivity | exact IH]. Qed.
Lemma complete_valid e c x : is_cmd x = false -> exists t, check_complete e c [] (complete_for_metavar x) = Ok t.
Proof.
  intros H. unfold complete_for_metavar. set (string := strip_p _ x) in *.
  destruct (find _ metavar_equals) as [[k v] |] eqn:E1.
  { apply find_some in E1 as [Hin E]. apply str_eqb_eq in E. unfold is_cmd in H. fold string in H. rewrite <- E in H.
    unfold metavar_equals in Hin.
    repeat (destruct Hin as [Hin | Hin]; [apply pair_equal_spec in Hin as [<- <-]; first [discriminate H | eexists; reflexivity] |]). destruct Hin. }
  destruct (find _ metavar_endswith) as [[k v] |] eqn:E2.
  { apply find_some in E2 as [Hin _]. unfold metavar_endswith in Hin.
    repeat (destruct Hin as [Hin | Hin]; [apply pair_equal_spec in Hin as [<- <-]; eexists; reflexivity |]). destruct Hin. }
  assert (N : exists t, check_complete e c [] (VList [VStr (s "none")]) = inr t) by (eexists; reflexivity).
  assert (C : forall l, exists t, check_complete e c [] (VList [VStr (s "choices"); VList (map (fun item => VStr (strip_p is_space item)) l)]) = inr t).
  { intros l. exists []. change (check_complete e c [] (VList [VStr (s "choices"); VList (map (fun item => VStr (strip_p is_space item)) l)])) with
      (do _ <- each (fun v => check_type v str_or_int) (map (fun item => VStr (strip_p is_space item)) l); @inr exn _ (@nil str)).
    now rewrite each_choices. }
  destruct (_ && _); [| exact N]. destruct (memc PIPE _); [apply C |]. destruct (memc COMMA _); [apply C | exact N].
Qed.

(** ** Options that come out of the parser *)
Definition sound_option (o : option_with_metavar) : Prop :=
  option_string (o_option o) /\ (o_optional o = true -> exists c m, o_metavar o = Some (c :: m)).
Lemma option_text_sound o t : option_text o t -> sound_option o.
Proof.
  intros [sp n m f t' _ Ho Ha]. split; [exact Ho |]. cbn [o_optional o_metavar]. intros ->. inversion Ha. subst. eauto.
Qed.
Lemma options_text_sound os t : options_text os t -> os <> [] /\ forall o, In o os -> sound_option o.
Proof.
  intros H. induction H as [o t H | o t sp d H | o os t sp d t' H _ _ _ [_ IH]]; (split; [discriminate |]).
  - intros o' [<- | []]. now apply option_text_sound in H.
  - intros o' [<- | []]. now apply option_text_sound in H.
  - intros o' [<- | Ho]; [now apply option_text_sound in H | now apply IH].
Qed.
Lemma items_sound is t : items_text is t -> forall os d, In (OptionsWithDescription os d) is -> os <> [] /\ forall o, In o os -> sound_option o.
Proof.
  intros H. induction H as [| i is t t' Hi _ IH]; intros os d []; [| now apply (IH os d)].
  subst i. inversion Hi; subst; eapply options_text_sound; eassumption.
Qed.
Lemma metavar_present os m : (exists o c x, In o os /\ o_metavar o = Some (c :: x)) \/ m <> None -> last_metavar os m <> None.
Proof.
  revert m. induction os as [| o os IH]; intros m H; cbn [last_metavar].
  - destruct H as [(o & c & x & [] & _) | H]; exact H.
  - apply IH. destruct H as [(o' & c & x & [-> | Ho] & E) | H].
    + right. rewrite E. discriminate.
    + left. eauto.
    + right. destruct (o_metavar o) as [[| c x] |]; [exact H | discriminate | exact H].
Qed.
Lemma valid_string x : option_string x -> (forall c, In c x -> is_space c = false) -> is_valid_option_string x = true.
Proof.
  intros ((x' & ->) & H1 & H2 & H) Hs. destruct x' as [| d x']; [now destruct H1 |]. cbn [is_valid_option_string].
  rewrite N.eqb_refl. cbn [andb tl]. apply andb_true_intro. split.
  - apply forallb_forall. intros c Hc. rewrite (Hs c) by now right. destruct (H c) as (_ & Hd & _); [now right |].
    destruct (N.eqb_spec c COMMA); [destruct Hd; now left | reflexivity].
  - destruct (str_eqb_spec (DASH :: d :: x') [DASH; DASH]) as [E | E]; [now destruct H2 | reflexivity].
Qed.
Lemma each_valid l : (forall o, In o l -> is_valid_option_string (o_option o) = true) ->
  each check_option_string (map (fun o => VStr (o_option o)) l) = Ok tt.
Proof.
  induction l as [| o l IH]; intros H; [reflexivity |]. cbn [map each check_option_string]. rewrite (H o (or_introl eq_refl)). cbn [bind].
  apply IH. intros o' Ho. apply H. now right.
Qed.
Lemma complete_is_list x : exists l, complete_for_metavar x = VList l.
Proof.
  unfold complete_for_metavar. destruct (find _ _) as [[k v] |]; [eauto |]. destruct (find _ _) as [[k v] |]; [eauto |].
  destruct (_ && _); [| eauto]. destruct (memc _ _); [eauto |]. destruct (memc _ _); eauto.
Qed.
Lemma dict_valid e ps os d : os <> [] -> (forall o, In o os -> sound_option o) ->
  (forall o c, In o os -> In c (o_option o) -> is_space c = false) ->
  (forall m, last_metavar os None = Some m -> is_cmd m = false) ->
  check_option e ps (option_dict os d) = Ok tt.
Proof.
  intros Hn Hs Hsp Hc. unfold option_dict. set (h := fix_description _).
  assert (Hv : each check_option_string (map (fun o => VStr (o_option o)) os) = Ok tt).
  { apply each_valid. intros o Ho. apply valid_string; [now apply (Hs o) | intros c Hc'; now apply (Hsp o c)]. }
  destruct (map (fun o => VStr (o_option o)) os) as [| v vs] eqn:Em; [destruct os; [congruence | discriminate] |].
  assert (Hopt : existsb o_optional os = true -> last_metavar os None <> None).
  { intros E. apply existsb_exists in E as (o & Ho & E). apply metavar_present. left. destruct (Hs o Ho) as [_ K]. destruct (K E) as (c & m & K'). eauto. }
  destruct (last_metavar os None) as [m |].
  - destruct (complete_valid e (MkCtx None ps) m (Hc m eq_refl)) as (t & Et). destruct (complete_is_list m) as (l & El). rewrite El in *.
    destruct (existsb o_optional os); cbn [app]; apply check_option_ok; unfold check_option0, check_dictionary;
      (match goal with |- context [check_items option_rules ?d] => change (check_items option_rules d) with (@inr exn unit tt) end);
      cbn [bind];
      (match goal with |- context [forallb ?f option_rules] => change (forallb f option_rules) with true end);
      cbn iota;
      (match goal with |- context [vget (s "option_strings") ?d] => change (vget (s "option_strings") d) with (Some (VList (v :: vs))) end);
      cbn [check_if bind check_non_empty_list on_list]; rewrite Hv; cbn [bind];
      (match goal with |- context [has_set ?d "metavar"] => change (has_set d "metavar") with true; change (has_set d "complete") with true;
         change (is_true d "repeatable") with false; change (has_set d "group") with false; change (has_set d "groups") with false;
         change (has_set d "when") with false; change (has_set d "capture") with false; change (has_set d "long_opt_arg_sep") with false;
         change (vget (s "complete") d) with (Some (VList l)) end);
      rewrite andb_false_r; cbn [andb negb check_if bind]; rewrite Et; reflexivity.
  - destruct (existsb o_optional os); [now destruct (Hopt eq_refl) |]. cbn [app]. apply check_option_ok; unfold check_option0, check_dictionary.
    (match goal with |- context [check_items option_rules ?d] => change (check_items option_rules d) with (@inr exn unit tt) end).
    cbn [bind].
    (match goal with |- context [forallb ?f option_rules] => change (forallb f option_rules) with true end).
    cbn iota.
    (match goal with |- context [vget (s "option_strings") ?d] => change (vget (s "option_strings") d) with (Some (VList (v :: vs))) end).
    cbn [check_if bind check_non_empty_list on_list]. rewrite Hv. reflexivity.
Qed.
Lemma option_dicts_in is v : In v (option_dicts is) <-> exists os d, In (OptionsWithDescription os d) is /\ v = option_dict os d.
Proof.
  induction is as [| i is IH]; cbn [option_dicts].
  - split; [intros [] | intros (os & d & [] & _)].
  - destruct i as [t | os d]; cbn [In]; rewrite IH.
    + split; [intros (os & d & H & E); exists os, d; auto | intros (os & d & [H | H] & E); [discriminate | eauto]].
    + split.
      * intros [<- | (os' & d' & H & E)]; [exists os, d; auto | exists os', d'; auto].
      * intros (os' & d' & [H | H] & ->); [injection H as <- <-; now left | right; eauto].
Qed.

(** ** Descriptions *)
Lemma replace_c_none c r x : ~ In c r -> ~ In c (replace_c c r x).
Proof.
  intros H. induction x as [| d x IH]; [intros [] |]. cbn [replace_c]. destruct (N.eqb_spec d c) as [-> | Hd].
  - rewrite in_app_iff. tauto.
  - intros [E | K]; [now apply Hd | now apply IH].
Qed.
Lemma description_one_line d : ~ In LF (fix_description d).
Proof. unfold fix_description. apply replace_c_none. intros [E | []]. discriminate. Qed.

Lemma replace_line x : ~ In LF x -> forall y,
  replace_s [DASH; LF] [DASH] (x ++ LF :: y) = x ++ (if N.eqb (last x 0%N) DASH then [] else [LF]) ++ replace_s [DASH; LF] [DASH] y.
Proof.
  unfold replace_s. induction x as [| c x IH]; intros H y.
  - cbn [app last]. reflexivity.
  - cbn [app]. destruct x as [| d x].
    + cbn [app last]. cbn [replace_loop starts_with]. destruct (N.eqb_spec c DASH) as [-> | Hc].
      * reflexivity.
      * assert (E : N.eqb DASH c = false) by (apply N.eqb_neq; congruence). rewrite E. reflexivity.
    + assert (E : starts_with [DASH; LF] (c :: (d :: x) ++ LF :: y) = false).
      { cbn [app starts_with]. destruct (N.eqb_spec LF d); [subst; destruct H; right; now left |]. now rewrite andb_false_r. }
      cbn [replace_loop]. rewrite E. cbn [app]. cbn [app] in IH. rewrite IH by (intros K; apply H; now right). reflexivity.
Qed.
Lemma replace_last x : ~ In LF x -> replace_s [DASH; LF] [DASH] x = x.
Proof.
  unfold replace_s. induction x as [| c x IH]; intros H; [reflexivity |].
  assert (E : starts_with [DASH; LF] (c :: x) = false).
  { cbn [starts_with]. destruct x as [| d x]; [now rewrite andb_false_r |]. destruct (N.eqb_spec LF d); [subst; destruct H; right; now left |]. now rewrite andb_false_r. }
  cbn [replace_loop]. rewrite E, IH; [reflexivity |]. intros K. apply H. now right.
Qed.
Lemma replace_c_app c r x y : replace_c c r (x ++ y) = replace_c c r x ++ replace_c c r y.
Proof. induction x as [| d x IH]; [reflexivity |]. cbn [app replace_c]. destruct (N.eqb d c); rewrite IH; [now rewrite app_assoc | reflexivity]. Qed.
Lemma replace_c_id c r x : ~ In c x -> replace_c c r x = x.
Proof.
  induction x as [| d x IH]; intros H; [reflexivity |]. cbn [replace_c]. destruct (N.eqb_spec d c); [subst; destruct H; now left |].
  rewrite IH; [reflexivity |]. intros K. apply H. now right.
Qed.
Lemma unwrapped lines : (forall l, In l lines -> ~ In LF l) ->
  replace_c LF [SP] (replace_s [DASH; LF] [DASH] (join [LF] lines)) = unwrap lines.
Proof.
  induction lines as [| l lines IH]; intros H; [reflexivity |]. destruct lines as [| l2 lines].
  - cbn [join unwrap]. rewrite replace_last by (apply H; now left). apply replace_c_id. apply H. now left.
  - set (rest := l2 :: lines) in *.
    change (join [LF] (l :: rest)) with (l ++ LF :: join [LF] rest).
    change (unwrap (l :: rest)) with (l ++ (if N.eqb (last l 0%N) DASH then [] else s " ") ++ unwrap rest).
    rewrite replace_line by (apply H; now left). rewrite !replace_c_app, IH by (intros k Hk; apply H; now right).
    rewrite (replace_c_id LF [SP] l) by (apply H; now left). now destruct (N.eqb _ _).
Qed.
Lemma lstrip_id p x : (forall c x', x = c :: x' -> p c = false) -> lstrip_p p x = x.
Proof. intros H. destruct x as [| c x]; [reflexivity |]. cbn [lstrip_p]. now rewrite (H c x eq_refl). Qed.
Lemma strip_lines lines a z : (forall l, In l lines -> ~ In LF l) ->
  (exists x, join [LF] lines = a :: x) -> (exists x, join [LF] lines = x ++ [z]) -> is_space a = false -> is_space z = false ->
  strip_p is_space (flat_map (fun l => l ++ [LF]) lines) = join [LF] lines.
Proof.
  intros _ (x & Ex) (y & Ey) Ha Hz.
  assert (E : lines <> [] -> flat_map (fun l => l ++ [LF]) lines = join [LF] lines ++ [LF]).
  { clear. induction lines as [| l lines IH]; intros H; [congruence |]. destruct lines as [| l2 lines]; [cbn; now rewrite app_nil_r |].
    cbn [flat_map]. cbn [flat_map] in IH. rewrite IH by discriminate. cbn [join]. now rewrite <- !app_assoc. }
  rewrite E by (destruct lines; [discriminate | discriminate]). unfold strip_p, rstrip_p.
  rewrite (lstrip_id _ (join [LF] lines ++ [LF])) by (rewrite Ex; intros c x' K; now injection K as <- _).
  rewrite rev_app_distr. cbn [rev app lstrip_p]. change (is_space LF) with true. cbn iota.
  rewrite lstrip_id; [apply rev_involutive |]. rewrite Ey, rev_app_distr. intros c x' K. now injection K as <- _.
Qed.
Lemma fixed_description lines a z : (forall l, In l lines -> ~ In LF l) ->
  (exists x, join [LF] lines = a :: x) -> (exists x, join [LF] lines = x ++ [z]) -> is_space a = false -> is_space z = false ->
  fix_description (flat_map (fun l => l ++ [LF]) lines) = unwrap lines.
Proof. intros H Ha Hz Sa Sz. unfold fix_description. rewrite (strip_lines lines a z H Ha Hz Sa Sz). now apply unwrapped. Qed.
