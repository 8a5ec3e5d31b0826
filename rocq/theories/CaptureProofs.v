(** * Captured variables hold the values of their options. *)
From Verif Require Import Base PyStr Shell ShellProofs SpecShell SpecZsh ZshReading SpecChoices ChoicesZsh Cli SpecCli CliProofs CliMore GenerationProofs
  FishRuntime FishQuery Zsh Capture SpecCapture.
Open Scope list_scope.

Lemma mems_iff x l : mems x l = true <-> In x l.
Proof.
  unfold mems. rewrite existsb_exists. split; [intros (y & Hy & E); apply str_eqb_eq in E as <-; exact Hy | intros H; exists x; split; [exact H | now apply str_eqb_eq]].
Qed.
Lemma values_flat given o : flat_map (fun x => if mems (fst x) (o_strings o) then [snd x] else []) given = values_given given o.
Proof.
  unfold values_given. induction given as [| x l IH]; [reflexivity |]. cbn [flat_map filter]. destruct (mems (fst x) (o_strings o)); cbn [map app]; now rewrite IH.
Qed.
Lemma output_values q o : ~ In [] (o_strings o) -> zget_option q (o_strings o) = flat_map (fun v => v ++ [LF]) (values_given (q_options q) o).
Proof.
  intros H. unfold zget_option. destruct (mems [] (o_strings o)) eqn:E; [apply mems_iff in E; contradiction |]. cbn [app].
  unfold values_given. induction (q_options q) as [| x l IH]; [reflexivity |]. cbn [flat_map filter].
  destruct (mems (fst x) (o_strings o)); cbn [map flat_map app]; now rewrite IH.
Qed.

(** ** zsh *)
Lemma split_any_none seps x : (forall d, In d x -> memc d seps = false) -> split_any seps x = [x].
Proof.
  induction x as [| c x IH]; intros H; [reflexivity |]. cbn [split_any]. rewrite (H c) by now left. rewrite IH; [reflexivity | intros; apply H; now right].
Qed.
Lemma rstrip_line v : v <> [] -> ~ In LF v -> rstrip_p (N.eqb LF) (v ++ [LF]) = v.
Proof.
  intros Hn H. unfold rstrip_p. rewrite rev_app_distr. cbn [rev app lstrip_p]. rewrite N.eqb_refl.
  destruct (rev v) as [| d l] eqn:E; [apply (f_equal (@rev N)) in E; rewrite rev_involutive in E; contradiction |].
  cbn [lstrip_p]. destruct (N.eqb_spec LF d) as [<- | _]; [exfalso; apply H; rewrite <- (rev_involutive v), E; apply in_or_app; right; now left |].
  rewrite <- E. apply rev_involutive.
Qed.
Lemma fields_one ifs v : v <> [] -> ~ In LF v -> (forall d, In d v -> memc d ifs = false) -> fields ifs (v ++ [LF]) = [v].
Proof. intros Hn H Hs. unfold fields. rewrite rstrip_line by assumption. rewrite split_any_none by exact Hs. destruct v; [contradiction | reflexivity]. Qed.

Lemma strings_read strs : strs <> [] -> (forall x, In x strs -> hd 0%N x <> EQ) -> forall r,
  to_parenthesis ZPlain (join_quoted strs [SP] ++ s "))" ++ r) = Some (join_quoted strs [SP], s ")" ++ r) /\ zsh_array (join_quoted strs [SP]) = Some strs.
Proof.
  intros Hne H r. assert (W : zwords (join_quoted strs [SP]) strs).
  { unfold join_quoted. rewrite <- (app_nil_r (join [SP] (map quote strs))). apply (zwords_join (map quote strs) strs [] []); [| intros ? [] | intros ? []].
    clear Hne. induction strs as [| x l IH]; cbn [map]; constructor; [apply zword_quote, H; now left | apply IH; intros; apply H; now right]. }
  split; [| now apply zwords_array]. apply zwords_read in W as (l & E & _).
  change (s "))" ++ r) with (RPAR :: (s ")" ++ r)). exact (to_parenthesis_end _ (s ")" ++ r) _ _ _ E).
Qed.
Definition bad_ifs : str := s "$\n".
Lemma ifs_read : zsh_value (s "$""\n""") = Some bad_ifs /\ ~ In SP (s "$""\n""").
Proof. split; [reflexivity | intros K; cbn in K; repeat (destruct K as [K | K]; [discriminate K |]); exact K]. Qed.

Definition sets_of (l : list (str * list str)) : list zset := map (fun x => ZSet bad_ifs (fst x) (snd x)) l.
Lemma sets_read query l : (forall v strs, In (v, strs) l -> v <> [] /\ forallb is_word v = true /\ strs <> [] /\ forall x, In x strs -> hd 0%N x <> EQ) ->
  reads_sets query (flat_map (fun x => [LF] ++ s "IFS=$""\n"" " ++ fst x ++ s "=($(" ++ query ++ s " get_option " ++ join_quoted (snd x) [SP] ++ s "))") l) (sets_of l).
Proof.
  induction l as [| [v strs] l IH]; intros H; [apply rs_end |]. cbn [flat_map sets_of map fst snd]. destruct (H v strs (or_introl eq_refl)) as (H1 & H2 & H3 & H4).
  rewrite <- !app_assoc. destruct ifs_read as [E1 E2].
  change (s "IFS=$""\n"" " ++ ?x) with (s "IFS=" ++ s "$""\n""" ++ s " " ++ x).
  destruct (strings_read strs H3 H4 (flat_map (fun x => [LF] ++ s "IFS=$""\n"" " ++ fst x ++ s "=($(" ++ query ++ s " get_option " ++ join_quoted (snd x) [SP] ++ s "))") l)) as [E3 E4].
  apply rs_set; auto. apply IH. intros; apply H; now right.
Qed.
Lemma captures_In c v strs : In (v, strs) (captures c) <-> exists o, In o (c_options c) /\ o_capture o = Some v /\ v <> [] /\ strs = o_strings o.
Proof.
  unfold captures. rewrite in_flat_map. split.
  - intros (o & Ho & H). destruct (o_capture o) as [[| d w] |] eqn:E; [destruct H | | destruct H]. destruct H as [H | []]. injection H as <- <-. exists o. split; [exact Ho |]. split; [exact E |]. split; [discriminate | reflexivity].
  - intros (o & Ho & E & Hn & ->). exists o. split; [exact Ho |]. rewrite E. destruct v; [contradiction | now left].
Qed.
Lemma variable_word v : variable_name v -> v <> [] /\ forallb is_word v = true.
Proof.
  intros (c & y & -> & Hc & Hy). split; [discriminate |]. cbn [forallb]. apply andb_true_iff. split.
  - unfold is_word. destruct Hc as [-> | [-> | ->]]; [reflexivity | rewrite ?orb_true_r; reflexivity | reflexivity].
  - apply forallb_forall. intros d Hd. unfold is_word. destruct (Hy d Hd) as [-> | [-> | [-> | ->]]]; rewrite ?orb_true_r; reflexivity.
Qed.
Lemma captures_read query c : valid_command c -> reads_captures query (option_capture_text query (captures c)) (map fst (captures c)) (sets_of (captures c)).
Proof.
  intros Hv. unfold option_capture_text. assert (R : reads_sets query (flat_map (fun x => [LF] ++ s "IFS=$""\n"" " ++ fst x ++ s "=($(" ++ query ++ s " get_option " ++ join_quoted (snd x) [SP] ++ s "))") (captures c)) (sets_of (captures c))).
  { apply sets_read. intros v strs H. apply captures_In in H as (o & Ho & Hc & Hn & ->).
    destruct Hv as (_ & _ & Hv & _). destruct (Hv o Ho) as (H1 & H2 & H3 & _). split; [exact Hn |]. split; [| split; [exact H1 |]].
    - now apply variable_word, H3.
    - intros x Hx. destruct (H2 x Hx) as (y & -> & _). discriminate. }
  destruct (captures c) as [| x l]; [left; auto |]. right. eexists. split; [rewrite map_map; reflexivity | exact R].
Qed.
Lemma holds_same output v strs l : (forall strs', In (v, strs') l -> strs' = strs) -> forall old,
  holds_after output (sets_of l) v old = if mems v (map fst l) then fields bad_ifs (output strs) else old.
Proof.
  induction l as [| [w strs'] l IH]; intros H old; [reflexivity |]. cbn [sets_of map holds_after z_variable z_ifs z_options fst snd].
  change (map (fun x => ZSet bad_ifs (fst x) (snd x)) l) with (sets_of l). rewrite IH by (intros; apply H; now right).
  assert (mems v (w :: map fst l) = str_eqb v w || mems v (map fst l)) as -> by reflexivity.
  destruct (str_eqb_spec w v) as [-> | Hn].
  - assert (str_eqb v v = true) as -> by now apply str_eqb_eq. cbn [orb]. rewrite (H strs') by now left. now destruct (mems v (map fst l)).
  - assert (str_eqb v w = false) as ->; [| reflexivity]. destruct (str_eqb_spec v w) as [-> | _]; [congruence | reflexivity].
Qed.
Theorem zsh_holds_fields q c o v : valid_command c -> In o (c_options c) -> o_capture o = Some v ->
  (forall o', In o' (c_options c) -> o_capture o' = Some v -> o_strings o' = o_strings o) -> forall old,
  holds_after (zget_option q) (sets_of (captures c)) v old = fields bad_ifs (flat_map (fun v => v ++ [LF]) (values_given (q_options q) o)).
Proof.
  intros Hv Ho Hc Hs old. pose proof Hv as (_ & _ & Hov & _). destruct (Hov o Ho) as (_ & H2 & H3 & _). destruct (variable_word v (H3 v Hc)) as [Hn _].
  rewrite (holds_same _ v (o_strings o)).
  - assert (mems v (map fst (captures c)) = true) as ->.
    { apply mems_iff. apply (in_map fst _ (v, o_strings o)). apply captures_In. now exists o. }
    rewrite output_values; [reflexivity |]. intros K. destruct (H2 [] K) as (y & E & _). discriminate E.
  - intros strs' K. apply captures_In in K as (o' & Ho' & Hc' & _ & ->). now apply Hs.
Qed.

(** ** fish *)
Lemma fish_word x rest : (forall d, In d x -> fish_special d = false) -> forall w,
  fish_read FUnquoted (Some w) (x ++ rest) = fish_read FUnquoted (Some (w ++ x)) rest.
Proof.
  induction x as [| c x IH]; intros H w; [now rewrite app_nil_r |]. cbn [app fish_read].
  assert (E : forall d, fish_special d = true -> N.eqb c d = false).
  { intros d Hd. destruct (N.eqb_spec c d) as [-> | _]; [| reflexivity]. rewrite (H d) in Hd by now left. discriminate. }
  rewrite (E SQ), (E DQ), (E SP), (E TAB), (H c) by (reflexivity || now left). cbn [orb]. unfold push. rewrite IH by (intros; apply H; now right).
  now rewrite <- app_assoc.
Qed.
Lemma fish_first x rest : x <> [] -> (forall d, In d x -> fish_special d = false) -> fish_read FUnquoted None (x ++ rest) = fish_read FUnquoted (Some x) rest.
Proof.
  intros Hn H. destruct x as [| c x]; [congruence |]. cbn [app fish_read].
  assert (E : forall d, fish_special d = true -> N.eqb c d = false).
  { intros d Hd. destruct (N.eqb_spec c d) as [-> | _]; [| reflexivity]. rewrite (H d) in Hd by now left. discriminate. }
  rewrite (E SQ), (E DQ), (E SP), (E TAB), (H c) by (reflexivity || now left). cbn [orb]. unfold push. rewrite fish_word by (intros; apply H; now right). reflexivity.
Qed.
Lemma fish_plain_words ws : (forall w, In w ws -> w <> [] /\ forall d, In d w -> fish_special d = false) -> fish_words (join [SP] ws) = Some ws.
Proof.
  unfold fish_words. induction ws as [| w ws IH]; intros H; [reflexivity |]. destruct (H w (or_introl eq_refl)) as [Hn Hs]. destruct ws as [| w' ws].
  - cbn [join]. rewrite <- (app_nil_r w), fish_first by (rewrite ?app_nil_r; assumption). cbn [fish_read emit option_map]. now rewrite app_nil_r.
  - change (join [SP] (w :: w' :: ws)) with (w ++ [SP] ++ join [SP] (w' :: ws)). rewrite fish_first by assumption.
    change (fish_read FUnquoted (Some w) ([SP] ++ join [SP] (w' :: ws))) with (option_map (cons w) (fish_read FUnquoted None (join [SP] (w' :: ws)))).
    rewrite IH; [reflexivity | intros; apply H; now right].
Qed.
Lemma word_harmless x d : forallb is_word x = true -> In d x -> fish_special d = false.
Proof.
  intros H Hd. rewrite forallb_forall in H. specialize (H d Hd). destruct (fish_special d) eqn:E; [| reflexivity]. exfalso.
  unfold fish_special in E. apply existsb_exists in E as (e & He & Ee). apply N.eqb_eq in Ee as <-. cbn [In] in He.
  repeat (destruct He as [<- | He]; [discriminate H |]). exact He.
Qed.

Section Fish.
Context (f : str) (q : query).
Definition capture_list (l : list (list cmd * cmd)) : list opt :=
  flat_map (fun p => filter (fun o => match o_capture o with Some _ => true | None => false end) (c_options (snd p))) l.
Definition line_of (o : opt) : str := f ++ s " " ++ match o_capture o with Some v => v | None => [] end ++ s " " ++ join [SP] (o_strings o).
Lemma lines_eq root : fish_capture_lines f root = map line_of (capture_list (visit_commandlines [] root)).
Proof.
  unfold fish_capture_lines, capture_list. induction (visit_commandlines [] root) as [| [ps c] l IH]; [reflexivity |]. cbn [flat_map snd]. rewrite map_app, IH. f_equal.
  induction (c_options c) as [| o os IHo]; [reflexivity |]. cbn [flat_map filter]. destruct (o_capture o) as [v |] eqn:E; [| exact IHo].
  cbn [map app]. rewrite <- IHo. f_equal. unfold line_of. now rewrite E.
Qed.
Lemma capture_list_In l o : In o (capture_list l) <-> exists ps c, In (ps, c) l /\ In o (c_options c) /\ o_capture o <> None.
Proof.
  unfold capture_list. rewrite in_flat_map. split.
  - intros ([ps c] & Hin & H). apply filter_In in H as [H1 H2]. exists ps, c. cbn [snd] in H1. repeat split; auto. destruct (o_capture o); discriminate.
  - intros (ps & c & H1 & H2 & H3). exists (ps, c). split; [exact H1 |]. apply filter_In. split; [exact H2 |]. destruct (o_capture o); congruence.
Qed.
Definition env_after (l : list opt) (env : str -> list str) : str -> list str :=
  fold_left (fun env o w => if str_eqb w (match o_capture o with Some v => v | None => [] end) then values_given (q_options q) o else env w) l env.
Lemma runs_lines l : f <> [] -> (forall d, In d f -> fish_special d = false) ->
  (forall o, In o l -> exists v, o_capture o = Some v /\ variable_name v /\ forall x, In x (o_strings o) -> x <> [] /\ forall d, In d x -> fish_special d = false) ->
  (forall o, In o l -> o_strings o <> []) ->
  forall env, runs_captures f (fish_captured q) env (map line_of l) (env_after l env).
Proof.
  intros Hf1 Hf2. induction l as [| o l IH]; intros H Hne env; [apply rc_end |]. cbn [map env_after fold_left].
  destruct (H o (or_introl eq_refl)) as (v & Hc & Hv & Hs). destruct (variable_word v Hv) as [Hv1 Hv2].
  apply (rc_line _ _ _ _ v (o_strings o)).
  - unfold line_of. rewrite Hc. rewrite <- (fish_plain_words (f :: v :: o_strings o)).
    + f_equal. specialize (Hne o (or_introl eq_refl)). destruct (o_strings o); [congruence | reflexivity].
    + intros w [<- | [<- | Hw]]; [auto | split; [exact Hv1 | intros d; now apply word_harmless] | now apply Hs].
  - unfold fish_captured. rewrite values_flat. rewrite Hc. apply IH; intros; [apply H | apply Hne]; now right.
Qed.
Lemma env_same l v vals : (forall o, In o l -> o_capture o = Some v -> values_given (q_options q) o = vals) -> (forall o, In o l -> o_capture o <> None) -> forall env,
  (env v = vals \/ exists o, In o l /\ o_capture o = Some v) -> env_after l env v = vals.
Proof.
  induction l as [| o l IH]; intros H Hn env He; [destruct He as [He | (o & [] & _)]; exact He |]. cbn [env_after fold_left].
  apply IH; [intros; apply H; [now right | assumption] | intros; apply Hn; now right |].
  destruct (o_capture o) as [w |] eqn:E; [| exfalso; apply (Hn o (or_introl eq_refl)); exact E].
  destruct (str_eqb_spec v w) as [-> | Hne].
  - left. apply H; [now left | exact E].
  - destruct He as [He | (o' & [-> | Ho'] & Ec)]; [now left | rewrite Ec in E; injection E as ->; congruence | right; now exists o'].
Qed.
End Fish.
