(** * Proofs about the option strings that the Bash scripts offer. *)
From Coq Require Import Permutation.
From Verif Require Import Base Value Dict Algo AlgoProofs Shell ShellProofs StrUtils StrUtilsProofs Abbrev Cli CliProofs CliMore SpecCli PyStr When SpecShell SpecWhen WhenProofs
  BashPatterns BashUtils SpecGlob GlobMatch BashParser SpecParser ParserPaths ParserTables ParserProofs ParserProofs2 BashOffers SpecBash.
Open Scope list_scope.

(** ** Arithmetic conditions *)

Definition length_text (v : str) : str := s "${#" ++ v ++ s "[@]}".
Definition unset_text (v : str) : str := s "! " ++ length_text v.

Lemma length_of_text count v : length_of count (length_text v) = Some (count v).
Proof.
  unfold length_of, length_text.
  assert (H1 : starts_with (s "${#") (s "${#" ++ v ++ s "[@]}") = true) by (apply starts_with_app; now exists (v ++ s "[@]}")).
  assert (H2 : ends_with (s "[@]}") (s "${#" ++ v ++ s "[@]}") = true) by (apply ends_with_app; exists (s "${#" ++ v); now rewrite app_assoc).
  rewrite H1, H2. rewrite !app_length. change (List.length (s "${#")) with 3. change (List.length (s "[@]}")) with 4.
  replace (Nat.leb 7 (3 + (List.length v + 4))) with true by (symmetry; apply Nat.leb_le; lia). cbn [andb].
  replace (3 + (List.length v + 4) - 7) with (List.length v) by lia. change (skipn 3 (s "${#" ++ v ++ s "[@]}")) with (v ++ s "[@]}").
  rewrite firstn_app, Nat.sub_diag, firstn_all. cbn [firstn]. now rewrite app_nil_r.
Qed.
Lemma name_no_space v : is_name v -> ~ In SP v.
Proof. intros [_ H] Hin. rewrite forallb_forall in H. specialize (H SP Hin). discriminate. Qed.
Lemma length_no_space v : is_name v -> ~ In SP (length_text v).
Proof.
  intros Hv Hin. unfold length_text in Hin. apply in_app_or in Hin as [H | H]; [cbn in H; intuition discriminate |].
  apply in_app_or in H as [H | H]; [now apply (name_no_space v) | cbn in H; intuition discriminate].
Qed.
Lemma all_empty_text count vs : vs <> [] -> Forall is_name vs ->
  all_empty count (split_c SP (join (s " && ") (map unset_text vs))) = Some (forallb (fun v => Nat.eqb (count v) 0) vs).
Proof.
  induction vs as [| v vs IH]; intros Hn Hv; [now destruct Hn |]. apply Forall_cons_iff in Hv as [Hv Hvs].
  assert (Hb : ~ In SP (s "!")) by (cbn; intuition discriminate).
  destruct vs as [| w vs].
  - cbn [map join]. unfold unset_text. change (s "! " ++ length_text v) with (s "!" ++ SP :: length_text v).
    rewrite (split_c_app SP (s "!") _ Hb), split_c_word by now apply length_no_space. cbn [all_empty].
    change (str_eqb (s "!") (s "!")) with true. cbn iota. rewrite length_of_text. cbn [forallb]. now rewrite andb_true_r.
  - cbn [map]. rewrite join_cons.
    change (unset_text v ++ s " && " ++ join (s " && ") (unset_text w :: map unset_text vs)) with
      ((s "!" ++ SP :: length_text v) ++ SP :: (s "&&" ++ SP :: join (s " && ") (unset_text w :: map unset_text vs))).
    rewrite <- app_assoc. cbn [app].
    rewrite (split_c_app SP (s "!") _ Hb), split_c_app by now apply length_no_space.
    rewrite (split_c_app SP (s "&&") _) by (cbn; intuition discriminate).
    change (unset_text w :: map unset_text vs) with (map unset_text (w :: vs)) in *.
    remember (split_c SP (join (s " && ") (map unset_text (w :: vs)))) as rest eqn:Er.
    cbn [all_empty]. change (str_eqb (s "!") (s "!")) with true. cbn iota. rewrite length_of_text.
    change (str_eqb (s "&&") (s "&&")) with true. cbn iota. rewrite IH by (discriminate || assumption). reflexivity.
Qed.
Lemma arithmetic_text count x : arithmetic count (s "(( " ++ x ++ s " ))") =
  match all_empty count (split_c SP x) with
  | Some b => Some b
  | None => option_map (fun n => negb (Nat.eqb n 0)) (total count (split_c SP x))
  end.
Proof.
  unfold arithmetic.
  assert (H1 : starts_with (s "(( ") (s "(( " ++ x ++ s " ))") = true) by (apply starts_with_app; now exists (x ++ s " ))")).
  assert (H2 : ends_with (s " ))") (s "(( " ++ x ++ s " ))") = true) by (apply ends_with_app; exists (s "(( " ++ x); now rewrite app_assoc).
  rewrite H1, H2. rewrite !app_length. change (List.length (s "(( ")) with 3. change (List.length (s " ))")) with 3.
  replace (3 + (List.length x + 3) - 6) with (List.length x) by lia. change (skipn 3 (s "(( " ++ x ++ s " ))")) with (x ++ s " ))").
  rewrite firstn_app, Nat.sub_diag, firstn_all. cbn [firstn]. now rewrite app_nil_r.
Qed.
Lemma truth_all_of count other vs : vs <> [] -> Forall is_name vs ->
  bash_truth count other (all_of (map unset_text vs)) = forallb (fun v => Nat.eqb (count v) 0) vs.
Proof.
  intros Hn Hv. unfold bash_truth, all_of. rewrite arithmetic_text, all_empty_text by assumption. reflexivity.
Qed.

Lemma aplain_join sep l : forallb aplain sep = true -> Forall (fun x => forallb aplain x = true) l -> forallb aplain (join sep l) = true.
Proof.
  intros Hs. induction l as [| x l IH]; intros H; [reflexivity |]. apply Forall_cons_iff in H as [Hx Hl].
  destruct l as [| y l]; [exact Hx |]. rewrite join_cons, !forallb_app, Hx, Hs. now apply IH.
Qed.
Lemma unset_aplain v : is_name v -> forallb aplain (unset_text v) = true.
Proof.
  intros [_ H]. unfold unset_text, length_text. rewrite !forallb_app. change (forallb aplain (s "! ")) with true.
  change (forallb aplain (s "${#")) with true. change (forallb aplain (s "[@]}")) with true. cbn [andb]. rewrite andb_true_r.
  apply forallb_forall. intros c Hc. apply safe_aplain, word_safe. rewrite forallb_forall in H. now apply H.
Qed.
Lemma lexes_all_of vs : Forall is_name vs -> lexes (all_of (map unset_text vs)) [PCmd (all_of (map unset_text vs))].
Proof.
  intros Hv. unfold all_of.
  replace (s "(( " ++ join (s " && ") (map unset_text vs) ++ s " ))") with
    (s "((" ++ (s " " ++ join (s " && ") (map unset_text vs) ++ s " ") ++ s "))") by (now rewrite <- !app_assoc).
  apply lexes_arith. rewrite !forallb_app. change (forallb aplain (s " ")) with true. cbn [andb]. rewrite andb_true_r.
  apply aplain_join; [reflexivity |]. apply Forall_forall. intros x Hx. apply in_map_iff in Hx as (v & <- & Hx).
  apply unset_aplain. rewrite Forall_forall in Hv. now apply Hv.
Qed.
Lemma eval_all_of count other vs : vs <> [] -> Forall is_name vs ->
  sh_eval (bash_truth count other) (all_of (map unset_text vs)) = Some (forallb (fun v => Nat.eqb (count v) 0) vs).
Proof.
  intros Hn Hv. rewrite <- (truth_all_of count other) by assumption. apply means_eval, means_list_of, means_cmd. now apply lexes_all_of.
Qed.

(** ** Conditions of [when] behind others *)

Lemma bash_meaning_behind ere env x cond w : good_benv env ->
  parse_when ere x = Ok (map wtok_of (conds_syms cond)) -> bash_when ere env x = Ok w ->
  forall truth before b, means truth before b ->
    sh_eval truth (before ++ s " && " ++ w) = Some (b && conds_true (bash_true truth env) cond).
Proof.
  intros He Hp Hb truth before b Hm. unfold bash_when in Hb. rewrite Hp in Hb.
  cbn [bind] in Hb. destruct (bash_tokens env _) as [?|r] eqn:E; [discriminate|]. cbn [bind] in Hb.
  destruct (bash_tokens_map _ _ _ E) as [-> Ht].
  assert (w = braced (fun y => gen_token (bash_text env) (wtok_of y)) (conds_syms cond)) as ->.
  { injection Hb as <-. rewrite <- gen_tokens_syms. reflexivity. }
  assert (H : forall o, In o (conds_tests cond) -> means truth (bash_text env o) (bash_true truth env o)).
  { intros o Ho.
    assert (In (WObj o) (map wtok_of (conds_syms cond))) as Hi.
    { apply in_map_iff. exists (STest o). split; [reflexivity|]. apply tests_in_syms, Ho. }
    eapply bash_test_means; [exact He| |apply Ht, Hi]. eapply parse_when_ok; [exact Hp|exact Hi]. }
  unfold braced. destruct ((2 <? length (conds_syms cond)) && existsb is_sor (conds_syms cond)) eqn:E2.
  - apply means_eval, means_and; [now apply means_list_of |]. apply means_group'.
    apply (proj2 (means_text (bash_text env) (fun y => gen_token (bash_text env) (wtok_of y)) truth (bash_true truth env)
      eq_refl eq_refl eq_refl eq_refl eq_refl (fun a => eq_refl)) cond H).
  - assert (~ In SOr (conds_syms cond)) as Hor.
    { intros Hi. pose proof (or_long cond Hi) as Hl. apply andb_false_iff in E2 as [E2|E2].
      - apply Nat.ltb_ge in E2. lia.
      - assert (existsb is_sor (conds_syms cond) = true) as E'
          by (apply existsb_exists; exists SOr; auto). congruence. }
    apply means_eval. eapply (means_conj (bash_text env)); try reflexivity; [exact H | exact Hor | now apply means_list_of].
Qed.

(** ** Lists of plain words *)

Definition plain_word (x : str) : Prop := x <> [] /\ forall c, In c x -> posix_special c = false.
Lemma read_plain_word x : (forall c, In c x -> posix_special c = false) -> forall w rest,
  sh_read false Unquoted w (x ++ rest) = sh_read false Unquoted (match x with [] => w | _ => Some (wval w ++ x) end) rest.
Proof.
  induction x as [| c x IH]; intros H w rest; [reflexivity |]. cbn [app sh_read].
  assert (Hc : posix_special c = false) by (apply H; now left). rewrite Hc.
  assert (Hm : forall d, In d [SQ; DQ; SP; TAB] -> N.eqb c d = false).
  { intros d Hd. destruct (N.eqb_spec c d) as [-> |]; [| reflexivity]. cbn in Hd. repeat (destruct Hd as [<- | Hd]; [discriminate |]). destruct Hd. }
  rewrite (Hm SQ), (Hm DQ), (Hm SP), (Hm TAB) by (cbn; tauto). cbn [orb andb]. rewrite IH by (intros d Hd; apply H; now right).
  rewrite push_val. destruct x; [reflexivity |]. cbn [wval]. now rewrite <- app_assoc.
Qed.
Lemma posix_plain_words l : Forall plain_word l -> posix_words (join [SP] l) = Some l.
Proof.
  unfold posix_words. induction l as [| x l IH]; intros H; [reflexivity |]. apply Forall_cons_iff in H as [[Hn Hx] Hl].
  destruct l as [| y l].
  - cbn [join]. rewrite <- (app_nil_r x) at 1. rewrite read_plain_word by exact Hx. destruct x; [now destruct Hn | reflexivity].
  - rewrite join_cons, read_plain_word by exact Hx. cbn [app]. destruct x as [| c x]; [now destruct Hn |].
    change (sh_read false Unquoted (Some (wval None ++ c :: x)) (SP :: join [SP] (y :: l))) with
      (option_map (cons (c :: x)) (sh_read false Unquoted None (join [SP] (y :: l)))).
    now rewrite (IH Hl).
Qed.

(** ** Strings of options *)

Lemma wants_equals_iff o : wants_equals o <->
  has_optional_arg o || (has_required_arg o && match o_sep o with SepBoth | SepEquals => true | _ => false end) = true.
Proof.
  unfold wants_equals. rewrite orb_true_iff, andb_true_iff, kind_optional, kind_required.
  destruct (o_sep o); intuition discriminate.
Qed.
Lemma option_strings_iff o x : (forall y, In y (o_strings o) -> is_valid_option_string y = true) ->
  (In x (option_strings o) <-> offered_text o x).
Proof.
  intros Hv. unfold option_strings, offered_text. rewrite in_app_iff, short_strings. pose proof (wants_equals_iff o) as Hw.
  assert (Hlen : forall y, In y (o_strings o) -> List.length y = 2 \/ 3 <= List.length y).
  { intros y Hy. pose proof (Hv y Hy) as Hy'. apply valid_option_string_iff in Hy' as (z & -> & Hn & _).
    destruct z as [| a [| b z]]; [now destruct Hn | now left | right; cbn; lia]. }
  destruct (_ || _).
  - assert (W : wants_equals o) by (now apply Hw). rewrite <- map_app, in_map_iff. split.
    + intros [[Hx Hl] | (y & <- & Hy)]; [exists x; split; [exact Hx | left; auto] |].
      apply (long_old_strings _ _ Hv) in Hy as [Hy Hl]. exists y. split; [exact Hy | right; auto].
    + intros (y & Hy & [[[Hl | Hn] ->] | (Hl & _ & ->)]); [left; auto | contradiction |].
      right. exists y. split; [reflexivity | now apply (long_old_strings _ _ Hv)].
  - assert (W : ~ wants_equals o) by (intros W; apply Hw in W; discriminate). rewrite (long_old_strings _ _ Hv). split.
    + intros [[Hx Hl] | [Hx Hl]]; exists x; (split; [exact Hx | left; auto]).
    + intros (y & Hy & [[_ ->] | (_ & Hw' & _)]); [| contradiction]. destruct (Hlen y Hy); auto.
Qed.

(** ** One command *)

Section Command.
Variables (ere : str -> bool) (f1 f2 f3 : str) (count : str -> nat) (other : str -> bool).
Variables (root : cmd) (ps : list cmd) (c : cmd).
Hypotheses (Hbuilt : built root) (Hloc : located root ps c).
Hypotheses (Hf1 : is_name f1) (Hf2 : is_name f2) (Hf3 : is_name f3).
(** the variables are names *)
Hypothesis Hvars : forall d o v, In d (c :: ps) -> In o (c_options d) -> opt_variable o = Ok v -> is_name v.
(** the conditions are complete *)
Hypothesis Hwhen : forall o e, In o (c_options c) -> o_when o = Some e ->
  exists cond, parse_when ere e = Ok (map wtok_of (conds_syms cond)).
(** option strings have no characters that are special in shells *)
Hypothesis Hplain : forall o x, In o (c_options c) -> In x (o_strings o) -> plain_word x.

Let truth := bash_truth count other.
Let env := when_env f1 f2 f3.
(** the value of a condition *)
Definition condition_value (d : cmd) (e : str) (b : bool) : Prop :=
  exists cond, parse_when ere e = Ok (map wtok_of (conds_syms cond)) /\ conds_true (bash_true truth (env d)) cond = b.
Definition variable_of (o : opt) (v : str) : Prop := opt_variable o = Ok v.

Lemma by_strings_In strings : forall os r, options_by_strings_loop (c_options c) os strings = Ok r ->
  (forall o, In o os -> In o (c_options c)) -> (forall o, In o r -> In o (c_options c)) /\ (os <> [] \/ strings <> [] -> r <> []).
Proof.
  induction strings as [| x l IH]; intros os r H Hos; cbn [options_by_strings_loop] in H.
  - injection H as <-. split; [exact Hos | intros [H | H]; [exact H | now destruct H]].
  - destruct (find _ (c_options c)) as [o |] eqn:E; [| discriminate]. apply find_some in E as [Ho _].
    destruct (IH _ _ H) as [H1 H2].
    + destruct (existsb (opt_eqb o) os); [exact Hos |]. intros p Hp. apply in_app_or in Hp as [Hp | [<- | []]]; auto.
    + split; [exact H1 |]. intros _. apply H2. left. destruct (existsb (opt_eqb o) os) eqn:E.
      * intros ->. discriminate.
      * destruct os; discriminate.
Qed.
Lemma env_good : good_benv (env c).
Proof.
  unfold env. split; [exact Hf1 |]. split; [exact Hf2 |]. split; [exact Hf3 |]. cbn [b_vars when_env].
  intros options vars Hn H. unfold option_variables in H. apply bind_ok in H as (os & Hos & H).
  unfold get_options_by_option_strings in Hos. destruct (by_strings_In _ _ _ Hos) as [H1 H2]; [intros o [] |].
  apply map_res_ok in H. split.
  - assert (os <> []) by (apply H2; now right). destruct os; [congruence |]. inversion H. discriminate.
  - intros v Hv. destruct (Forall2_In_r _ _ _ _ H Hv) as (o & Ho & Eo). apply (Hvars c o); [now left | now apply H1 | exact Eo].
Qed.

Lemma condition_text o x : condition_not_given o = Ok x <-> exists v, opt_variable o = Ok v /\ x = unset_text v.
Proof.
  unfold condition_not_given, unset_text, length_text. split.
  - intros H. apply bind_ok in H as (v & Hv & H). injection H as <-. exists v. split; [exact Hv | reflexivity].
  - intros (v & Hv & ->). rewrite Hv. reflexivity.
Qed.
Lemma unset_inj v w : unset_text v = unset_text w -> v = w.
Proof.
  unfold unset_text, length_text. intros H. do 2 apply app_inv_head in H. now apply app_inv_tail in H.
Qed.
Lemma unset_list (P : str -> Prop) l : (forall x, In x l -> exists v, P v /\ x = unset_text v) ->
  exists vs, l = map unset_text vs /\ Forall P vs.
Proof.
  induction l as [| x l IH]; intros H; [exists []; split; [reflexivity | constructor] |].
  destruct (H x) as (v & Hv & ->); [now left |]. destruct IH as (vs & -> & Hvs); [intros y Hy; apply H; now right |].
  exists (v :: vs). split; [reflexivity | now constructor].
Qed.
Lemma conditions_In os xs : map_res condition_not_given os = Ok xs ->
  (forall x, In x xs -> exists o v, In o os /\ opt_variable o = Ok v /\ x = unset_text v) /\
  (forall o, In o os -> exists v, opt_variable o = Ok v /\ In (unset_text v) xs).
Proof.
  intros H. apply map_res_ok in H. split.
  - intros x Hx. destruct (Forall2_In_r _ _ _ _ H Hx) as (o & Ho & E). apply condition_text in E as (v & Hv & ->). eauto 6.
  - intros o Ho. destruct (Forall2_In_l _ _ _ _ H Ho) as (x & Hx & E). apply condition_text in E as (v & Hv & ->). eauto.
Qed.
Lemma removed fs : forall l x, (In x (fold_left (fun l y => remove_str y l) fs l) -> In x l) /\
  (In x l -> In x fs \/ In x (fold_left (fun l y => remove_str y l) fs l)).
Proof.
  induction fs as [| f fs IH]; intros l x; cbn [fold_left]; [tauto |]. destruct (IH (remove_str f l) x) as [H1 H2]. split.
  - intros H. apply H1, In_remove_str in H. exact H.
  - intros H. destruct (list_eq_dec N.eq_dec x f) as [-> | Hn]; [left; now left |].
    destruct (H2 (remove_str_In x f l H Hn)); [left; now right | now right].
Qed.

Lemma all_zero vs : forallb (fun v => Nat.eqb (count v) 0) vs = true <-> forall v, In v vs -> count v = 0.
Proof. rewrite forallb_forall. split; intros H v Hv; specialize (H v Hv); now apply Nat.eqb_eq. Qed.

(** The conditions of one option, if no final option is given. *)
Lemma one_option finals o so : In o (c_options c) -> string_option_of ere f1 f2 f3 c finals o = Ok so ->
  (forall x, In x finals -> exists v, is_name v /\ count v = 0 /\ x = unset_text v) ->
  so_option so = o /\
  (negb (nonempty (get_option_full_condition so)) || succeeds truth (get_option_full_condition so) = true <->
   (forall p, In p (c_options c) -> opt_eqb p o = false -> share_group o p -> not_given count variable_of p) /\
   (o_repeatable o = XFalse -> not_given count variable_of o) /\
   (forall e, o_when o = Some e -> condition_value c e true)).
Proof.
  intros Ho H Hfin. unfold string_option_of in H. apply bind_ok in H as (excl & Hex & H). apply bind_ok in H as (cs & Hcs & H).
  apply bind_ok in H as (own & Hown & H). cbv zeta in H. apply bind_ok in H as (w & Hw & H). apply inr_inj in H. subst so. cbn [so_option].
  split; [reflexivity |].
  destruct (conflicting_spec (c_options c) o Ho) as (r & Er & Hr1 & Hr2). rewrite Hex in Er. apply inr_inj in Er. subst r.
  set (L := cs ++ own) in *. set (cond := uniq str_eqb (sort_strs (fold_left (fun l x => remove_str x l) finals L))).
  destruct (conditions_In _ _ Hcs) as [Hc1 Hc2].
  assert (Hcond : forall x, In x cond <-> In x (fold_left (fun l x => remove_str x l) finals L)).
  { intros x. unfold cond. rewrite (uniq_In str_eqb (list_eq_dec N.eq_dec) str_eqb_spec).
    split; intros H; [exact (Permutation_in _ (sort_strs_perm _) H) | exact (Permutation_in _ (Permutation_sym (sort_strs_perm _)) H)]. }
  (* every condition belongs to one of these options *)
  set (mine := fun p => (In p (c_options c) /\ opt_eqb p o = false /\ share_group o p) \/ (p = o /\ o_repeatable o = XFalse)).
  assert (HL1 : forall x, In x L -> exists p v, mine p /\ In p (c_options c) /\ opt_variable p = Ok v /\ x = unset_text v).
  { intros x Hx. apply in_app_or in Hx as [Hx | Hx].
    - destruct (Hc1 x Hx) as (p & v & Hp & Hv & ->). destruct (Hr1 p Hp) as (H1 & H2 & H3). exists p, v. unfold mine. tauto.
    - destruct (o_repeatable o) eqn:Erep; try (injection Hown as <-; destruct Hx).
      apply bind_ok in Hown as (y & Hy & Hown). injection Hown as <-. destruct Hx as [<- | []].
      apply condition_text in Hy as (v & Hv & ->). exists o, v. unfold mine. tauto. }
  assert (HL2 : forall p, mine p -> exists v, opt_variable p = Ok v /\ In (unset_text v) L).
  { intros p [(H1 & H2 & H3) | [-> Erep]].
    - destruct (Hr2 p H1 H2 H3) as (q & Hq & Eq). destruct (Hc2 q Hq) as (v & Hv & Hin). exists v. split; [| apply in_or_app; now left].
      apply opt_eqb_eq in Eq. unfold forget_opt in Eq. injection Eq as E1 _ _ _ _ _ _ _ _ _ _ E2.
      unfold opt_variable, capture_variable in *. rewrite <- E1, <- E2. exact Hv.
    - rewrite Erep in Hown. apply bind_ok in Hown as (y & Hy & Hown). injection Hown as <-.
      apply condition_text in Hy as (v & Hv & ->). exists v. split; [exact Hv |]. apply in_or_app. right. now left. }
  destruct (unset_list (fun v => is_name v /\ exists p, mine p /\ opt_variable p = Ok v) cond) as (vs & Evs & Hvs).
  { intros x Hx. apply Hcond, removed in Hx. destruct (HL1 x Hx) as (p & v & Hp & Hpc & Hv & ->). exists v.
    split; [| reflexivity]. split; [apply (Hvars c p); [now left | exact Hpc | exact Hv] | exists p; auto]. }
  assert (Hnames : Forall is_name vs) by (eapply Forall_impl; [| exact Hvs]; cbn; tauto).
  assert (Hzero : forallb (fun v => Nat.eqb (count v) 0) vs = true <-> forall p, mine p -> not_given count variable_of p).
  { rewrite all_zero. split.
    - intros Hz p Hp v Hv. destruct (HL2 p Hp) as (v' & Hv' & Hin). unfold variable_of in Hv. rewrite Hv in Hv'. apply inr_inj in Hv'. subst v'.
      destruct (proj2 (removed finals L (unset_text v)) Hin) as [Hf | Hin'].
      + destruct (Hfin _ Hf) as (u & _ & Hu & E). apply unset_inj in E. now subst u.
      + apply Hz. apply Hcond in Hin'. rewrite Evs in Hin'. apply in_map_iff in Hin' as (u & E & Hu). apply unset_inj in E. now subst u.
    - intros Hz v Hv. rewrite Forall_forall in Hvs. destruct (Hvs v Hv) as (_ & p & Hp & Ev). exact (Hz p Hp v Ev). }
  assert (Hmine : (forall p, mine p -> not_given count variable_of p) <->
     (forall p, In p (c_options c) -> opt_eqb p o = false -> share_group o p -> not_given count variable_of p) /\
     (o_repeatable o = XFalse -> not_given count variable_of o)).
  { unfold mine. split.
    - intros Hm. split; [intros p H1 H2 H3; apply Hm; left; auto | intros Hrep; apply Hm; right; auto].
    - intros [H1 H2] p [(P1 & P2 & P3) | [-> P]]; [now apply H1 | now apply H2]. }
  fold cond. rewrite Evs.
  assert (Hev : vs <> [] -> sh_eval truth (all_of (map unset_text vs)) = Some (forallb (fun v => Nat.eqb (count v) 0) vs))
    by (intros Hn; apply eval_all_of; assumption).
  assert (Hmv : vs <> [] -> means truth (all_of (map unset_text vs)) (forallb (fun v => Nat.eqb (count v) 0) vs)).
  { intros Hn. unfold truth. rewrite <- (truth_all_of count other) by assumption. apply means_cmd. now apply lexes_all_of. }
  assert (Hall : forall l, negb (nonempty (all_of l)) = false) by reflexivity.
  destruct (o_when o) as [e |] eqn:Ewhen.
  - apply bind_ok in Hw as (text & Htext & Hw). apply inr_inj in Hw. subst w.
    destruct (Hwhen o e Ho Ewhen) as (cnd & Hpw). unfold generate_when_conditions in Htext.
    destruct (bash_meaning ere (env c) e cnd text env_good Hpw Htext truth (s "x") (s "x")) as (Htrue & _); try discriminate; try reflexivity.
    cbv zeta in Htrue.
    assert (Hcv : (forall e0, Some e = Some e0 -> condition_value c e0 true) <-> conds_true (bash_true truth (env c)) cnd = true).
    { split.
      - intros Hx. destruct (Hx e eq_refl) as (cnd' & Hp' & Ht'). rewrite Hpw in Hp'. apply inr_inj in Hp'.
        (* the value is that of the code *)
        assert (Htrue2 : sh_eval truth text = Some (conds_true (bash_true truth (env c)) cnd')).
        { assert (Hpw' : parse_when ere e = Ok (map wtok_of (conds_syms cnd'))) by (rewrite Hpw; now rewrite Hp').
          destruct (bash_meaning ere (env c) e cnd' text env_good Hpw' Htext truth (s "x") (s "x")) as (Ht & _); try discriminate; try reflexivity. exact Ht. }
        rewrite Htrue in Htrue2. injection Htrue2 as ->. exact Ht'.
      - intros Ht e0 E0. injection E0 as <-. exists cnd. auto. }
    rewrite Hcv. assert (Htn : text <> []) by (intros ->; discriminate Htrue).
    unfold get_option_full_condition. cbn [so_conditions so_when].
    destruct vs as [| v0 vs0].
    + cbn [map]. replace (negb (nonempty text)) with false by (destruct text; [congruence | reflexivity]). cbn [orb]. unfold succeeds. rewrite Htrue.
      assert (Hm : forall p, mine p -> not_given count variable_of p) by (apply Hzero; reflexivity). apply Hmine in Hm. tauto.
    + replace (match map unset_text (v0 :: vs0) with [] => text | l :: l0 => match text with [] => all_of (l :: l0) | _ :: _ => all_of (l :: l0) ++ s " && " ++ text end end)
        with (all_of (map unset_text (v0 :: vs0)) ++ s " && " ++ text) by (destruct text; [congruence | reflexivity]).
      change (negb (nonempty (all_of (map unset_text (v0 :: vs0)) ++ s " && " ++ text))) with false. cbn [orb]. unfold succeeds.
      rewrite (bash_meaning_behind ere (env c) e cnd text env_good Hpw Htext truth _ _ (Hmv ltac:(discriminate))).
      rewrite andb_true_iff, Hzero, Hmine. tauto.
  - apply inr_inj in Hw. subst w. unfold get_option_full_condition. cbn [so_conditions so_when].
    assert (Hno : forall e, @None str = Some e -> condition_value c e true) by (intros e E; discriminate E).
    destruct vs as [| v0 vs0].
    + cbn [map nonempty negb orb].
      assert (Hm : forall p, mine p -> not_given count variable_of p) by (apply Hzero; reflexivity). apply Hmine in Hm. tauto.
    + cbn [map]. change (unset_text v0 :: map unset_text vs0) with (map unset_text (v0 :: vs0)). rewrite Hall. cbn [orb]. unfold succeeds.
      rewrite Hev by discriminate. rewrite Hzero, Hmine. tauto.
Qed.

Theorem strings_offered script cur x : generate_option_strings ere f1 f2 f3 ps c = Ok (Some script) ->
  (In x (run_option_strings truth script cur) <->
   is_prefix cur x /\ exists o, In o (c_options c) /\ offered_text o x /\
     string_offered count variable_of condition_value ps c o).
Proof.
  intros H. unfold generate_option_strings in H. destruct (negb (nonempty (get_options ps c false false))); [discriminate |].
  apply bind_ok in H as (finals & Hfin & H). apply bind_ok in H as (sos & Hsos & H). apply inr_inj in H.
  assert (Es : script = (finals, generate_option_strings_completion sos)) by congruence. subst script. clear H.
  destruct (conditions_In _ _ Hfin) as [Hf1' Hf2'].
  assert (Hfo : forall f, In f (get_final_options ps c) <-> exists d, In d (c :: ps) /\ In f (c_options d) /\ o_final f = true).
  { intros f. unfold get_final_options. rewrite in_flat_map. split; intros (d & Hd & H); exists d; rewrite filter_In in *; tauto. }
  destruct (unset_list (fun v => is_name v /\ exists d f, In d (c :: ps) /\ In f (c_options d) /\ o_final f = true /\ opt_variable f = Ok v) finals)
    as (vs & Evs & Hvs).
  { intros y Hy. destruct (Hf1' y Hy) as (f & v & Hf & Hv & ->). apply Hfo in Hf as (d & Hd & Hf & Hff). exists v.
    split; [| reflexivity]. split; [now apply (Hvars d f) | exists d, f; auto]. }
  assert (Hnames : Forall is_name vs) by (eapply Forall_impl; [| exact Hvs]; cbn; tauto).
  assert (Hz : negb (nonempty finals) || succeeds truth (all_of finals) = true <->
     forall d f, In d (c :: ps) -> In f (c_options d) -> o_final f = true -> not_given count variable_of f).
  { assert (Hall : (forall v, In v vs -> count v = 0) <->
       forall d f, In d (c :: ps) -> In f (c_options d) -> o_final f = true -> not_given count variable_of f).
    { rewrite Forall_forall in Hvs. split.
      - intros Hv d f Hd Hf Hff u Hu. destruct (Hf2' f) as (v & Ev & Hin); [apply Hfo; eauto |]. unfold variable_of in Hu.
        rewrite Hu in Ev. apply inr_inj in Ev. subst v. rewrite Evs in Hin. apply in_map_iff in Hin as (w & E & Hw). apply unset_inj in E. subst w. now apply Hv.
      - intros Hg v Hv. destruct (Hvs v Hv) as (_ & d & f & Hd & Hf & Hff & Ev). exact (Hg d f Hd Hf Hff v Ev). }
    rewrite <- Hall. rewrite Evs. destruct vs as [| v0 vs0]; [cbn [map nonempty negb orb]; split; [intros _ v [] | reflexivity] |].
    cbn [map nonempty negb orb]. change (unset_text v0 :: map unset_text vs0) with (map unset_text (v0 :: vs0)).
    unfold succeeds, truth. rewrite eval_all_of by (discriminate || assumption). apply all_zero. }
  apply map_res_ok in Hsos. unfold run_option_strings.
  set (opts := if negb (nonempty finals) || succeeds truth (all_of finals) then _ else _).
  (* the elements of the array *)
  assert (Hopts : forall y, In y opts <-> exists o, In o (c_options c) /\ offered_text o y /\ string_offered count variable_of condition_value ps c o).
  { intros y. unfold opts. destruct (negb (nonempty finals) || succeeds truth (all_of finals)) eqn:Ez.
    2:{ split; [intros [] |]. intros (o & Ho & Hy & Hoff). assert (Hb : false = true); [| discriminate]. apply Hz. apply (so_final _ _ _ _ _ _ Hoff). }
    pose proof (proj1 Hz eq_refl) as Hg.
    assert (Hfin0 : forall f, In f finals -> exists v, is_name v /\ count v = 0 /\ f = unset_text v).
    { intros f Hf. destruct (Hf1' f Hf) as (p & v & Hp & Hv & ->). apply Hfo in Hp as (d & Hd & Hp & Hpf). exists v.
      split; [now apply (Hvars d p) |]. split; [exact (Hg d p Hd Hp Hpf v Hv) | reflexivity]. }
    rewrite in_flat_map. unfold generate_option_strings_completion. split.
    - intros ((cnd & words) & Hin & Hy). apply in_map_iff in Hin as ((k & grp) & E & Hgrp).
      apply pair_inj in E as [Ek Ew]. subst k words.
      destruct (group_by_nonempty str_eqb (list_eq_dec N.eq_dec) str_eqb_spec get_option_full_condition sos cnd grp Hgrp) as [_ Hmem].
      destruct (negb (nonempty cnd) || succeeds truth cnd) eqn:Ec; [| destruct Hy].
      unfold array_words, make_option_strings in Hy. rewrite posix_join_quoted in Hy. apply in_flat_map in Hy as (o & Ho & Hy).
      apply in_map_iff in Ho as (so & Eo & Hso). apply Hmem in Hso as [Hso Ek].
      destruct (Forall2_In_r _ _ _ _ Hsos Hso) as (o' & Ho' & Eso). apply filter_In in Ho' as [Ho' Hh].
      destruct (one_option finals o' so Ho' Eso Hfin0) as [Eso' Hcond]. rewrite Eso' in Eo. subst o'.
      exists o. split; [exact Ho' |]. split; [apply option_strings_iff; [now apply (located_option_valid root ps c) | exact Hy] |].
      rewrite Ek in Hcond. destruct (proj1 Hcond Ec) as (C1 & C2 & C3). constructor; try assumption. now apply negb_true_iff.
    - intros (o & Ho & Hy & Hoff).
      assert (Ho2 : In o (filter (fun o => negb (o_hidden o)) (c_options c))).
      { apply filter_In. split; [exact Ho |]. now rewrite (so_visible _ _ _ _ _ _ Hoff). }
      destruct (Forall2_In_l _ _ _ _ Hsos Ho2) as (so & Hso & Eso). destruct (one_option finals o so Ho Eso Hfin0) as [Eo Hcond].
      set (k := get_option_full_condition so) in *.
      assert (Hk : exists grp, In (k, grp) (group_by str_eqb sos get_option_full_condition) /\ In so grp).
      { rewrite (group_by_eq str_eqb (list_eq_dec N.eq_dec) str_eqb_spec). unfold groups_of.
        exists (filter (fun z => str_eqb (get_option_full_condition z) k) sos). split.
        - apply in_map_iff. exists k. split; [reflexivity |]. rewrite <- in_rev, nodup_In, <- in_rev. apply in_map_iff. exists so. auto.
        - apply filter_In. split; [exact Hso |]. unfold k. apply str_eqb_refl. }
      destruct Hk as (grp & Hgrp & Hin). exists (k, make_option_strings (map so_option grp)). split; [apply in_map_iff; exists (k, grp); auto |].
      assert (Ec : negb (nonempty k) || succeeds truth k = true).
      { apply Hcond. split; [exact (so_exclusive _ _ _ _ _ _ Hoff) |]. split; [exact (so_once _ _ _ _ _ _ Hoff) | exact (so_holds _ _ _ _ _ _ Hoff)]. }
      rewrite Ec. unfold array_words, make_option_strings. rewrite posix_join_quoted. apply in_flat_map. exists o.
      split; [rewrite <- Eo; now apply in_map |]. apply option_strings_iff; [now apply (located_option_valid root ps c) | exact Hy]. }
  assert (Hpl : Forall plain_word opts).
  { apply Forall_forall. intros y Hy. apply Hopts in Hy as (o & Ho & (z & Hzs & Ht) & _). destruct (Hplain o z Ho Hzs) as [Hn Hp].
    destruct Ht as [[_ ->] | (_ & _ & ->)]; [split; assumption |]. split; [destruct z; discriminate |].
    intros d Hd. apply in_app_or in Hd as [Hd | [<- | []]]; [now apply Hp | reflexivity]. }
  unfold compgen. rewrite posix_plain_words by exact Hpl. rewrite filter_In, Hopts, starts_with_app. unfold is_prefix. tauto.
Qed.
End Command.
