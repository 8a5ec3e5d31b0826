(** * Proofs about which option's argument Bash scripts complete. *)
From Coq Require Import Permutation.
From Verif Require Import Base Value Dict Algo AlgoProofs Shell ShellProofs StrUtils StrUtilsProofs Abbrev AbbrevProofs Cli CliProofs CliMore SpecCli PyStr When SpecShell SpecWhen WhenProofs
  BashPatterns BashPatternsProofs BashUtils SpecGlob GlobMatch PatternMore BashParser SpecParser ParserPaths ParserTables ParserProofs ParserProofs2
  BashOffers SpecBash BashStrings BashClusters BashArguments.
Open Scope list_scope.

Local Ltac splits := repeat match goal with |- _ /\ _ => split end.
Section Dispatch.
Variables (ere : str -> bool) (f1 f2 f3 : str) (code : opt -> str) (count : str -> nat) (other : str -> bool).
Variables (root : cmd) (ps : list cmd) (c : cmd).
Hypotheses (Hb : built root) (Hl : located root ps c) (Hto : tame_options root) (Hgn : tame_group_numbers root)
  (Hpa : proper_arguments root).
Hypotheses (Hf1 : is_name f1) (Hf2 : is_name f2) (Hf3 : is_name f3).
Hypothesis Hvars : forall d o v, In d (c :: ps) -> In o (c_options d) -> opt_variable o = Ok v -> is_name v.
Hypothesis Hwhen : forall o e, In o (c_options c) -> o_when o = Some e ->
  exists cond, parse_when ere e = Ok (map wtok_of (conds_syms cond)).
Variables (a : option (list (str * (list str * nat)))) (m : master) (i : info).
Hypothesis Ha : get_option_abbreviator ps c = Ok a.
Hypothesis Hm : get_master ere f1 f2 f3 code a c (get_options ps c false true) = Ok m.
Hypothesis Hi : get_info a ps c (get_options ps c false true) = Ok i.
Hypothesis Hno : not_only_optional c.

Let here : place := (ps, c).
Let truth := bash_truth count other.
Notation avail := (available ere f1 f2 f3 count other c).

Lemma is_prefix_nil x : is_prefix [] x. Proof. now exists x. Qed.

(** ** What is known about all options *)

Lemma all_from o : In o (get_options ps c (inherits c) false) -> exists d, In d (c :: ps) /\ In o (c_options d) /\ (d = c \/ passes_on c).
Proof.
  destruct (get_options_visible root ps c Hb Hl) as (P & _ & _ & P'). unfold inherits, passes_on. intros H.
  destruct (xbool_eqb (c_inherit c) XFalse) eqn:Ei; cbn [negb] in H.
  - apply (Permutation_in _ P') in H. exists c. split; [now left | auto].
  - assert (Ec : c_inherit c <> XFalse) by (intros E; now rewrite E in Ei). apply (Permutation_in _ P) in H.
    revert H. generalize (@nil opt). enough (G : forall chain seen, In o (visible seen chain) -> exists d, In d chain /\ In o (c_options d)).
    { intros seen H. destruct (G _ _ H) as (d & Hd & Ho). exists d. auto. }
    clear. induction chain as [| d l IH]; intros seen H; [destruct H |].
    cbn [visible] in H. apply in_app_or in H as [H | H]; [apply filter_In in H as [H _]; exists d; split; [now left | exact H] |].
    destruct (IH _ H) as (e & He & Ho). exists e. split; [now right | exact Ho].
Qed.
Lemma all_valid d o x : In d (c :: ps) -> In o (c_options d) -> In x (o_strings o) ->
  is_valid_option_string x = true /\ forallb plain x = true /\ ~ In EQ x.
Proof.
  intros Hd Ho Hx. destruct (located_parent root ps c d Hl Hd) as (qs & Hq). split; [now apply (located_option_valid root qs d o Hb Hq Ho) |].
  assert (H : forall ch, In ch x -> plain ch = true /\ ch <> EQ) by (intros ch Hch; exact (tame_strings root Hto qs d o x ch Hq Ho Hx Hch)).
  split; [apply forallb_forall; intros ch Hch; now apply H | intros Hch; now destruct (H EQ Hch)].
Qed.
Lemma own_all o : In o (c_options c) -> In o (get_options ps c (inherits c) false).
Proof.
  intros Ho. destruct (get_options_visible root ps c Hb Hl) as (P & _ & _ & P'). unfold inherits. destruct (negb _).
  - apply (Permutation_in _ (Permutation_sym P)). cbn [visible]. apply in_or_app. left. apply filter_In. auto.
  - exact (Permutation_in _ (Permutation_sym P') Ho).
Qed.
(** A flag that may be used here is among them. *)
Lemma in_ancestors d : In d ps -> exists qs, In (qs, d) (ancestors ps).
Proof.
  clear. induction ps as [| p l IH]; [intros [] |]. intros [-> | Hd]; [exists l; now left |]. destruct (IH Hd) as (qs & H). exists qs. now right.
Qed.
Lemma known_all f p : known here [DASH; f] p -> In p (c_options c) \/ passes_on c /\ (forall d, In d ps -> passes_on d) ->
  In p (get_options ps c (inherits c) false).
Proof.
  intros (q & Hq & Hs) [Hown | [Hc Hall]]; [now apply own_all |].
  destruct Hq as [-> | [Hanc Hpo]]; [apply own_all, Hs |].
  destruct (get_options_visible root ps c Hb Hl) as (P & _). unfold inherits.
  assert (Ei : negb (xbool_eqb (c_inherit c) XFalse) = true) by (unfold passes_on in Hc; destruct (c_inherit c); [reflexivity | now destruct Hc | reflexivity]). rewrite Ei.
  apply (Permutation_in _ (Permutation_sym P)).
  assert (Hx : In [DASH; f] (o_strings p)) by (destruct Hs as [_ [H | (_ & H3 & _)]]; [exact H | cbn in H3; lia]).
  assert (Hd : In (snd q) ps).
  { clear -Hanc. cbn [here fst] in Hanc. induction ps as [| d l IH]; [destruct Hanc |]. destruct Hanc as [<- | H]; [now left | right; now apply IH]. }
  (* whoever has this string is the same option *)
  assert (Hsame : forall d o, In d (c :: ps) -> In o (c_options d) -> In [DASH; f] (o_strings o) -> o = p).
  { intros d o Hd' Ho Hxo.
    assert (Hqd : exists qd, in_scope here qd /\ spelling qd o [DASH; f]).
    { destruct Hd' as [<- | Hd']; [exists here; split; [now left | split; [exact Ho | now left]] |].
      destruct (in_ancestors d Hd') as (qs & Hqs). exists (qs, d). split; [right; split; [exact Hqs | now apply Hall] |]. split; [exact Ho | now left]. }
    destruct Hqd as (qd & Hscope & Hsp). apply (tame_spelling root Hto ps c qd q o p [DASH; f] Hl Hscope); [right; auto | exact Hsp | exact Hs]. }
  assert (G : forall chain seen, (forall d o, In d chain -> In o (c_options d) -> In [DASH; f] (o_strings o) -> o = p) ->
     (forall o, In o seen -> In [DASH; f] (o_strings o) -> o = p) -> (exists d, In d chain /\ In p (c_options d)) ->
     In p (visible seen chain) \/ In p seen).
  { clear -Hx. induction chain as [| d chain IH]; intros seen H1 H2 (e & He & Hp); [destruct He |]. cbn [visible].
    assert (Hown : In p (c_options d) -> In p (filter (fun o => negb (existsb (same_strings o) seen)) (c_options d) ++ visible (seen ++ c_options d) chain) \/ In p seen).
    { intros Hpd. destruct (existsb (same_strings p) seen) eqn:E.
      - apply existsb_exists in E as (o & Ho & Es). right. rewrite <- (H2 o Ho); [exact Ho | now apply (same_strings_In p o)].
      - left. apply in_or_app. left. apply filter_In. rewrite E. auto. }
    destruct He as [-> | He]; [now apply Hown |].
    destruct (IH (seen ++ c_options d)) as [H | H].
    - intros d' o Hd' Ho. apply (H1 d'); [now right | exact Ho].
    - intros o Ho. apply in_app_or in Ho as [Ho | Ho]; [now apply H2 | apply (H1 d); [now left | exact Ho]].
    - exists e. auto.
    - left. apply in_or_app. now right.
    - apply in_app_or in H as [H | H]; [now right | now apply Hown]. }
  destruct (G (c :: ps) []) as [H | []]; [exact Hsame | intros o [] | exists (snd q); split; [now right | apply Hs] | exact H].
Qed.

Lemma short_chars_In o f : (forall x, In x (o_strings o) -> is_valid_option_string x = true) ->
  (In f (short_chars o) <-> In [DASH; f] (o_strings o)).
Proof.
  intros Hv. unfold BashOffers.short_chars. rewrite in_concat. split.
  - intros (y & Hy & Hf). apply in_map_iff in Hy as (x & <- & Hx). apply filter_In in Hx as [Hx Hsh].
    apply (option_style x (Hv x Hx)) in Hsh as (ch & Hd & ->).
    assert (E : lstrip_dashes [DASH; ch] = [ch]).
    { unfold lstrip_dashes. cbn [lstrip_p]. change (N.eqb DASH DASH) with true. cbn iota. destruct (N.eqb_spec DASH ch); [congruence | reflexivity]. }
    rewrite E in Hf. destruct Hf as [-> | []]. exact Hx.
  - intros Hx. exists [f]. split; [| now left]. apply in_map_iff. exists [DASH; f]. split.
    + pose proof (Hv _ Hx) as Hv'. assert (Hd : f <> DASH) by (intros ->; discriminate Hv').
      unfold lstrip_dashes. cbn [lstrip_p]. change (N.eqb DASH DASH) with true. cbn iota. destruct (N.eqb_spec DASH f); [congruence | reflexivity].
    + apply filter_In. split; [exact Hx | reflexivity].
Qed.

(** ** The collected information *)

Definition some_own (P : str -> Prop) (k : argkind -> Prop) : Prop :=
  exists o x, In o (c_options c) /\ In x (o_strings o) /\ P x /\ k (arg_kind o).
Lemma some_flag (get : list str -> list str) (test : str -> bool) (p : opt -> bool) (P : str -> Prop) (k : argkind -> Prop) :
  (forall l, get l = filter test l) ->
  (forall o x, In o (c_options c) -> In x (o_strings o) -> (test x = true <-> P x)) ->
  (forall o, p o = true <-> k (arg_kind o)) -> ~ k ArgNone ->
  (existsb (fun o => nonempty (get (o_strings o)) && p o) (get_options ps c false true) = true <-> some_own P k).
Proof.
  intros Hg Ht Hp Hk. rewrite existsb_exists. unfold some_own. split.
  - intros (o & Ho & H). apply andb_prop in H as [H1 H2]. apply (argument_options root ps c Hb Hl Hpa) in Ho as [Ho _]. rewrite Hg in H1.
    destruct (filter test (o_strings o)) as [| x l] eqn:E; [discriminate |].
    assert (Hx : In x (filter test (o_strings o))) by (rewrite E; now left). apply filter_In in Hx as [Hx Htx].
    exists o, x. split; [exact Ho |]. split; [exact Hx |]. split; [now apply (Ht o x Ho Hx) | now apply Hp].
  - intros (o & x & Ho & Hx & HP & Hko). exists o. split.
    + apply (argument_options root ps c Hb Hl Hpa). split; [exact Ho |]. intros E. rewrite E in Hko. contradiction.
    + apply andb_true_intro. split; [| now apply Hp]. rewrite Hg. apply (Ht o x Ho Hx) in HP.
      assert (Hin : In x (filter test (o_strings o))) by (apply filter_In; auto). now destruct (filter test (o_strings o)).
Qed.
Definition is_short (x : str) : Prop := exists ch, x = [DASH; ch].
Definition is_long (x : str) : Prop := is_prefix [DASH; DASH] x.
Definition is_old (x : str) : Prop := 3 <= List.length x /\ ~ is_prefix [DASH; DASH] x.
Lemma prefix_dashes x : is_prefix [DASH; DASH] x <-> starts_with [DASH; DASH] x = true.
Proof. rewrite starts_with_app. reflexivity. Qed.
Lemma own_style o x : In o (c_options c) -> In x (o_strings o) ->
  (is_short_option_string x = true <-> is_short x) /\ (is_long_option_string x = true <-> is_long x) /\ (is_old_option_string x = true <-> is_old x).
Proof.
  intros Ho Hx. destruct (all_valid c o x (or_introl eq_refl) Ho Hx) as [Hv _]. destruct (option_style x Hv) as (S1 & S2 & S3). split; [| split].
  - rewrite S1. unfold is_short. split; [intros (ch & _ & ->); eauto |]. intros (ch & ->). exists ch. split; [| reflexivity]. intros ->. discriminate.
  - unfold is_long_option_string, is_long. now rewrite prefix_dashes.
  - unfold is_old_option_string, is_old. rewrite andb_true_iff, Nat.ltb_lt, negb_true_iff, prefix_dashes.
    destruct (starts_with [DASH; DASH] x); intuition (congruence || lia).
Qed.
Lemma info_flags :
  (i_short_required i = true <-> some_own is_short (eq ArgRequired)) /\ (i_short_optional i = true <-> some_own is_short (eq ArgOptional)) /\
  (i_long_required i = true <-> some_own is_long (eq ArgRequired)) /\ (i_long_optional i = true <-> some_own is_long (eq ArgOptional)) /\
  (i_old_required i = true <-> some_own is_old (eq ArgRequired)) /\ (i_old_optional i = true <-> some_own is_old (eq ArgOptional)).
Proof.
  pose proof Hi as H. unfold get_info in H. cbv zeta in H. apply bind_ok in H as (old & _ & H). apply inr_inj in H. rewrite <- H.
  cbn [i_short_required i_short_optional i_long_required i_long_optional i_old_required i_old_optional].
  assert (R : forall o, negb (has_optional_arg o) && has_required_arg o = true <-> ArgRequired = arg_kind o).
  { intros o. destruct (kind_cases o) as [(-> & -> & ->) | [(-> & -> & ->) | (-> & -> & ->)]]; cbn; intuition congruence. }
  assert (O : forall o, has_optional_arg o = true <-> ArgOptional = arg_kind o) by (intros o; rewrite kind_optional; intuition congruence).
  splits; (eapply some_flag; [reflexivity | intros o x Ho Hx; apply (own_style o x Ho Hx) | assumption | discriminate]).
Qed.

Definition char_of (k : argkind) (f : N) : Prop := exists o d, In d (c :: ps) /\ In o (c_options d) /\
  In o (get_options ps c (inherits c) false) /\ In [DASH; f] (o_strings o) /\ arg_kind o = k.
Lemma chars_In p k f : (forall o, p o = true <-> arg_kind o = k) ->
  (In f (flat_map short_chars (filter p (get_options ps c (inherits c) false))) <-> char_of k f).
Proof.
  intros Hp. rewrite in_flat_map. unfold char_of. split.
  - intros (o & Ho & Hf). apply filter_In in Ho as [Ho Hpo]. destruct (all_from o Ho) as (d & Hd & Hod & _).
    apply short_chars_In in Hf; [| intros x Hx; now apply (all_valid d o x)]. exists o, d. split; [exact Hd |]. split; [exact Hod |]. split; [exact Ho |]. split; [exact Hf | now apply Hp].
  - intros (o & d & Hd & Hod & Ho & Hf & Hk). exists o. split; [apply filter_In; split; [exact Ho | now apply Hp] |].
    apply short_chars_In; [intros x Hx; now apply (all_valid d o x) | exact Hf].
Qed.
Lemma info_chars :
  (forall f, In f (i_short_no_args i) <-> char_of ArgNone f) /\ (forall f, In f (i_short_required_args i) <-> char_of ArgRequired f) /\
  (forall f, In f (i_short_optional_args i) <-> char_of ArgOptional f).
Proof.
  pose proof Hi as H. unfold get_info in H. cbv zeta in H. apply bind_ok in H as (old & _ & H). apply inr_inj in H. rewrite <- H.
  cbn [i_short_no_args i_short_required_args i_short_optional_args].
  splits; intros f; apply chars_In; intros o; destruct (kind_cases o) as [(-> & E1 & E2) | [(-> & E1 & E2) | (E0 & E1 & E2)]];
    rewrite ?E0, ?E1, ?E2; cbn; try (intuition congruence).
  unfold arg_kind in E0. destruct (o_complete o); [destruct (o_optional_arg o); discriminate |]. cbn. intuition.
Qed.
Lemma char_plain k f : char_of k f -> plain f = true /\ f <> DASH /\ f <> EQ.
Proof.
  intros (o & d & Hd & Ho & _ & Hx & _). destruct (all_valid d o _ Hd Ho Hx) as (Hv & Hp & He).
  cbn [forallb] in Hp. rewrite !andb_true_iff in Hp. split; [apply Hp |]. split; [intros ->; discriminate |]. intros ->. apply He. right. now left.
Qed.

Lemma old_patterns w : nonempty (i_old_option_strings i) = true -> case_matchb (i_old_option_strings i) w = true ->
  (exists z, considered here z /\ is_prefix w z) /\ ~ In EQ w.
Proof.
  pose proof Hi as H. unfold get_info in H. cbv zeta in H. apply bind_ok in H as (old & Hold & H). apply inr_inj in H. rewrite <- H.
  cbn [i_old_option_strings]. intros Hne Hmt.
  set (words := flat_map (fun o => get_old_option_strings (o_strings o)) (get_options ps c (inherits c) false)) in Hold.
  assert (Hw : forall y, In y words -> considered here y /\ is_valid_option_string y = true /\ is_old_option_string y = true /\ forallb plain y = true /\ ~ In EQ y).
  { intros y Hy. apply in_flat_map in Hy as (o & Ho & Hy). destruct (all_from o Ho) as (d & Hd & Hod & Hc). apply filter_In in Hy as [Hy Hold'].
    destruct (all_valid d o y Hd Hod Hy) as (Hv & Hp & He). splits; try assumption.
    exists d, o. split; [exact Hod |]. split; [exact Hy |]. split.
    - apply (option_style y Hv) in Hold' as (a0 & b0 & z & _ & ->). cbn. lia.
    - cbn [here fst snd]. destruct Hd as [<- | Hd]; [now left |]. destruct Hc as [-> | Hc]; [now left | right; auto]. }
  assert (Ho : forall x, In x old -> exists y, In y words /\ is_prefix x y /\ 3 <= List.length x).
  { intros x Hx. unfold many_abbreviations in Hold. destruct a as [dict |].
    - pose proof Ha as Ha'. unfold get_option_abbreviator in Ha'. fold (abbreviated_words ps c) in Ha'.
      assert (Ed : dict = general_abbreviations 3 (abbreviated_words ps c)).
      { destruct (c_abbrev_opts c); try discriminate; unfold option_abbreviations in Ha';
          (destruct (forallb option_word_ok _); [| discriminate]); cbn [bind] in Ha'; congruence. }
      subst dict. apply (many_in _ _ _ Hold) in Hx as (w' & la & Hw' & E & Hx).
      apply (abbreviations_iff 3 _ w' la E x) in Hx as (Hp & Hl3 & _). exists w'. auto.
    - apply inr_inj in Hold. subst old. exists x. split; [exact Hx |]. split; [exists []; now rewrite app_nil_r |].
      destruct (Hw x Hx) as (_ & Hv & Hol & _). apply (option_style x Hv) in Hol as (a0 & b0 & z & _ & ->). cbn. lia. }
  destruct old as [| x0 old0] eqn:Eold; [discriminate Hne |]. rewrite <- Eold in *.
  apply case_matchb_iff in Hmt. apply old_without_arg in Hmt; [| rewrite Eold; discriminate |].
  - destruct (Ho w Hmt) as (y & Hy & (t & ->) & Hlen). destruct (Hw _ Hy) as (Hc & _ & _ & _ & He). split; [exists (w ++ t); split; [exact Hc | now exists t] |].
    intros Hin. apply He, in_or_app. now left.
  - intros x Hx. destruct (Ho x Hx) as (y & Hy & (t & ->) & Hlen). destruct (Hw _ Hy) as (_ & Hv & Hol & Hp & _).
    apply (option_style _ Hv) in Hol as (a0 & b0 & z & Hd & E). destruct x as [| x1 [| x2 x]]; cbn in Hlen; try lia.
    cbn [app] in E. injection E as -> -> E. exists (a0 :: x). split; [reflexivity |]. split.
    + split; [discriminate |]. rewrite forallb_app in Hp. apply andb_prop in Hp as [Hp _]. cbn [forallb] in Hp. apply andb_prop in Hp as [_ Hp]. exact Hp.
    + cbn. congruence.
Qed.

(** ** Dispatching *)

Lemma prefix_dash x : is_prefix [DASH] x <-> starts_with (s "-") x = true.
Proof. change (s "-") with [DASH]. rewrite starts_with_app. reflexivity. Qed.
Lemma dashdash x : is_prefix [DASH; DASH] x <-> starts_with (s "--") x = true.
Proof. change (s "--") with [DASH; DASH]. rewrite starts_with_app. reflexivity. Qed.
Lemma bool_false b : (b = true -> False) -> b = false. Proof. destruct b; [intros H; now destruct H | reflexivity]. Qed.

Lemma spelled_from o x : spelling here o x -> exists y, In o (c_options c) /\ In y (o_strings o) /\ is_prefix x y /\ (List.length x = 2 -> x = y).
Proof.
  intros [Ho [Hx | (_ & H3 & y & Hy & Hp & _)]].
  - exists x. split; [exact Ho |]. split; [exact Hx |]. split; [exists []; now rewrite app_nil_r | reflexivity].
  - exists y. split; [exact Ho |]. split; [exact Hy |]. split; [exact Hp | lia].
Qed.
Lemma spelled_style o x : spelling here o x -> exists y, In o (c_options c) /\ In y (o_strings o) /\
  ((is_prefix [DASH; DASH] x /\ is_long y) \/ (~ is_prefix [DASH; DASH] x /\ 3 <= List.length x /\ is_old y) \/ (~ is_prefix [DASH; DASH] x /\ is_short x /\ x = y)).
Proof.
  intros Hs. destruct (spelled_from o x Hs) as (y & Ho & Hy & (t & E) & H2). exists y. split; [exact Ho |]. split; [exact Hy |].
  destruct (spelling_dash root ps c o x Hb Hl Hs) as (z & -> & Hz & Hzd).
  destruct z as [| d z]; [now destruct Hz |]. destruct (N.eq_dec d DASH) as [-> | Hd].
  - left. split; [now exists z |]. subst y. now exists (z ++ t).
  - assert (Hn : ~ is_prefix [DASH; DASH] (DASH :: d :: z)) by (intros (u & Eu); cbn in Eu; injection Eu as -> _; congruence).
    destruct z as [| e z].
    + right. right. split; [exact Hn |]. split; [now exists d | now apply H2].
    + right. left. split; [exact Hn |]. split; [cbn; lia |]. subst y. split; [cbn; lia |]. intros (u & Eu). cbn in Eu. injection Eu as -> _. congruence.
Qed.
Lemma none_waiting x : (forall o, arg_kind o = ArgRequired -> ~ spelling here o x) -> forall v p, call truth m x v p false = nothing.
Proof.
  intros H v p. apply (call_none ere f1 f2 f3 code count other root ps c Hb Hl Hto Hgn Hpa Hf1 Hf2 Hf3 Hvars Hwhen a Ha m Hm Hno).
  intros o Hs [Hk | [_ Hf]]; [| discriminate]. destruct (H o Hk Hs).
Qed.
Lemma none_any x w : (forall o, arg_kind o <> ArgNone -> ~ spelling here o x) -> forall v p, call truth m x v p w = nothing.
Proof.
  intros H v p. apply (call_none ere f1 f2 f3 code count other root ps c Hb Hl Hto Hgn Hpa Hf1 Hf2 Hf3 Hvars Hwhen a Ha m Hm Hno).
  intros o Hs Hask. destruct (H o); [destruct Hask as [E | [E _]]; rewrite E; discriminate | exact Hs].
Qed.
Lemma some_call o x v p w : spelling here o x -> asks w o -> avail o -> call truth m x v p w = ([Run (code o) v p], true).
Proof. apply (call_some ere f1 f2 f3 code count other root ps c Hb Hl Hto Hgn Hpa Hf1 Hf2 Hf3 Hvars Hwhen a Ha m Hm Hno). Qed.

Lemma no_args_text : no_args_pattern i = flags_text (i_short_no_args i).
Proof. unfold no_args_pattern, flags_text. now destruct (i_short_no_args i). Qed.
Lemma pattern_ok (last : str) : (forall f, In f last -> exists k, char_of k f) ->
  forallb plain (i_short_no_args i ++ last) = true /\ ~ In DASH (i_short_no_args i ++ last).
Proof.
  intros Hlast. assert (H : forall f, In f (i_short_no_args i ++ last) -> exists k, char_of k f).
  { intros f Hf. apply in_app_or in Hf as [Hf | Hf]; [| now apply Hlast]. exists ArgNone. now apply (proj1 info_chars). }
  split; [apply forallb_forall; intros f Hf; destruct (H f Hf) as (k & Hk); now apply (char_plain k) |].
  intros Hf. destruct (H _ Hf) as (k & Hk). now apply (char_plain k) in Hk as (_ & Hk & _).
Qed.
Lemma prev_pattern w : i_short_required i = true ->
  (case_matchb (s "-" ++ no_args_pattern i ++ s "[" ++ i_short_required_args i ++ s "]") w = true <->
   exists fs ch, w = DASH :: fs ++ [ch] /\ (forall f, In f fs -> char_of ArgNone f) /\ char_of ArgRequired ch).
Proof.
  intros Hr. rewrite case_matchb_iff, no_args_text. destruct info_chars as (C1 & C2 & _).
  destruct (pattern_ok (i_short_required_args i)) as [P1 P2]; [intros f Hf; exists ArgRequired; now apply C2 |].
  rewrite cluster_pattern; [| | exact P1 | exact P2].
  - split; intros (fs & ch & -> & Hf & Hc); exists fs, ch; (split; [reflexivity |]); (split; [intros f Hin; apply C1; now apply Hf | now apply C2]).
  - apply (proj1 info_flags) in Hr as (o & x & Ho & Hx & (ch & ->) & Hk). intros E.
    assert (Hin : In ch (i_short_required_args i)).
    { apply C2. exists o, c. split; [now left |]. split; [exact Ho |]. split; [now apply own_all |]. split; [exact Hx | now symmetry]. }
    rewrite E in Hin. destruct Hin.
Qed.
Lemma cur_pattern w : i_short_required i || i_short_optional i = true ->
  (case_matchb (s "-" ++ no_args_pattern i ++ s "[" ++ i_short_required_args i ++ i_short_optional_args i ++ s "]*") w = true <->
   exists fs ch t, w = DASH :: fs ++ ch :: t /\ (forall f, In f fs -> char_of ArgNone f) /\ (char_of ArgRequired ch \/ char_of ArgOptional ch)).
Proof.
  intros Hr. rewrite case_matchb_iff, no_args_text, (app_assoc (i_short_required_args i)). destruct info_chars as (C1 & C2 & C3).
  destruct (pattern_ok (i_short_required_args i ++ i_short_optional_args i)) as [P1 P2].
  { intros f Hf. apply in_app_or in Hf as [Hf | Hf]; [exists ArgRequired; now apply C2 | exists ArgOptional; now apply C3]. }
  rewrite cluster_pattern_rest; [| | exact P1 | exact P2].
  - split; intros (fs & ch & t & -> & Hf & Hc); exists fs, ch, t; (split; [reflexivity |]); (split; [intros f Hin; apply C1; now apply Hf |]).
    + apply in_app_or in Hc as [Hc | Hc]; [left; now apply C2 | right; now apply C3].
    + apply in_or_app. destruct Hc as [Hc | Hc]; [left; now apply C2 | right; now apply C3].
  - assert (Hex : exists k o ch, In o (c_options c) /\ In [DASH; ch] (o_strings o) /\ arg_kind o = k /\ (k = ArgRequired \/ k = ArgOptional)).
    { apply orb_prop in Hr as [Hr | Hr].
      - apply (proj1 info_flags) in Hr as (o & x & Ho & Hx & (ch & ->) & Hk). exists ArgRequired, o, ch. auto.
      - apply (proj1 (proj2 info_flags)) in Hr as (o & x & Ho & Hx & (ch & ->) & Hk). exists ArgOptional, o, ch. auto. }
    destruct Hex as (k & o & ch & Ho & Hx & Hk & Hk'). intros E.
    assert (Hc : char_of k ch). { exists o, c. split; [now left |]. split; [exact Ho |]. split; [now apply own_all | auto]. }
    assert (Hin : In ch (i_short_required_args i ++ i_short_optional_args i)) by (apply in_or_app; destruct Hk' as [-> | ->]; [left; now apply C2 | right; now apply C3]).
    rewrite E in Hin. destruct Hin.
Qed.

Lemma last_char_app y ch : last_char (y ++ [ch]) = [DASH; ch].
Proof. unfold last_char. now rewrite rev_app_distr. Qed.
Lemma flag_char f : flags_before here [f] -> char_of ArgNone f.
Proof.
  intros H. destruct (H f (or_introl eq_refl)) as (p & Hk & Hn & Hw). pose proof (known_all f p Hk Hw) as Hall.
  destruct (all_from p Hall) as (d & Hd & Hp & _). exists p, d. split; [exact Hd |]. split; [exact Hp |]. split; [exact Hall |]. split; [| exact Hn].
  destruct Hk as (q & _ & _ & [Hx | (_ & H3 & _)]); [exact Hx | cbn in H3; lia].
Qed.

Theorem separate_argument st o : waiting_word here (st_prev st) o -> avail o ->
  run_dispatcher truth i m st = ([Run (code o) (st_cur st) []], true).
Proof.
  intros Hw Hav. destruct info_flags as (F1 & _ & F3 & _ & F5 & _). unfold run_dispatcher.
  enough (E : i_short_required i || i_long_required i || i_old_required i = true /\ run_prev truth i m st = ([Run (code o) (st_cur st) []], true)).
  { destruct E as [E1 E2]. rewrite E1, E2. reflexivity. }
  unfold run_prev. cbv zeta. remember (st_prev st) as prev eqn:Eprev. clear Eprev. inversion Hw as [o' x Hs Hk | o' flags ch Hs Hk Hne Hfl Hnosp]; subst.
  - assert (Ecall : forall v p, call truth m prev v p false = ([Run (code o) v p], true)) by (intros v p; apply some_call; [exact Hs | now left | exact Hav]).
    destruct (spelled_style o prev Hs) as (y & Ho & Hy & [[Hd Hlong] | [(Hd & Hlen & Hold) | (Hd & (ch & ->) & Ey)]]).
    + assert (Er : i_long_required i = true) by (apply F3; exists o, y; auto). rewrite Er. rewrite orb_true_r. split; [reflexivity |].
      apply dashdash in Hd. rewrite Hd. apply Ecall.
    + assert (Er : i_old_required i = true) by (apply F5; exists o, y; auto). rewrite Er, orb_true_r. split; [reflexivity |].
      rewrite (bool_false _ (fun H => Hd (proj2 (dashdash prev) H))).
      assert (Hs1 : starts_with (s "-") prev = true).
      { apply prefix_dash. destruct (spelling_dash root ps c o prev Hb Hl Hs) as (z & -> & _). now exists z. }
      rewrite Hs1, Ecall. cbn [andb then_ snd]. destruct (i_short_required i); reflexivity.
    + assert (Er : i_short_required i = true) by (apply F1; exists o, y; subst y; split; [exact Ho |]; split; [exact Hy |]; split; [now exists ch | now symmetry]).
      rewrite Er. split; [reflexivity |]. rewrite (bool_false _ (fun H => Hd (proj2 (dashdash [DASH; ch]) H))).
      change (starts_with (s "-") [DASH; ch]) with true. rewrite andb_true_r. rewrite Ecall.
      destruct (i_old_required i); cbn iota; [reflexivity |].
      assert (Ep : case_matchb (s "-" ++ no_args_pattern i ++ s "[" ++ i_short_required_args i ++ s "]") [DASH; ch] = true).
      { apply (prev_pattern _ Er). exists [], ch. split; [reflexivity |]. split; [intros f [] |]. exists o, c.
        split; [now left |]. split; [exact Ho |]. split; [now apply own_all |]. split; [now rewrite Ey | exact Hk]. }
      rewrite Ep. change (last_char [DASH; ch]) with (last_char ([DASH] ++ [ch])). rewrite last_char_app. apply Ecall.
  - assert (Hshort : In o (c_options c) /\ In [DASH; ch] (o_strings o)).
    { destruct Hs as [Ho [Hx | (_ & H3 & _)]]; [auto | cbn in H3; lia]. }
    destruct Hshort as [Ho Hx].
    assert (Er : i_short_required i = true) by (apply F1; exists o, [DASH; ch]; split; [exact Ho |]; split; [exact Hx |]; split; [now exists ch | now symmetry]).
    rewrite Er. split; [reflexivity |].
    assert (Hfc : forall f, In f flags -> char_of ArgNone f) by (intros f Hf; apply flag_char; intros g [<- | []]; now apply Hfl).
    assert (Hnd : starts_with (s "--") (DASH :: flags ++ [ch]) = false).
    { apply bool_false. intros H. apply dashdash in H as (t & E). destruct flags as [| f flags]; [now destruct Hne |]. cbn in E. injection E as Ef _.
      destruct (char_plain ArgNone f) as (_ & H & _); [apply Hfc; now left | congruence]. }
    rewrite Hnd. change (starts_with (s "-") (DASH :: flags ++ [ch])) with true. rewrite andb_true_r.
    assert (El : last_char (DASH :: flags ++ [ch]) = [DASH; ch]) by apply (last_char_app (DASH :: flags)). rewrite El.
    assert (Elast : call truth m [DASH; ch] (st_cur st) [] false = ([Run (code o) (st_cur st) []], true)) by (apply some_call; [exact Hs | now left | exact Hav]).
    rewrite Elast. destruct (i_old_required i); cbn iota.
    + rewrite none_waiting by (intros p _; apply Hnosp). reflexivity.
    + assert (Ep : case_matchb (s "-" ++ no_args_pattern i ++ s "[" ++ i_short_required_args i ++ s "]") (DASH :: flags ++ [ch]) = true).
      { apply (prev_pattern _ Er). exists flags, ch. split; [reflexivity |]. split; [exact Hfc |]. exists o, c.
        split; [now left |]. split; [exact Ho |]. split; [now apply own_all |]. split; [exact Hx | exact Hk]. }
      rewrite Ep. reflexivity.
Qed.

Lemma quiet_prev st : unclaimed here (st_prev st) -> run_prev truth i m st = nothing.
Proof.
  intros Hu. unfold run_prev. cbv zeta. destruct (starts_with (s "-") (st_prev st)) eqn:Ed.
  - apply prefix_dash in Ed. specialize (Hu Ed).
    assert (Hwhole : call truth m (st_prev st) (st_cur st) [] false = nothing) by (apply none_waiting; intros o Hk; now apply Hu).
    rewrite Hwhole. destruct (starts_with (s "--") (st_prev st)) eqn:Edd; [now destruct (i_long_required i) |].
    assert (Hlast : call truth m (last_char (st_prev st)) (st_cur st) [] false = nothing).
    { apply none_waiting. intros o Hk Hs. destruct (Hu o Hk) as [_ [Hp | Hn]]; [apply dashdash in Hp; congruence |].
      unfold last_char in Hs. destruct (rev (st_prev st)) as [| ch r] eqn:Er.
      - destruct (spelling_dash root ps c o _ Hb Hl Hs) as (z & E & Hz & _). injection E as <-. congruence.
      - apply (Hn (rev r) ch); [| exact Hs]. rewrite <- (rev_involutive (st_prev st)), Er. reflexivity. }
    rewrite Hlast. destruct (i_old_required i && i_short_required i); [reflexivity |]. destruct (i_old_required i); [reflexivity |].
    destruct (i_short_required i); [| reflexivity]. now destruct (case_matchb _ _).
  - assert (Edd : starts_with (s "--") (st_prev st) = false).
    { apply bool_false. intros H. apply dashdash in H as (t & E). rewrite E in Ed. discriminate. }
    rewrite Edd. destruct (i_short_required i) eqn:Er; rewrite ?andb_true_r, ?andb_false_r.
    + assert (Ep : case_matchb (s "-" ++ no_args_pattern i ++ s "[" ++ i_short_required_args i ++ s "]") (st_prev st) = false).
      { apply bool_false. intros H. apply (prev_pattern _ Er) in H as (fs & ch & E & _). rewrite E in Ed. discriminate. }
      rewrite Ep. destruct (i_old_required i); reflexivity.
    + destruct (i_old_required i); reflexivity.
Qed.

Lemma chars_loop flags : forall pre rest, (forall f, In f flags -> forall o, arg_kind o <> ArgNone -> ~ spelling here o [DASH; f]) ->
  run_cur_chars truth m pre (flags ++ rest) = run_cur_chars truth m (pre ++ flags) rest.
Proof.
  induction flags as [| f flags IH]; intros pre rest H; [cbn [app]; now rewrite app_nil_r |].
  cbn [app run_cur_chars]. rewrite none_any by (apply H; now left). unfold then_, nothing at 1 2. cbn [snd fst app].
  rewrite IH by (intros g Hg; apply H; now right). rewrite <- app_assoc. cbn [app]. now destruct (run_cur_chars truth m _ rest).
Qed.

Theorem attached_argument st o value prefix : attached_word here (st_cur st) o value prefix -> avail o ->
  unclaimed here (st_prev st) ->
  run_dispatcher truth i m st = ([Run (code o) value prefix], true).
Proof.
  intros Hw Hav Hu. destruct info_flags as (F1 & F2 & F3 & F4 & F5 & F6). unfold run_dispatcher. rewrite (quiet_prev st Hu).
  set (req := i_short_required i || i_long_required i || i_old_required i). set (op := i_short_optional i || i_long_optional i || i_old_optional i).
  enough (E : req || op = true /\ run_cur truth i m st = ([Run (code o) value prefix], true)).
  { destruct E as [E1 E2]. rewrite E1, E2. destruct req; reflexivity. }
  assert (Hkinds : forall (P : str -> Prop) y, In o (c_options c) -> In y (o_strings o) -> P y -> arg_kind o <> ArgNone ->
     some_own P (eq ArgRequired) \/ some_own P (eq ArgOptional)).
  { intros P y Ho Hy HP Hk. destruct (arg_kind o) eqn:E; [congruence | left | right]; exists o, y; auto. }
  unfold run_cur. cbv zeta. remember (st_cur st) as cur eqn:Ecur. clear Ecur. inversion Hw as [o' x t Hs Hlen Hk | o' flags ch t Hs Hk Hfl Ht Hcons]; subst.
  - destruct (spelling_before root (tame_strings root Hto) here o x value Hl Hs) as (B1 & B2 & B3 & B4). change ([EQ] ++ value) with (EQ :: value).
    rewrite B1, B2.
    assert (Ecall : call truth m x value [] true = ([Run (code o) value []], true)).
    { apply some_call; [exact Hs | | exact Hav]. unfold asks. destruct (arg_kind o) eqn:E; [congruence | |]; auto. }
    rewrite Ecall. destruct (spelled_style o x Hs) as (y & Ho & Hy & [[Hd Hlong] | [(Hd & _ & Hold) | (Hd & (ch & ->) & Ey)]]); [| | cbn in Hlen; lia].
    + assert (Ef : i_long_required i || i_long_optional i = true).
      { destruct (Hkinds is_long y Ho Hy Hlong Hk) as [H | H]; [apply F3 in H | apply F4 in H]; rewrite H; [reflexivity | apply orb_true_r]. }
      split; [unfold req, op; apply orb_prop in Ef as [-> | ->]; rewrite ?orb_true_r; reflexivity |].
      destruct Hd as (u & ->). change (starts_with (s "--") (([DASH; DASH] ++ u) ++ EQ :: value)) with true.
      assert (Eh : has_equals (skipn 2 (([DASH; DASH] ++ u) ++ EQ :: value)) = true).
      { cbn [app skipn]. unfold has_equals, memc. rewrite existsb_app. apply orb_true_iff. right. reflexivity. }
      rewrite Eh, Ef. reflexivity.
    + assert (Ef : i_old_required i || i_old_optional i = true).
      { destruct (Hkinds is_old y Ho Hy Hold Hk) as [H | H]; [apply F5 in H | apply F6 in H]; rewrite H; [reflexivity | apply orb_true_r]. }
      split; [unfold req, op; apply orb_prop in Ef as [-> | ->]; rewrite ?orb_true_r; reflexivity |].
      assert (Hnd : starts_with (s "--") (x ++ EQ :: value) = false).
      { apply bool_false. intros H. apply dashdash in H as (u & E). destruct x as [| x1 [| x2 x]]; cbn in Hlen; try lia. cbn in E. injection E as -> -> _.
        apply Hd. now exists x. }
      rewrite Hnd. cbn [andb].
      assert (Eo : (i_short_required i || i_short_optional i) && nonempty (i_old_option_strings i) && case_matchb (i_old_option_strings i) (x ++ EQ :: value) = false).
      { apply bool_false. intros H. apply andb_prop in H as [H1 H2]. apply andb_prop in H1 as [_ H1].
        destruct (old_patterns _ H1 H2) as [_ He]. apply He, in_or_app. right. now left. }
      rewrite Eo, Ef. destruct (spelling_dash root ps c o x Hb Hl Hs) as (z & -> & _). cbn [app].
      change (starts_with (s "-") (DASH :: z ++ EQ :: value)) with true.
      assert (Eh : has_equals (skipn 1 (DASH :: z ++ EQ :: value)) = true).
      { cbn [app skipn]. unfold has_equals, memc. rewrite existsb_app. apply orb_true_iff. right. reflexivity. }
      rewrite Eh. reflexivity.
  - assert (Hshort : In o (c_options c) /\ In [DASH; ch] (o_strings o)) by (destruct Hs as [Ho [Hx | (_ & H3 & _)]]; [auto | cbn in H3; lia]).
    destruct Hshort as [Ho Hx]. assert (Hsh : is_short [DASH; ch]) by now exists ch.
    assert (Ef : i_short_required i || i_short_optional i = true).
    { destruct (Hkinds is_short [DASH; ch] Ho Hx Hsh Hk) as [H | H]; [apply F1 in H | apply F2 in H]; rewrite H; [reflexivity | apply orb_true_r]. }
    split; [unfold req, op; apply orb_prop in Ef as [-> | ->]; rewrite ?orb_true_r; reflexivity |].
    assert (Hfc : forall f, In f flags -> char_of ArgNone f) by (intros f Hf; apply flag_char; intros g [<- | []]; now apply Hfl).
    assert (Hch : char_of (arg_kind o) ch) by (exists o, c; split; [now left |]; split; [exact Ho |]; split; [now apply own_all | auto]).
    assert (Hnd : starts_with (s "--") (DASH :: flags ++ ch :: value) = false).
    { apply bool_false. intros H. apply dashdash in H as (u & E). destruct flags as [| f flags]; cbn in E; injection E as Ef' _.
      - destruct (char_plain _ _ Hch) as (_ & H & _). congruence.
      - destruct (char_plain ArgNone f) as (_ & H & _); [apply Hfc; now left | congruence]. }
    rewrite Hnd. cbn [andb].
    assert (Eo : (i_short_required i || i_short_optional i) && nonempty (i_old_option_strings i) && case_matchb (i_old_option_strings i) (DASH :: flags ++ ch :: value) = false).
    { apply bool_false. intros H. apply andb_prop in H as [H1 H2]. apply andb_prop in H1 as [_ H1].
      destruct (old_patterns _ H1 H2) as [(z & Hz & Hp) _]. exact (Hcons z Hz Hp). }
    rewrite Eo, Ef. cbn [skipn firstn].
    assert (Eh : has_equals (flags ++ ch :: value) = false).
    { apply bool_false. unfold has_equals, memc. rewrite existsb_exists. intros (d & Hd & E). apply N.eqb_eq in E. subst d.
      apply in_app_or in Hd as [Hd | [Hd | Hd]]; [| | contradiction].
      - destruct (char_plain _ _ (Hfc _ Hd)) as (_ & _ & H). congruence.
      - subst ch. destruct (char_plain _ _ Hch) as (_ & _ & H). congruence. }
    rewrite Eh, andb_false_r. cbn [andb].
    assert (Ep : case_matchb (s "-" ++ no_args_pattern i ++ s "[" ++ i_short_required_args i ++ i_short_optional_args i ++ s "]*") (DASH :: flags ++ ch :: value) = true).
    { apply (cur_pattern _ Ef). exists flags, ch, value. split; [reflexivity |]. split; [exact Hfc |].
      destruct (arg_kind o); [congruence | |]; auto. }
    rewrite Ep. change (firstn 1 (DASH :: flags ++ ch :: value)) with [DASH].
    rewrite chars_loop.
    + cbn [run_cur_chars]. rewrite some_call with (o := o); [| exact Hs | | exact Hav].
      * cbn [then_ snd]. reflexivity.
      * unfold asks. destruct (arg_kind o) eqn:E; [congruence | |]; auto.
    + intros f Hf p Hkp Hsp. destruct (Hfl f Hf) as (q & (place & Hscope & Hsq) & Hkq & _).
      destruct (tame_spelling root Hto ps c here place p q [DASH; f] Hl (or_introl eq_refl) Hscope Hsp Hsq) as [_ ->]. congruence.
Qed.

Lemma quiet_loop rest : forall pre, (forall f, In f rest -> forall o, arg_kind o <> ArgNone -> ~ spelling here o [DASH; f]) ->
  run_cur_chars truth m pre rest = nothing.
Proof. intros pre H. rewrite <- (app_nil_r rest). rewrite chars_loop by exact H. reflexivity. Qed.
Theorem no_option_argument st : unclaimed here (st_prev st) -> no_argument here (st_cur st) -> run_dispatcher truth i m st = nothing.
Proof.
  intros Hu Hc. unfold run_dispatcher. rewrite (quiet_prev st Hu).
  enough (E : run_cur truth i m st = nothing) by (rewrite E; destruct (_ || _ || _), (_ || _); reflexivity).
  unfold run_cur. cbv zeta. remember (st_cur st) as cur eqn:Ecur. clear Ecur. destruct (starts_with (s "-") cur) eqn:Ed.
  - apply prefix_dash in Ed. specialize (Hc Ed).
    assert (Hatt : has_equals cur = true -> call truth m (before_equals cur) (behind_equals cur) [] true = nothing).
    { intros He. apply none_any. intros o Hk Hs. destruct (Hc o Hk) as [Hp _]. apply (Hp _ Hs). exists (behind_equals cur).
      rewrite <- app_assoc. now apply before_behind. }
    assert (Hsk : forall n, has_equals (skipn n cur) = true -> has_equals cur = true).
    { intros n. unfold has_equals, memc. rewrite !existsb_exists. intros (d & Hd & E). exists d. split; [| exact E].
      rewrite <- (firstn_skipn n cur). apply in_or_app. now right. }
    destruct (starts_with (s "--") cur) eqn:Edd; cbn [andb].
    + destruct (has_equals (skipn 2 cur)) eqn:E2; [| reflexivity]. rewrite (Hatt (Hsk 2 E2)). now destruct (_ || _).
    + assert (Hch : (if i_short_required i || i_short_optional i then run_cur_chars truth m (firstn 1 cur) (skipn 1 cur) else nothing) = nothing).
      { destruct (_ || _); [| reflexivity]. apply quiet_loop. intros f Hf o Hk. destruct (Hc o Hk) as [_ [Hp | Hn]]; [apply dashdash in Hp; congruence |].
        apply Hn. rewrite <- (firstn_skipn 1 cur). apply in_or_app. now right. }
      rewrite Hch. destruct ((i_short_required i || i_short_optional i) && nonempty _ && _); [reflexivity |].
      destruct (has_equals (skipn 1 cur)) eqn:E1.
      * rewrite (Hatt (Hsk 1 E1)). destruct ((i_old_required i || i_old_optional i) && _ && _); [reflexivity |]. now destruct (_ && case_matchb _ _).
      * rewrite !andb_false_r. now destruct (_ && case_matchb _ _).
  - assert (Edd : starts_with (s "--") cur = false).
    { apply bool_false. intros H. apply dashdash in H as (t & E). rewrite E in Ed. discriminate. }
    rewrite Edd. cbn [andb]. rewrite andb_false_r. cbn [andb].
    destruct (i_short_required i || i_short_optional i) eqn:Es; cbn [andb]; [| reflexivity].
    destruct (nonempty _ && case_matchb _ _); [reflexivity |].
    assert (Ep : case_matchb (s "-" ++ no_args_pattern i ++ s "[" ++ i_short_required_args i ++ i_short_optional_args i ++ s "]*") cur = false).
    { apply bool_false. intros H. apply (cur_pattern _ Es) in H as (fs & ch & t & E & _). rewrite E in Ed. discriminate. }
    now rewrite Ep.
Qed.
End Dispatch.
