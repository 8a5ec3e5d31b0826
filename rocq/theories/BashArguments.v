(** * Proofs about how Bash scripts complete arguments of options. *)
From Coq Require Import Permutation.
From Verif Require Import Base Value Dict Algo AlgoProofs Shell ShellProofs StrUtils StrUtilsProofs Abbrev Cli CliProofs CliMore SpecCli PyStr When SpecShell SpecWhen WhenProofs
  BashPatterns BashPatternsProofs BashUtils SpecGlob GlobMatch PatternMore BashParser SpecParser ParserPaths ParserTables ParserProofs ParserProofs2
  BashOffers SpecBash BashStrings BashClusters.
Open Scope list_scope.

Section Arguments.
Variables (ere : str -> bool) (f1 f2 f3 : str) (code : opt -> str) (count : str -> nat) (other : str -> bool).
Variables (root : cmd) (ps : list cmd) (c : cmd).
Hypotheses (Hb : built root) (Hl : located root ps c) (Hto : tame_options root) (Hgn : tame_group_numbers root)
  (Hpa : proper_arguments root).
Hypotheses (Hf1 : is_name f1) (Hf2 : is_name f2) (Hf3 : is_name f3).
Hypothesis Hvars : forall d o v, In d (c :: ps) -> In o (c_options d) -> opt_variable o = Ok v -> is_name v.
Hypothesis Hwhen : forall o e, In o (c_options c) -> o_when o = Some e ->
  exists cond, parse_when ere e = Ok (map wtok_of (conds_syms cond)).

Let here : place := (ps, c).
Let truth := bash_truth count other.
Notation condition := (condition_value ere f1 f2 f3 count other).
Definition available (o : opt) : Prop := forall e, o_when o = Some e -> e <> [] -> condition c e true.

Lemma env_ok : good_benv (when_env f1 f2 f3 c).
Proof. exact (env_good f1 f2 f3 ps c Hf1 Hf2 Hf3 Hvars). Qed.
Lemma when_value e o text : In o (c_options c) -> o_when o = Some e -> generate_when_conditions ere f1 f2 f3 c e = Ok text ->
  (succeeds truth text = true <-> condition c e true).
Proof.
  intros Ho Ew Ht. destruct (Hwhen o e Ho Ew) as (cnd & Hp). unfold generate_when_conditions in Ht.
  assert (Hv : forall cnd', parse_when ere e = Ok (map wtok_of (conds_syms cnd')) ->
    sh_eval truth text = Some (conds_true (bash_true truth (when_env f1 f2 f3 c)) cnd')).
  { intros cnd' Hp'. destruct (bash_meaning ere _ e cnd' text env_ok Hp' Ht truth (s "x") (s "x")) as (H & _); try discriminate; try reflexivity. exact H. }
  unfold succeeds. rewrite (Hv cnd Hp). split.
  - intros H. exists cnd. auto.
  - intros (cnd' & Hp' & H). pose proof (Hv cnd Hp) as E. rewrite (Hv cnd' Hp') in E. injection E as E. rewrite <- E. exact H.
Qed.

Lemma own_unique o1 o2 x : spelling here o1 x -> spelling here o2 x -> o1 = o2.
Proof. intros H1 H2. apply (tame_spelling root Hto ps c here here o1 o2 x Hl (or_introl eq_refl) (or_introl eq_refl) H1 H2). Qed.

Variables (a : option (list (str * (list str * nat)))).
Hypothesis Ha : get_option_abbreviator ps c = Ok a.

Lemma all_strings o l : In o (c_options c) -> get_all_option_strings a o = Ok l -> forall x, In x l <-> spelling here o x.
Proof.
  intros Ho H x. unfold get_all_option_strings in H. apply bind_ok in H as (l1 & H1 & H). apply bind_ok in H as (l2 & H2 & H). apply inr_inj in H.
  rewrite <- H, in_app_iff, (spelled_short root ps c o x Hb Hl Ho), (spelled_words root ps c a o l1 l2 Hb Hl Ho Ha H1 H2 x).
  unfold here. rewrite (spelling_cases root Hb ps c o x Hl) at 3. tauto.
Qed.
Lemma spelling_plain o x : spelling here o x -> x <> [] /\ forallb plain x = true.
Proof.
  intros Hs. destruct (spelling_chars root ps c o x (tame_strings root Hto) Hl Hs) as [Hp _].
  destruct (spelling_dash root ps c o x Hb Hl Hs) as (y & -> & _). split; [discriminate | exact Hp].
Qed.
Lemma own_strings o : In o (c_options c) -> exists x, spelling here o x.
Proof.
  intros Ho. pose proof (located_option_nonempty root Hb ps c o Hl Ho) as Hn. destruct (o_strings o) as [| x l] eqn:E; [now destruct Hn |].
  exists x. split; [exact Ho |]. left. rewrite E. now left.
Qed.

(** ** Clauses *)

Definition serves (clauses : list arg_clause) (os : list opt) : Prop :=
  (forall x k, run_clauses truth clauses x = Some k -> exists o, In o os /\ spelling here o x /\ available o /\ k = code o) /\
  (forall o x, In o os -> spelling here o x -> available o -> run_clauses truth clauses x <> None).

Lemma run_clauses_app cl1 cl2 x : run_clauses truth (cl1 ++ cl2) x =
  match run_clauses truth cl1 x with Some k => Some k | None => run_clauses truth cl2 x end.
Proof.
  unfold run_clauses. induction cl1 as [| [p [q k]] cl1 IH]; [reflexivity |]. cbn [app find fst snd].
  destruct (case_matchb p x && _); [reflexivity | exact IH].
Qed.
Definition condition_ok (q : option str) : bool := match q with Some cond => succeeds truth cond | None => true end.
Lemma run_clauses_some clauses x k : run_clauses truth clauses x = Some k ->
  exists p q, In (p, (q, k)) clauses /\ case_matchb p x = true /\ condition_ok q = true.
Proof.
  unfold run_clauses. induction clauses as [| [p [q k']] clauses IH]; [discriminate |]. cbn [find fst snd].
  destruct (case_matchb p x && _) eqn:E.
  - intros H. injection H as ->. apply andb_prop in E as [E1 E2]. exists p, q. split; [now left | auto].
  - intros H. destruct (IH H) as (p' & q' & Hin & H'). exists p', q'. split; [now right | exact H'].
Qed.
Lemma run_clauses_none clauses x : run_clauses truth clauses x = None ->
  forall p q k, In (p, (q, k)) clauses -> case_matchb p x = true -> condition_ok q = true -> False.
Proof.
  unfold run_clauses. induction clauses as [| [p [q k']] clauses IH]; [intros _ p q k [] |]. cbn [find fst snd].
  destruct (case_matchb p x && _) eqn:E; [discriminate |]. intros H p' q' k [Hin | Hin] H1 H2; [| exact (IH H p' q' k Hin H1 H2)].
  injection Hin as -> -> ->. unfold condition_ok in H2. rewrite H1, H2 in E. discriminate.
Qed.
Lemma serves_app cl1 cl2 os1 os2 : serves cl1 os1 -> serves cl2 os2 -> serves (cl1 ++ cl2) (os1 ++ os2).
Proof.
  intros [A1 A2] [B1 B2]. split.
  - intros x k. rewrite run_clauses_app. destruct (run_clauses truth cl1 x) as [k' |] eqn:E.
    + intros H. injection H as <-. destruct (A1 x k' E) as (o & Ho & H). exists o. split; [apply in_or_app; now left | exact H].
    + intros H. destruct (B1 x k H) as (o & Ho & H'). exists o. split; [apply in_or_app; now right | exact H'].
  - intros o x Ho Hs Hav. rewrite run_clauses_app. apply in_app_or in Ho as [Ho | Ho].
    + specialize (A2 o x Ho Hs Hav). now destruct (run_clauses truth cl1 x).
    + specialize (B2 o x Ho Hs Hav). now destruct (run_clauses truth cl1 x).
Qed.
Lemma serves_perm cl os os' : (forall o, In o os <-> In o os') -> serves cl os -> serves cl os'.
Proof.
  intros He [A1 A2]. split.
  - intros x k H. destruct (A1 x k H) as (o & Ho & H'). exists o. split; [now apply He | exact H'].
  - intros o x Ho. apply A2. now apply He.
Qed.

Lemma no_when o : has_when o = false -> available o.
Proof. unfold has_when. intros H e E Hn. rewrite E in H. destruct e; [now destruct Hn | discriminate]. Qed.
Lemma without_when os clauses : (forall o, In o os -> In o (c_options c)) -> (forall o, In o os -> has_when o = false) ->
  clauses_without_when code a os = Ok clauses -> serves clauses os.
Proof.
  intros Hos Hnw H. unfold clauses_without_when in H. apply map_res_ok in H.
  assert (Hone : forall k grp (cl : arg_clause), In (k, grp) (group_by str_eqb os code) ->
     (do strings <- map_res (get_all_option_strings a) grp; Ok (make_pattern (concat strings), (None, k))) = Ok cl ->
     (forall o, In o grp <-> In o os /\ code o = k) /\ fst (snd cl) = None /\ snd (snd cl) = k /\
     forall x, case_matchb (fst cl) x = true <-> exists o, In o grp /\ spelling here o x).
  { intros k grp cl Hg E. destruct (group_by_nonempty str_eqb (list_eq_dec N.eq_dec) str_eqb_spec code os k grp Hg) as [Hne Hmem].
    split; [exact Hmem |]. apply bind_ok in E as (strings & Es & E). apply inr_inj in E. subst cl. cbn [fst snd].
    split; [reflexivity |]. split; [reflexivity |]. apply map_res_ok in Es.
    assert (Hown : forall o, In o grp -> In o (c_options c)) by (intros o Ho; apply Hos; now apply Hmem in Ho).
    assert (Hin : forall x, In x (concat strings) <-> exists o, In o grp /\ spelling here o x).
    { intros x. rewrite in_concat. split.
      - intros (l & Hin & Hx). destruct (Forall2_In_r _ _ _ _ Es Hin) as (o & Ho & Eo). exists o. split; [exact Ho |]. now apply (all_strings o l (Hown o Ho) Eo).
      - intros (o & Ho & Hs). destruct (Forall2_In_l _ _ _ _ Es Ho) as (l & Hin & Eo). exists l. split; [exact Hin |]. now apply (all_strings o l (Hown o Ho) Eo). }
    intros x. rewrite case_matchb_iff, make_pattern_exact; [apply Hin | | |].
    - destruct grp as [| o grp]; [now destruct Hne |]. destruct (own_strings o) as (y & Hy); [apply Hown; now left |].
      intros E. assert (Hy' : In y (concat strings)) by (apply Hin; exists o; split; [now left | exact Hy]). rewrite E in Hy'. destruct Hy'.
    - intros y Hy. apply Hin in Hy as (o & _ & Hy). exact (spelling_plain o y Hy).
    - apply (Hgn ps c grp Hl Hown); intros y Hy; now apply Hin. }
  split.
  - intros x k Hr. apply run_clauses_some in Hr as (p & q & Hin & Hm1 & Hm2). destruct (Forall2_In_r _ _ _ _ H Hin) as ([k0 grp] & Hg & Ec).
    destruct (Hone k0 grp _ Hg Ec) as (Hmem & E1 & E2 & Hpat). cbn [fst snd] in *. subst q k0.
    apply Hpat in Hm1 as (o & Ho & Hs). exists o. apply Hmem in Ho as [Ho Ek].
    split; [exact Ho |]. split; [exact Hs |]. split; [now apply no_when, Hnw | now symmetry].
  - intros o x Ho Hs _ Hr. 
    assert (Hg : exists grp, In (code o, grp) (group_by str_eqb os code)).
    { rewrite (group_by_eq str_eqb (list_eq_dec N.eq_dec) str_eqb_spec). unfold groups_of. eexists.
      apply in_map_iff. exists (code o). split; [reflexivity |]. rewrite <- in_rev, nodup_In, <- in_rev. now apply in_map. }
    destruct Hg as (grp & Hg). destruct (Forall2_In_l _ _ _ _ H Hg) as ([p [q k]] & Hin & Ec).
    destruct (Hone (code o) grp _ Hg Ec) as (Hmem & E1 & E2 & Hpat). cbn [fst snd] in *. subst q.
    apply (run_clauses_none clauses x Hr p None k Hin); [| reflexivity]. apply Hpat. exists o. split; [now apply Hmem | exact Hs].
Qed.
Lemma with_when os clauses : (forall o, In o os -> In o (c_options c)) -> (forall o, In o os -> has_when o = true) ->
  clauses_with_when ere f1 f2 f3 code a c os = Ok clauses -> serves clauses os.
Proof.
  intros Hos Hw H. unfold clauses_with_when in H. apply map_res_ok in H.
  assert (Hone : forall o (cl : arg_clause), In o os ->
     (do strings <- get_all_option_strings a o;
      do cond <- match o_when o with Some e => generate_when_conditions ere f1 f2 f3 c e | None => Ok [] end;
      Ok (make_pattern strings, (Some cond, code o))) = Ok cl ->
     snd (snd cl) = code o /\ (forall x, case_matchb (fst cl) x = true <-> spelling here o x) /\
     ((match fst (snd cl) with Some cond => succeeds truth cond | None => true end) = true <-> available o)).
  { intros o cl Ho E. apply bind_ok in E as (l & El & E). apply bind_ok in E as (cond & Ec & E). apply inr_inj in E. subst cl. cbn [fst snd].
    split; [reflexivity |]. pose proof (all_strings o l (Hos o Ho) El) as Hin. split.
    - intros x. rewrite case_matchb_iff, make_pattern_exact; [apply Hin | | |].
      + destruct (own_strings o (Hos o Ho)) as (y & Hy). intros E. apply Hin in Hy. rewrite E in Hy. destruct Hy.
      + intros y Hy. apply Hin in Hy. exact (spelling_plain o y Hy).
      + apply (Hgn ps c [o] Hl).
        * intros p [<- | []]. now apply Hos.
        * intros y Hy. exists o. split; [now left | now apply Hin].
        * intros y (p & [<- | []] & Hy). now apply Hin.
    - specialize (Hw o Ho). unfold has_when in Hw. destruct (o_when o) as [e |] eqn:Ew; [| discriminate].
      assert (Hne : e <> []) by (intros ->; discriminate). rewrite (when_value e o cond (Hos o Ho) Ew Ec). unfold available. rewrite Ew. split.
      + intros Hc e' E' _. injection E' as <-. exact Hc.
      + intros Hc. now apply Hc. }
  split.
  - intros x k Hr. apply run_clauses_some in Hr as (p & q & Hin & Hm1 & Hm2). destruct (Forall2_In_r _ _ _ _ H Hin) as (o & Ho & Ec).
    destruct (Hone o _ Ho Ec) as (E1 & Hpat & Hav). cbn [fst snd] in *.
    exists o. split; [exact Ho |]. split; [now apply Hpat |]. split; [now apply Hav | exact E1].
  - intros o x Ho Hs Hav Hr.     destruct (Forall2_In_l _ _ _ _ H Ho) as ([p [q k]] & Hin & Ec). destruct (Hone o _ Ho Ec) as (E1 & Hpat & Ha'). cbn [fst snd] in *.
    apply (run_clauses_none clauses x Hr p q k Hin); [now apply Hpat | now apply Ha'].
Qed.
Lemma add_serves os clauses : (forall o, In o os -> In o (c_options c)) ->
  add_options ere f1 f2 f3 code a c os = Ok clauses -> serves clauses os.
Proof.
  intros Hos H. unfold add_options in H. rewrite partition_eq in H. apply bind_ok in H as (x & Hx & H). apply bind_ok in H as (y & Hy & H).
  apply inr_inj in H. subst clauses. apply (serves_perm _ (filter has_when os ++ filter (fun o => negb (has_when o)) os)).
  - intros o. rewrite in_app_iff, !filter_In. destruct (has_when o); cbn; intuition congruence.
  - apply serves_app.
    + apply with_when; [intros o Ho; apply Hos; now apply filter_In in Ho | intros o Ho; now apply filter_In in Ho | exact Hx].
    + apply without_when; [intros o Ho; apply Hos; now apply filter_In in Ho | | exact Hy].
      intros o Ho. apply filter_In in Ho as [_ Ho]. now apply negb_true_iff.
Qed.

(** ** The function *)

(** Some option requires its argument, or there is a condition. *)
Definition not_only_optional : Prop :=
  exists o, In o (c_options c) /\ (arg_kind o = ArgRequired \/ arg_kind o <> ArgNone /\ has_when o = true).

Lemma argument_options o : In o (get_options ps c false true) <-> In o (c_options c) /\ arg_kind o <> ArgNone.
Proof.
  destruct (get_options_args root ps c Hb Hl) as [P _].
  assert (E : In o (get_options ps c false true) <-> In o (filter (fun o => otruthy (o_complete o)) (c_options c))).
  { split; intros H; [exact (Permutation_in _ P H) | exact (Permutation_in _ (Permutation_sym P) H)]. }
  rewrite E, filter_In. unfold arg_kind. split.
  - intros [Ho H]. split; [exact Ho |]. destruct (o_complete o); [| discriminate]. destruct (o_optional_arg o); discriminate.
  - intros [Ho H]. split; [exact Ho |]. pose proof (Hpa ps c o Hl Ho) as Hn. destruct (o_complete o) as [[| v l] |]; [congruence | reflexivity | now destruct H].
Qed.
Lemma required_In o : In o (filter has_required_arg (get_options ps c false true)) <-> In o (c_options c) /\ arg_kind o = ArgRequired.
Proof. rewrite filter_In, argument_options, kind_required. split; [tauto |]. intros [H1 H2]. rewrite H2. split; [split; [exact H1 | discriminate] | reflexivity]. Qed.
Lemma optional_In o : In o (filter has_optional_arg (get_options ps c false true)) <-> In o (c_options c) /\ arg_kind o = ArgOptional.
Proof. rewrite filter_In, argument_options, kind_optional. split; [tauto |]. intros [H1 H2]. rewrite H2. split; [split; [exact H1 | discriminate] | reflexivity]. Qed.

Variable m : master.
Hypothesis Hm : get_master ere f1 f2 f3 code a c (get_options ps c false true) = Ok m.

Definition asks (with_optional : bool) (o : opt) : Prop :=
  arg_kind o = ArgRequired \/ arg_kind o = ArgOptional /\ with_optional = true.

Lemma master_parts : exists required optional,
  serves required (filter has_required_arg (get_options ps c false true)) /\
  (forall cl, optional = Some cl -> serves cl (filter has_optional_arg (get_options ps c false true))) /\
  (optional = None -> filter has_optional_arg (get_options ps c false true) = []) /\
  (m = WithWhen required optional \/
   m = Plain required optional /\ forall o, In o (get_options ps c false true) -> has_when o = false).
Proof.
  unfold get_master in Hm. cbv zeta in Hm.
  assert (Hreq : forall o, In o (filter has_required_arg (get_options ps c false true)) -> In o (c_options c)) by (intros o Ho; now apply required_In in Ho).
  assert (Hopt : forall o, In o (filter has_optional_arg (get_options ps c false true)) -> In o (c_options c)) by (intros o Ho; now apply optional_In in Ho).
  destruct (existsb has_when (get_options ps c false true)) eqn:Ew.
  - apply bind_ok in Hm as ([r o] & Hp & E). apply inr_inj in E. apply bind_ok in Hp as (r' & Hr & Hp). apply bind_ok in Hp as (o' & Ho & Hp).
    apply inr_inj in Hp. assert (r' = r) as -> by congruence. assert (o' = o) as -> by congruence.
    exists r, o. split; [now apply add_serves |]. destruct (filter has_optional_arg (get_options ps c false true)) as [| q l] eqn:Ef; cbn [nonempty] in Ho.
    + apply inr_inj in Ho. subst o. split; [intros cl E0; discriminate |]. split; [reflexivity |]. left. now symmetry.
    + apply bind_ok in Ho as (cl & Hcl & Ho). apply inr_inj in Ho. subst o. split; [| split; [discriminate | left; now symmetry]].
      intros cl' E0. injection E0 as <-. now apply add_serves.
  - assert (Hnw : forall o, In o (get_options ps c false true) -> has_when o = false).
    { intros o Ho. destruct (has_when o) eqn:E; [| reflexivity]. rewrite <- Ew. symmetry. apply existsb_exists. eauto. }
    apply bind_ok in Hm as ([r o] & Hp & E). apply inr_inj in E. apply bind_ok in Hp as (r' & Hr & Hp). apply bind_ok in Hp as (o' & Ho & Hp).
    apply inr_inj in Hp. assert (r' = r) as -> by congruence. assert (o' = o) as -> by congruence.
    assert (Hs : forall os cl, (forall o, In o os -> In o (get_options ps c false true)) -> clauses_without_when code a os = Ok cl -> serves cl os).
    { intros os cl Hos Hcl. apply without_when; [| | exact Hcl]; intros p Hp'; [now apply argument_options, Hos | now apply Hnw, Hos]. }
    exists r, o. split; [apply Hs; [intros p Hp'; now apply filter_In in Hp' | exact Hr] |].
    destruct (filter has_optional_arg (get_options ps c false true)) as [| q l] eqn:Ef; cbn [nonempty] in Ho.
    + apply inr_inj in Ho. subst o. split; [intros cl E0; discriminate |]. split; [reflexivity |]. right. split; [now symmetry | exact Hnw].
    + apply bind_ok in Ho as (cl & Hcl & Ho). apply inr_inj in Ho. subst o. split; [| split; [discriminate | right; split; [now symmetry | exact Hnw]]].
      intros cl' E0. injection E0 as <-. apply Hs; [| exact Hcl]. intros p Hp'. rewrite <- Ef in Hp'. now apply filter_In in Hp'.
Qed.

Hypothesis Hno : not_only_optional.

Lemma clauses_nonempty os o cl : In o os -> clauses_without_when code a os = Ok cl -> cl <> [].
Proof.
  intros Ho H E. subst cl. unfold clauses_without_when in H. apply map_res_ok in H. inversion H as [E |].
  assert (Hg : exists grp, In (code o, grp) (group_by str_eqb os code)).
  { rewrite (group_by_eq str_eqb (list_eq_dec N.eq_dec) str_eqb_spec). unfold groups_of. eexists.
    apply in_map_iff. exists (code o). split; [reflexivity |]. rewrite <- in_rev, nodup_In, <- in_rev. now apply in_map. }
  destruct Hg as (grp & Hg). rewrite <- E in Hg. destruct Hg.
Qed.
Lemma added_nonempty os o cl : In o os -> add_options ere f1 f2 f3 code a c os = Ok cl -> cl <> [].
Proof.
  intros Ho H E. unfold add_options in H. rewrite partition_eq in H. apply bind_ok in H as (x & Hx & H). apply bind_ok in H as (y & Hy & H).
  apply inr_inj in H. rewrite <- H in E. apply app_eq_nil in E as [-> ->]. destruct (has_when o) eqn:Ew.
  - unfold clauses_with_when in Hx. apply map_res_ok in Hx. destruct (Forall2_In_l _ _ _ o Hx) as (z & [] & _). apply filter_In. auto.
  - apply (clauses_nonempty _ o []) in Hy; [now apply Hy |]. apply filter_In. rewrite Ew. auto.
Qed.
Lemma master_filled : master_empty m = false.
Proof.
  unfold get_master in Hm. cbv zeta in Hm.
  assert (Hreq : forall o, In o (c_options c) -> arg_kind o = ArgRequired -> In o (filter has_required_arg (get_options ps c false true))) by (intros o Ho Hk; now apply required_In).
  assert (Hopt : forall o, In o (c_options c) -> arg_kind o = ArgOptional -> In o (filter has_optional_arg (get_options ps c false true))) by (intros o Ho Hk; now apply optional_In).
  assert (Hex : exists o, In o (c_options c) /\ arg_kind o <> ArgNone) by (destruct Hno as (o & Ho & [E | [E _]]); exists o; (split; [exact Ho |]); [rewrite E; discriminate | exact E]).
  destruct Hex as (o & Ho & Hk).
  assert (K : forall f r q, (forall os o cl, In o os -> f os = Ok cl -> cl <> []) ->
    (do r <- f (filter has_required_arg (get_options ps c false true));
     do q <- if nonempty (filter has_optional_arg (get_options ps c false true)) then do q <- f (filter has_optional_arg (get_options ps c false true)); Ok (Some q) else Ok None;
     Ok (r, q)) = Ok (r, q) -> negb (nonempty r || @is_some (list arg_clause) q) = false).
  { intros f r q Hf H. apply bind_ok in H as (r' & Hr & H). apply bind_ok in H as (q' & Hq & H). apply inr_inj, pair_inj in H as [-> ->].
    destruct (arg_kind o) eqn:Ek; [congruence | |].
    - pose proof (Hf _ o r (Hreq o Ho Ek) Hr) as Hn. now destruct r.
    - pose proof (Hopt o Ho Ek) as Hin. destruct (filter has_optional_arg _) as [| o' l]; [destruct Hin |]. cbn [nonempty] in Hq.
      apply bind_ok in Hq as (q'' & _ & Hq). apply inr_inj in Hq. subst q. cbn [is_some]. now rewrite orb_true_r. }
  destruct (existsb has_when (get_options ps c false true)); apply bind_ok in Hm as ([r q] & Hp & E); apply inr_inj in E; subst m; cbn [master_empty].
  - apply (K _ r q added_nonempty Hp).
  - apply (K _ r q clauses_nonempty Hp).
Qed.
Lemma master_some o x w : spelling here o x -> asks w o -> available o -> run_master truth m x w = ([code o], true).
Proof.
  intros Hs Hask Hav. destruct master_parts as (r & q & [R1 R2] & Hq & Hq0 & Hform).
  pose proof (proj1 Hs) as Ho. cbn [snd here] in Ho.
  assert (Hreq : arg_kind o = ArgRequired -> run_clauses truth r x = Some (code o)).
  { intros Hk. assert (Hin : In o (filter has_required_arg (get_options ps c false true))) by (apply required_In; auto).
    pose proof (R2 o x Hin Hs Hav) as Hn. destruct (run_clauses truth r x) as [k |] eqn:E; [| congruence].
    destruct (R1 x k E) as (o' & _ & Hs' & _ & ->). now rewrite (own_unique o o' x Hs Hs'). }
  assert (Hopt : arg_kind o = ArgOptional -> run_clauses truth r x = None /\ exists cl, q = Some cl /\ run_clauses truth cl x = Some (code o)).
  { intros Hk. split.
    - destruct (run_clauses truth r x) as [k |] eqn:E; [| reflexivity]. destruct (R1 x k E) as (o' & Ho' & Hs' & _).
      rewrite <- (own_unique o o' x Hs Hs') in Ho'. apply required_In in Ho' as [_ Hk']. congruence.
    - assert (Hin : In o (filter has_optional_arg (get_options ps c false true))) by (apply optional_In; auto).
      destruct q as [cl |]; [| rewrite Hq0 in Hin by reflexivity; destruct Hin]. exists cl. split; [reflexivity |].
      destruct (Hq cl eq_refl) as [Q1 Q2]. pose proof (Q2 o x Hin Hs Hav) as Hn. destruct (run_clauses truth cl x) as [k |] eqn:E; [| congruence].
      destruct (Q1 x k E) as (o' & _ & Hs' & _ & ->). now rewrite (own_unique o o' x Hs Hs'). }
  destruct Hform as [-> | [-> Hnw]]; cbn [run_master].
  - destruct Hask as [Hk | [Hk ->]]; [now rewrite (Hreq Hk) |]. destruct (Hopt Hk) as (E1 & cl & -> & E2). now rewrite E1, E2.
  - assert (Hr : nonempty r = true).
    { destruct r as [| cl0 r]; [| reflexivity]. destruct Hno as (p & Hp & Hk).
      assert (Hkp : arg_kind p = ArgRequired).
      { destruct Hk as [Hk | [Hk Hw]]; [exact Hk |]. rewrite Hnw in Hw; [discriminate |]. apply argument_options. auto. }
      destruct (own_strings p Hp) as (y & Hy). exfalso. apply (R2 p y); [now apply required_In | exact Hy | | reflexivity].
      apply no_when, Hnw, argument_options. split; [exact Hp | congruence]. }
    rewrite Hr. destruct Hask as [Hk | [Hk ->]].
    + rewrite (Hreq Hk). destruct q; reflexivity.
    + destruct (Hopt Hk) as (E1 & cl & -> & E2). rewrite E1. cbn [negb]. destruct cl as [| cl0 cl]; [discriminate E2 |]. cbn [nonempty]. now rewrite E2.
Qed.
Lemma master_none x w : (forall o, spelling here o x -> asks w o -> ~ available o) -> run_master truth m x w = ([], false).
Proof.
  intros Hnone. destruct master_parts as (r & q & [R1 R2] & Hq & Hq0 & Hform).
  assert (Hreq : run_clauses truth r x = None).
  { destruct (run_clauses truth r x) as [k |] eqn:E; [| reflexivity]. destruct (R1 x k E) as (o & Ho & Hs & Hav & _).
    apply required_In in Ho as [_ Hk]. exfalso. apply (Hnone o Hs); [now left | exact Hav]. }
  assert (Hopt : forall cl, q = Some cl -> w = true -> run_clauses truth cl x = None).
  { intros cl -> ->. destruct (run_clauses truth cl x) as [k |] eqn:E; [| reflexivity]. destruct (proj1 (Hq cl eq_refl) x k E) as (o & Ho & Hs & Hav & _).
    apply optional_In in Ho as [_ Hk]. exfalso. apply (Hnone o Hs); [right; auto | exact Hav]. }
  destruct Hform as [-> | [-> Hnw]]; cbn [run_master]; rewrite Hreq.
  - destruct q as [cl |]; [| reflexivity]. destruct w; [| reflexivity]. now rewrite (Hopt cl eq_refl eq_refl).
  - assert (Hr : nonempty r = true).
    { destruct r as [| cl0 r]; [| reflexivity]. destruct Hno as (p & Hp & Hk).
      assert (Hkp : arg_kind p = ArgRequired).
      { destruct Hk as [Hk | [Hk Hw]]; [exact Hk |]. rewrite Hnw in Hw; [discriminate |]. apply argument_options. auto. }
      destruct (own_strings p Hp) as (y & Hy). exfalso. apply (R2 p y); [now apply required_In | exact Hy | | reflexivity].
      apply no_when, Hnw, argument_options. split; [exact Hp | congruence]. }
    rewrite Hr. destruct q as [cl |]; [| reflexivity]. destruct w; cbn [negb]; [| reflexivity].
    assert (Hcl : nonempty cl = true).
    { destruct cl as [| cl0 cl]; [| reflexivity]. exfalso.
      destruct (filter has_optional_arg (get_options ps c false true)) as [| p l] eqn:Ef; [| ].
      - (* the clauses exist only if there are such options *)
        unfold get_master in Hm. cbv zeta in Hm. rewrite Ef in Hm. cbn [nonempty] in Hm.
        destruct (existsb has_when _); apply bind_ok in Hm as ([r' o'] & Hp & E); apply bind_ok in Hp as (r'' & Hr'' & Hp);
          apply bind_ok in Hp as (o'' & Ho'' & Hp); apply inr_inj in Ho''; subst o''; apply inr_inj in Hp, E; congruence.
      - destruct (Hq [] eq_refl) as [_ Q2]. assert (Hp : In p (filter has_optional_arg (get_options ps c false true))) by (rewrite Ef; now left).
        pose proof (proj1 (optional_In p) Hp) as [Hpc Hk]. destruct (own_strings p Hpc) as (y & Hy). rewrite <- Ef in Q2.
        apply (Q2 p y Hp Hy); [| reflexivity]. apply no_when, Hnw. now apply filter_In in Hp. }
    rewrite Hcl. now rewrite (Hopt cl eq_refl eq_refl).
Qed.
Lemma call_some o x v p w : spelling here o x -> asks w o -> available o -> call truth m x v p w = ([Run (code o) v p], true).
Proof. intros Hs Hk Hav. unfold call. now rewrite (master_some o x w Hs Hk Hav). Qed.
Lemma call_none x v p w : (forall o, spelling here o x -> asks w o -> ~ available o) -> call truth m x v p w = nothing.
Proof. intros H. unfold call. now rewrite (master_none x w H). Qed.
End Arguments.
