(** * Proofs about the whole completion in Bash: the words are parsed, then the functions run. *)
From Coq Require Import Permutation.
From Verif Require Import Base Value Dict Algo AlgoProofs Shell ShellProofs StrUtils Cli CliProofs CliMore SpecCli PyStr When SpecShell SpecWhen WhenProofs
  BashUtils BashParser SpecParser ParserPaths ParserTables ParserProofs ParserProofs2 PropertiesParser SpecOffered BashOffers SpecBash BashStrings BashArguments BashDispatch
  BashPositionals BashFunctions BashDashes BashMeaning.
Open Scope list_scope.

(** The option strings that a test names. *)
Definition test_options (t : wobj) : list str :=
  match t with OptionIs os _ _ _ | OptionMatch os _ _ _ | HasOption os => os | _ => [] end.
(** Every option has a variable of its own kind, and conditions name options of their command. *)
Record bash_named (ere : str -> bool) (root : cmd) : Prop := {
  bn_variables : forall ps c o, located root ps c -> In o (c_options c) -> exists v, opt_variable o = Ok v /\ v <> s "POSITIONALS";
  bn_conditions : forall ps c e cond t x, located root ps c ->
    (exists o, In o (c_options c) /\ o_when o = Some e) \/ (exists p, In p (c_positionals c) /\ p_when p = Some e) ->
    parse_when ere e = Ok (map wtok_of (conds_syms cond)) -> In (STest t) (conds_syms cond) -> In x (test_options t) ->
    exists o, In o (c_options c) /\ In x (o_strings o) }.

(** The events that one of the two parsers finds. *)
Definition parsed (root : cmd) (ws : list str) (cur : str) (behind : list str) (es : list event) : Prop :=
  (exists sc, generate1 root = Ok sc /\ es = run1 sc ws (cur :: behind)) \/
  (exists sc, generate2 root = Ok sc /\ es = run2 sc ws (cur :: behind)).
(** What the functions see. *)
Definition seen (root : cmd) (ws : list str) (cur : str) (behind : list str) (es : list event) : situation :=
  MkSituation cur (last ws (c_prog root)) (c_prog root :: ws ++ cur :: behind) (positionals_in es)
    (existsb (fun e => match e with EndOfOptions => true | _ => false end) es).

Lemma cond_value_ext matches values values' positionals c : (forall o, In o (c_options c) -> values o = values' o) ->
  (forall t, term_value matches values positionals c t <-> term_value matches values' positionals c t) /\
  (forall l, cond_value matches values positionals c l <-> cond_value matches values' positionals c l).
Proof.
  intros H. assert (Ht : forall t, test_true matches values positionals c t <-> test_true matches values' positionals c t).
  { intros [os ws ic any | os r ic any | os | op n | ic n ws]; cbn [test_true]; try reflexivity.
    - split; intros (o & v & w & Ho & Hv & Hw); exists o, v, w; (split; [exact Ho |]); (split; [| exact Hw]); unfold value_for in *; [rewrite <- H | rewrite H]; try exact Hv; apply Ho.
    - split; intros (o & v & Ho & Hv & Hw); exists o, v; (split; [exact Ho |]); (split; [| exact Hw]); unfold value_for in *; [rewrite <- H | rewrite H]; try exact Hv; apply Ho.
    - split; intros (o & Ho & Hv); exists o; (split; [exact Ho |]); [rewrite <- H | rewrite H]; try exact Hv; apply Ho. }
  apply term_conds_ind; cbn [term_value cond_value].
  - exact Ht.
  - intros t IH. now rewrite IH.
  - intros l IH. exact IH.
  - intros t IH. exact IH.
  - intros l IHl t IHt. now rewrite IHl, IHt.
  - intros l IHl t IHt. now rewrite IHl, IHt.
Qed.

Lemma cluster_appends here cs es w : cluster here cs es w -> forall e, In e es -> e <> EndOfOptions.
Proof. induction 1 as [| c o v cs es w _ _ _ H IH | | |]; intros e He; cbn in He; [easy | destruct He as [<- | He]; [discriminate | now apply IH] | | | easy];
  destruct He as [<- | []]; discriminate. Qed.
Lemma normal_no_end here n ws es : usage here n ws es Normal -> ~ In EndOfOptions es.
Proof.
  remember Normal as e eqn:Ee. intros H. induction H; subst; try discriminate; intros Hin;
    repeat match goal with
    | H : In _ (_ ++ _) |- _ => apply in_app_or in H as [H | H]
    | H : In _ (_ :: _) |- _ => destruct H as [H | H]; [discriminate H |]
    | H : cluster _ _ ?es _, H' : In EndOfOptions ?es |- _ => now apply (cluster_appends _ _ _ _ H _ H')
    end; try easy; try (now apply IHusage).
Qed.

Section Whole.
Variables (ere : str -> bool) (matches : str -> bool -> str -> bool) (f1 f2 f3 : str) (code : opt -> str) (pcode : pos -> str) (choices_code : list str -> str).
Hypotheses (Hf1 : is_name f1) (Hf2 : is_name f2) (Hf3 : is_name f3) (D12 : f1 <> f2) (D13 : f1 <> f3) (D23 : f2 <> f3).
Variable root : cmd.
Hypotheses (R : bash_ready ere root) (N : bash_named ere root).

Lemma whole_numbers : tame_option_numbers root.
Proof.
  intros ps c o Hl Ho. pose proof (br_numbers _ _ R ps c [o] Hl) as H.
  intros l H1 H2. apply H; [intros p [<- | []]; exact Ho | |].
  - intros x Hx. exists o. split; [now left | now apply H1].
  - intros x (p & [<- | []] & Hx). now apply H2.
Qed.
Lemma parsed_events ws cur behind es es' e res : has_positionals root -> usage ([], root) 0 ws es e -> rest_events e cur behind res ->
  parsed root ws cur behind es' -> es' = es ++ res.
Proof.
  intros Hp Hu Hr [(sc & Hs & ->) | (sc & Hs & ->)].
  - now apply (C70_first_parser_partial root sc ws es e cur behind res (br_built _ _ R) (br_commands _ _ R) (br_options _ _ R)).
  - now apply (C71_second_parser_partial root sc ws es e cur behind res (br_built _ _ R) (br_commands _ _ R) (br_options _ _ R) whole_numbers).
Qed.

Section Events.
Variable es : list event.
Let arrays := arrays_of es.
Let count (v : str) : nat := List.length (arrays v).
Let command := simple_command arrays matches f1 f2 f3.
Definition whole_truth : str -> bool := bash_truth count command.

Lemma option_values ps c o : located root ps c -> In o (c_options c) -> values_in arrays o = given_values es o.
Proof.
  intros Hl Ho. unfold values_in, given_values. destruct (bn_variables _ _ N ps c o Hl Ho) as (v & Hv & Hn). rewrite Hv. unfold arrays, arrays_of.
  destruct (str_eqb_spec v (s "POSITIONALS")); [contradiction | reflexivity].
Qed.
Lemma given_none ps c o : located root ps c -> In o (c_options c) -> (not_given count variable_of o <-> given_values es o = []).
Proof.
  intros Hl Ho. rewrite <- (option_values ps c o Hl Ho). unfold values_in, not_given, variable_of. destruct (bn_variables _ _ N ps c o Hl Ho) as (v & Hv & _).
  rewrite Hv. split.
  - intros H. specialize (H v eq_refl). unfold count in H. now apply length_zero_iff_nil.
  - intros H w Hw. apply inr_inj in Hw. subst w. unfold count. now rewrite H.
Qed.

Lemma by_strings_total c os : (forall x, In x os -> exists o, In o (c_options c) /\ In x (o_strings o)) ->
  forall acc, exists r, options_by_strings_loop (c_options c) acc os = Ok r.
Proof.
  induction os as [| x os IH]; intros H acc; cbn [options_by_strings_loop]; [eauto |].
  destruct (find _ (c_options c)) as [o |] eqn:E.
  - apply IH. intros y Hy. apply H. now right.
  - exfalso. destruct (H x) as (o & Ho & Hx); [now left |]. pose proof (find_none _ _ E o Ho) as En. cbn beta in En.
    assert (mems x (o_strings o) = true) by now apply mems_In. congruence.
Qed.
Lemma generates ps c e cond : located root ps c ->
  (exists o, In o (c_options c) /\ o_when o = Some e) \/ (exists p, In p (c_positionals c) /\ p_when p = Some e) ->
  parse_when ere e = Ok (map wtok_of (conds_syms cond)) -> exists text, generate_when_conditions ere f1 f2 f3 c e = Ok text.
Proof.
  intros Hl He Hp. unfold generate_when_conditions, bash_when. rewrite Hp. cbn [bind].
  assert (Hvars : forall os, (forall x, In x os -> exists o, In o (c_options c) /\ In x (o_strings o)) -> exists vs, option_variables c os = Ok vs).
  { intros os Hos. unfold option_variables, get_options_by_option_strings. destruct (by_strings_total c os Hos []) as (r & Hr). rewrite Hr. cbn [bind].
    destruct (by_strings_In c os [] r Hr) as [Hin _]; [intros o [] |].
    assert (K : forall l, (forall o, In o l -> In o (c_options c)) -> exists vs, map_res opt_variable l = Ok vs).
    { induction l as [| o l IH]; intros Hl'; cbn [map_res]; [eauto |]. destruct (bn_variables _ _ N ps c o Hl (Hl' o (or_introl eq_refl))) as (v & Hv & _).
      rewrite Hv. cbn [bind]. destruct IH as (vs & ->); [intros q Hq; apply Hl'; now right |]. cbn [bind]. eauto. }
    exact (K r Hin). }
  assert (Htest : forall t, In (STest t) (conds_syms cond) -> exists x, bash_test (when_env f1 f2 f3 c) t = Ok x).
  { intros t Ht. pose proof (fun x Hx => bn_conditions _ _ N ps c e cond t x Hl He Hp Ht Hx) as Hn.
    destruct t as [os ws ic any | os r ic any | os | op n | ic n ws]; cbn [bash_test test_options] in *.
    - destruct (Hvars os Hn) as (vs & Hvs). unfold bash_option_is, bash_variables. cbn [b_vars when_env]. rewrite Hvs. cbn [bind].
      destruct (bash_option_is_conditions _ _ ws) as [| a [| b l]]; eauto.
    - destruct (Hvars os Hn) as (vs & Hvs). unfold bash_option_match, bash_variables. cbn [b_vars when_env]. rewrite Hvs. cbn [bind]. eauto.
    - destruct (Hvars os Hn) as (vs & Hvs). unfold bash_has_option. cbn [b_vars when_env]. rewrite Hvs. cbn [bind]. eauto.
    - eauto.
    - eauto. }
  assert (K : forall l, (forall t, In (STest t) l -> In (STest t) (conds_syms cond)) -> exists r, bash_tokens (when_env f1 f2 f3 c) (map wtok_of l) = Ok r).
  { induction l as [| y l IH]; intros Hin; cbn [map bash_tokens]; [eauto |]. destruct IH as (r & Hr); [intros t Ht; apply Hin; now right |].
    destruct y as [| | | | | t]; cbn [wtok_of bind]; try (rewrite Hr; cbn [bind]; eauto; fail).
    destruct (Htest t) as (x & Hx); [apply Hin; now left |]. rewrite Hx. cbn [bind]. rewrite Hr. cbn [bind]. eauto. }
  destruct (K (conds_syms cond) (fun t Ht => Ht)) as (r & Hr). rewrite Hr. cbn [bind]. eauto.
Qed.
Lemma condition_iff ps c e : located root ps c ->
  (exists o, In o (c_options c) /\ o_when o = Some e) \/ (exists p, In p (c_positionals c) /\ p_when p = Some e) ->
  (condition_value ere f1 f2 f3 count command c e true <-> condition_holds ere matches es c e).
Proof.
  intros Hl He. unfold condition_value, condition_holds.
  assert (Hone : forall o1 o2 x, In o1 (c_options c) -> In o2 (c_options c) -> In x (o_strings o1) -> In x (o_strings o2) -> o1 = o2).
  { intros o1 o2 x H1 H2 X1 X2. apply (tame_spelling root (br_options _ _ R) ps c (ps, c) (ps, c) o1 o2 x Hl); try (now left); (split; [assumption | now left]). }
  assert (Hv : forall o v, In o (c_options c) -> opt_variable o = Ok v -> is_name v) by (intros o v; apply (br_variables _ _ R ps c o v Hl)).
  assert (K : forall cond, parse_when ere e = Ok (map wtok_of (conds_syms cond)) ->
    (conds_true (bash_true (bash_truth count command) (when_env f1 f2 f3 c)) cond = true <-> cond_value matches (given_values es) (positionals_in es) c cond)).
  { intros cond Hp. destruct (generates ps c e cond Hl He Hp) as (text & Ht).
    pose proof (proj2 (when_meaning arrays matches f1 f2 f3 Hf1 Hf2 Hf3 D12 D13 D23 c Hone Hv ere e cond text Hp Ht)) as M.
    eapply iff_trans; [exact M |]. apply (proj2 (cond_value_ext matches (values_in arrays) (given_values es) (positionals_in es) c (fun o Ho => option_values ps c o Hl Ho)) cond). }
  split; intros (cond & Hp & Hc); exists cond; (split; [exact Hp |]); now apply (K cond Hp).
Qed.

Lemma offered_iff p o : located root (fst p) (snd p) ->
  (In o (c_options (snd p)) /\ string_offered count variable_of (condition_value ere f1 f2 f3 count command) (fst p) (snd p) o <-> to_offer ere matches es p o).
Proof.
  intros Hl. destruct p as [ps c]. cbn [fst snd] in *.
  assert (Hanc : forall d f, In d (c :: ps) -> In f (c_options d) -> not_given count variable_of f <-> given_values es f = []).
  { intros d f Hd Hf. destruct (located_parent root ps c d Hl Hd) as (qs & Hq). exact (given_none qs d f Hq Hf). }
  split.
  - intros [Ho [H1 H2 H3 H4 H5]]. constructor; cbn [fst snd]; try assumption.
    + intros d f Hd Hf Hff. apply (Hanc d f Hd Hf). now apply (H2 d).
    + intros q Hq Hn Hs. apply (Hanc c q (or_introl eq_refl) Hq). now apply H3.
    + intros Hr. apply (Hanc c o (or_introl eq_refl) Ho). now apply H4.
    + intros e He. apply (condition_iff ps c e Hl); [left; eauto | now apply H5].
  - intros [Ho H1 H2 H3 H4 H5]. cbn [fst snd] in *. split; [exact Ho |]. constructor; try assumption.
    + intros d f Hd Hf Hff. apply (Hanc d f Hd Hf). now apply (H2 d).
    + intros q Hq Hn Hs. apply (Hanc c q (or_introl eq_refl) Hq). now apply H3.
    + intros Hr. apply (Hanc c o (or_introl eq_refl) Ho). now apply H4.
    + intros e He. apply (condition_iff ps c e Hl); [left; eauto | now apply H5].
Qed.

Notation ready_pos := (fun (c : cmd) (p : pos) => forall e, p_when p = Some e -> e <> [] -> condition_holds ere matches es c e).
Lemma located_scope ps c p : located root ps c -> in_scope (ps, c) p -> located root (fst p) (snd p).
Proof. intros Hl Hp. apply (asked_located root ps c p Hl). now apply asked_scope. Qed.
Lemma available_holds ps c o : located root ps c -> In o (c_options c) -> (forall e, o_when o = Some e -> e <> [] -> condition_holds ere matches es c e) ->
  available ere f1 f2 f3 count command c o.
Proof. intros Hl Ho H e He Hn. apply (condition_iff ps c e Hl); [left; eauto | now apply H]. Qed.
End Events.

Notation run es st := (run_function ere f1 f2 f3 code pcode choices_code (whole_truth es) st [] root).

(** Options. *)
Theorem whole_options ws es cur behind es' ps c l b :
  has_positionals root -> usage ([], root) 0 ws es Normal -> option_like cur -> parsed root ws cur behind es' ->
  located root ps c -> selected (positionals_in es) ps c ->
  (forall w sub, nth_positional (positionals_in es) (taken (c :: ps)) w -> In sub (subs c) -> ~ names c sub w) ->
  (forall p, in_scope (ps, c) p -> quiet (seen root ws cur behind es') p) ->
  run es' (seen root ws cur behind es') = Ok (l, b) ->
  b = false /\ (forall f, In f l -> exists ws, f = Words ws) /\
  forall x, In x (words_of l) <-> is_prefix cur x /\ exists p o, in_scope (ps, c) p /\ offered_text o x /\ to_offer ere matches es p o.
Proof.
  intros Hp Hu Hc Hpar Hl Hsel Hno Hq Hr.
  assert (es' = es) as ->.
  { rewrite <- (app_nil_r es). apply (parsed_events ws cur behind es es' Normal [] Hp Hu); [| exact Hpar]. left. auto. }
  assert (He : st_end (seen root ws cur behind es) = false).
  { cbn [seen st_end]. destruct (existsb _ es) eqn:E; [| reflexivity]. apply existsb_exists in E as (e & He & Ee). destruct e; try discriminate Ee.
    exfalso. now apply (normal_no_end _ _ _ _ Hu). }
  assert (Hd : is_prefix [DASH] (st_cur (seen root ws cur behind es))) by (cbn [seen st_cur]; destruct Hc as (ch & w & ->); now exists (ch :: w)).
  destruct (dash_words ere f1 f2 f3 code pcode choices_code (fun v => List.length (arrays_of es v)) (simple_command (arrays_of es) matches f1 f2 f3)
    root R Hf1 Hf2 Hf3 (seen root ws cur behind es) ps c l b Hl Hsel Hno He Hd Hq Hr) as (H1 & H2 & H3).
  split; [exact H1 |]. split; [exact H2 |]. intros x. rewrite H3. cbn [seen st_cur].
  split; intros (Hx & H); (split; [exact Hx |]).
    + destruct H as (p & Hs & o & Ho & Ht & Hso). exists p, o. split; [exact Hs |]. split; [exact Ht |].
      apply offered_iff; [now apply (located_scope ps c) | auto].
    + destruct H as (p & o & Hs & Ht & Hso). exists p. split; [exact Hs |]. apply offered_iff in Hso; [| now apply (located_scope ps c)].
      exists o. tauto.
Qed.

(** No command that completes another one's arguments. *)
Notation no_command_arg c := (forall q, In q (c_positionals c) -> is_command_arg q = false).
Lemma no_offset ps c : no_command_arg c -> command_arg ps c = None.
Proof.
  intros H. unfold command_arg. destruct (find is_command_arg (c_positionals c)) as [q |] eqn:E; [| reflexivity]. apply find_some in E as [Hq E].
  rewrite (H q Hq) in E. discriminate.
Qed.
Lemma run_first es st ps c l b : located root ps c -> selected (st_positionals st) ps c -> is_worth_a_function c = true ->
  (forall w sub, nth_positional (st_positionals st) (taken (c :: ps)) w -> In sub (subs c) -> ~ names c sub w) ->
  run es st = Ok (l, b) ->
  exists lc bc, run_own ere f1 f2 f3 code pcode choices_code (whole_truth es) ps c st = Ok (lc, bc) /\ (bc = true -> l = lc /\ b = true).
Proof.
  intros Hl Hsel Hw Hno Hr.
  pose proof (functions_run ere f1 f2 f3 code pcode choices_code (whole_truth es) root (br_commands _ _ R) st ps c l b Hl Hsel Hno Hr) as H.
  unfold asked in H. inversion H as [| p rest l0 Ho E1 E2 E3 | p rest l0 l' b0 Ho Hrest E1 E2 E3]; subst; cbn [fst snd] in Ho; unfold own_part in Ho.
  - exists l, true. split; [destruct ps; [exact Ho | now rewrite Hw in Ho] | auto].
  - exists l0, false. split; [destruct ps; [exact Ho | now rewrite Hw in Ho] | discriminate].
Qed.

(** Arguments of options. *)
Theorem whole_separate ws es v cur behind es' ps c o l b :
  has_positionals root -> usage ([], root) 0 ws es (Waiting v) -> parsed root ws cur behind es' ->
  located root ps c -> selected (positionals_in es) ps c -> is_worth_a_function c = true ->
  (forall w sub, nth_positional (positionals_in es) (taken (c :: ps)) w -> In sub (subs c) -> ~ names c sub w) ->
  no_command_arg c -> waiting_word (ps, c) (last ws (c_prog root)) o ->
  (forall e, o_when o = Some e -> e <> [] -> condition_holds ere matches es' c e) ->
  run es' (seen root ws cur behind es') = Ok (l, b) -> l = [Run (code o) cur []] /\ b = true.
Proof.
  intros Hp Hu Hpar Hl Hsel Hw Hno Hca Hww Hav Hr.
  assert (E : es' = es ++ [Append v cur]) by (apply (parsed_events ws cur behind es es' (Waiting v) _ Hp Hu); [reflexivity | exact Hpar]).
  assert (Ep : positionals_in es' = positionals_in es) by (subst es'; unfold positionals_in; rewrite flat_map_app; cbn; now rewrite app_nil_r).
  destruct (run_first es' (seen root ws cur behind es') ps c l b Hl) as (lc & bc & Hown & Hb); try assumption.
  { cbn [seen st_positionals]. now rewrite Ep. }
  { cbn [seen st_positionals]. now rewrite Ep. }
  unfold run_own in Hown. cbv zeta in Hown. apply bind_ok in Hown as (script & Hs & Hown). apply bind_ok in Hown as (strings & Hst & Hown).
  apply bind_ok in Hown as (blocks & Hbl & Hown). apply inr_inj in Hown.
  assert (Ho : In o (c_options c)) by (destruct Hww as [o x [Ho _] _ | o fl ch [Ho _] _]; exact Ho).
  pose proof (separate_run ere f1 f2 f3 code _ _ root R Hf1 Hf2 Hf3 (seen root ws cur behind es') ps c Hl script Hs o Hww
    (available_holds es' ps c o Hl Ho Hav)) as Hsep.
  rewrite (no_offset ps c Hca) in Hown. cbn [run_command_arg] in Hown. unfold whole_truth in Hown. rewrite Hsep in Hown. unfold then_ in Hown. cbn [snd fst nothing app] in Hown.
  apply pair_inj in Hown as [<- <-]. exact (Hb eq_refl).
Qed.
Theorem whole_attached ws es cur behind es' ps c o value prefix l b :
  has_positionals root -> usage ([], root) 0 ws es Normal -> option_like cur -> parsed root ws cur behind es' ->
  located root ps c -> selected (positionals_in es) ps c -> is_worth_a_function c = true ->
  (forall w sub, nth_positional (positionals_in es) (taken (c :: ps)) w -> In sub (subs c) -> ~ names c sub w) ->
  no_command_arg c -> attached_word (ps, c) cur o value prefix -> unclaimed (ps, c) (last ws (c_prog root)) ->
  (forall e, o_when o = Some e -> e <> [] -> condition_holds ere matches es c e) ->
  run es' (seen root ws cur behind es') = Ok (l, b) -> l = [Run (code o) value prefix] /\ b = true.
Proof.
  intros Hp Hu Hc Hpar Hl Hsel Hw Hno Hca Hww Hunc Hav Hr.
  assert (es' = es) as ->.
  { rewrite <- (app_nil_r es). apply (parsed_events ws cur behind es es' Normal [] Hp Hu); [| exact Hpar]. left. auto. }
  destruct (run_first es (seen root ws cur behind es) ps c l b Hl Hsel Hw Hno Hr) as (lc & bc & Hown & Hb).
  unfold run_own in Hown. cbv zeta in Hown. apply bind_ok in Hown as (script & Hs & Hown). apply bind_ok in Hown as (strings & Hst & Hown).
  apply bind_ok in Hown as (blocks & Hbl & Hown). apply inr_inj in Hown.
  assert (Ho : In o (c_options c)) by (destruct Hww as [o x t [Ho _] _ _ | o fl ch t [Ho _] _]; exact Ho).
  pose proof (attached_run ere f1 f2 f3 code _ _ root R Hf1 Hf2 Hf3 (seen root ws cur behind es) ps c Hl script Hs o value prefix Hww
    (available_holds es ps c o Hl Ho Hav) Hunc) as Hsep.
  rewrite (no_offset ps c Hca) in Hown. cbn [run_command_arg] in Hown. unfold whole_truth in Hown. rewrite Hsep in Hown. unfold then_ in Hown. cbn [snd fst nothing app] in Hown.
  apply pair_inj in Hown as [<- <-]. exact (Hb eq_refl).
Qed.

(** Positional arguments. *)
Theorem whole_positionals ws es cur behind es' ps c l b :
  has_positionals root -> usage ([], root) 0 ws es Normal -> ~ is_prefix [DASH] cur -> parsed root ws cur behind es' ->
  located root ps c -> selected (positionals_in es) ps c -> is_worth_a_function c = true ->
  (forall w sub, nth_positional (positionals_in es ++ [cur]) (taken (c :: ps)) w -> In sub (subs c) -> ~ names c sub w) ->
  no_command_arg c -> unclaimed (ps, c) (last ws (c_prog root)) ->
  run es' (seen root ws cur behind es') = Ok (l, b) ->
  (exists p, In p (c_positionals c) /\ positional_offered (positionals_in es) ps c p /\
     (forall e, p_when p = Some e -> e <> [] -> condition_holds ere matches es' c e) /\ l = [Run (pcode p) cur []] /\ b = true) \/
  (c_subcommands c <> None /\ subcommands_offered (positionals_in es) ps c /\ l = [Run (choices_code (get_choices c)) cur []] /\ b = true) \/
  ((forall p, In p (c_positionals c) -> positional_offered (positionals_in es) ps c p ->
      ~ (forall e, p_when p = Some e -> e <> [] -> condition_holds ere matches es' c e)) /\
   (c_subcommands c <> None -> ~ subcommands_offered (positionals_in es) ps c)).
Proof.
  intros Hp Hu Hc Hpar Hl Hsel Hw Hno Hca Hunc Hr.
  assert (E : es' = es ++ [Positional cur]).
  { apply (parsed_events ws cur behind es es' Normal _ Hp Hu); [| exact Hpar]. right. split; [| reflexivity]. intros (ch & w & ->). apply Hc. now exists (ch :: w). }
  assert (Ep : positionals_in es' = positionals_in es ++ [cur]) by (subst es'; unfold positionals_in; rewrite flat_map_app; reflexivity).
  assert (Hsel' : selected (positionals_in es') ps c).
  { rewrite Ep. clear -Hsel. revert c Hsel. induction ps as [| p ps IH]; intros c Hsel; cbn [selected] in *; [exact I |].
    destruct Hsel as [H1 (w & (H2 & H2') & H3)]. split; [now apply IH |]. exists w. split; [| exact H3]. split; [exact H2 |].
    rewrite nth_error_app1; [exact H2' |]. apply nth_error_Some. now rewrite H2'. }
  destruct (run_first es' (seen root ws cur behind es') ps c l b Hl) as (lc & bc & Hown & Hb); try assumption.
  { cbn [seen st_positionals]. now rewrite Ep. }
  unfold run_own in Hown. cbv zeta in Hown. apply bind_ok in Hown as (script & Hs & Hown). apply bind_ok in Hown as (strings & Hst & Hown).
  apply bind_ok in Hown as (blocks & Hbl & Hown). apply inr_inj in Hown.
  assert (Hq : run_option_completion (whole_truth es') script (seen root ws cur behind es') = nothing).
  { apply (quiet_run ere f1 f2 f3 code _ _ root R Hf1 Hf2 Hf3 (seen root ws cur behind es') ps c Hl script Hs); [exact Hunc |].
    intros Hd. contradiction. }
  rewrite (no_offset ps c Hca), Hq in Hown. cbn [run_command_arg] in Hown. unfold then_ at 1 2 in Hown. cbn [snd fst nothing app] in Hown.
  assert (Est : starts_with (s "-") cur = false).
  { destruct (starts_with (s "-") cur) eqn:E'; [| reflexivity]. apply starts_with_app in E' as (t & ->). exfalso. apply Hc. now exists t. }
  cbn [seen st_cur] in Hown. rewrite Est, andb_false_r in Hown.
  assert (Hrun : run_positionals (whole_truth es') blocks (seen root ws cur behind es') = (lc, bc)).
  { destruct strings; rewrite <- Hown; destruct (run_positionals (whole_truth es') blocks _); reflexivity. }
  assert (Hv : forall d o v, In d (c :: ps) -> In o (c_options d) -> opt_variable o = Ok v -> is_name v) by exact (place_vars ere root R ps c Hl).
  assert (Hready : forall p, In p (c_positionals c) -> (ready ere f1 f2 f3 (fun v => List.length (arrays_of es' v)) (simple_command (arrays_of es') matches f1 f2 f3) c p <->
    forall e, p_when p = Some e -> e <> [] -> condition_holds ere matches es' c e)).
  { intros p Hpc. unfold ready. split; intros H e He Hn; specialize (H e He Hn); apply (condition_iff es' ps c e Hl) in H; try exact H; right; eauto. }
  assert (Hord : forall p, In p (c_positionals c) -> ordinary c p).
  { intros p Hpc. split; [exact Hpc |]. rewrite <- is_command_arg_iff, (Hca p Hpc). discriminate. }
  destruct (positionals_run ere f1 f2 f3 pcode choices_code (fun v => List.length (arrays_of es' v)) (simple_command (arrays_of es') matches f1 f2 f3) root ps c Hl Hf1 Hf2 Hf3 Hv (fun p e => br_conditions_pos ere root R ps c p e Hl)
    (positionals_in es) (seen root ws cur behind es') ltac:(cbn [seen st_positionals]; rewrite Ep, app_length; cbn; lia) Hsel blocks Hbl)
    as [(H1 & H2 & H3) | [(p & H1 & H2 & H3 & H4) | (H1 & H2 & H3)]].
  - right. right. split; [| exact H3]. intros p Hpc Hpo Hr'. apply (H2 p (Hord p Hpc) Hpo). now apply Hready.
  - left. exists p. destruct H1 as [H1 _]. unfold whole_truth in Hrun. rewrite H4 in Hrun. apply pair_inj in Hrun as [<- <-]. destruct (Hb eq_refl) as [-> ->].
    split; [exact H1 |]. split; [exact H2 |]. split; [now apply Hready | auto].
  - right. left. unfold whole_truth in Hrun. rewrite H3 in Hrun. apply pair_inj in Hrun as [<- <-]. destruct (Hb eq_refl) as [-> ->]. auto.
Qed.
End Whole.
