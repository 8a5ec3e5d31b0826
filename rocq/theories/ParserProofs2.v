(** * The second parser. *)
From Verif Require Import Base Dict Shell StrUtils StrUtilsProofs Abbrev AbbrevProofs Cli SpecCli CliProofs CliMore PyStr
  BashPatterns BashPatternsProofs BashUtils PatternMore SpecShell SpecGlob GlobMatch BashParser SpecParser ParserPaths ParserTables ParserProofs.
Open Scope list_scope.

Section Second.
Context (root : cmd) (Hb : built root) (Htc : tame_commands root) (Hto : tame_options root) (Hnum : tame_option_numbers root).

Definition args_of (o : opt) : args :=
  if has_optional_arg o then ArgsOptional else if has_required_arg o then ArgsOne else ArgsZero.
Definition means2 (p : place) (w : str) (va : str * args) : Prop :=
  exists o, opt_variable o = Ok (fst va) /\ spelling p o w /\ snd va = args_of o.

Lemma located_option_nonempty ps c o : located root ps c -> In o (c_options c) -> o_strings o <> [].
Proof. intros Hl Ho. destruct (built_valid root ps c Hb Hl) as (_ & _ & Hopt & _). now apply Hopt. Qed.
Lemma spelling_cases ps c o x : located root ps c -> (spelling (ps, c) o x <->
  In o (c_options c) /\ ((spelling (ps, c) o x /\ List.length x = 2) \/ (spelling (ps, c) o x /\ 3 <= List.length x))).
Proof.
  intros Hl. split; [| intros [_ [[H _] | [H _]]]; exact H]. intros H. split; [apply H |].
  destruct (spelling_length root ps c o x Hb Hl H); auto.
Qed.

Lemma generated2 ps c cases : located root ps c -> generate_option_cases2 ps c = Ok cases ->
  (forall pat va w, In (pat, va) (make_option_switch_code cases) -> case_matches pat w -> means2 (ps, c) w va) /\
  (forall w va, means2 (ps, c) w va -> exists pat va', In (pat, va') (make_option_switch_code cases) /\ case_matches pat w).
Proof.
  intros Hl H. unfold generate_option_cases2 in H. apply bind_ok in H as (a & Ha & Hm). apply map_res_ok in Hm.
  assert (Hone : forall o strings va, In o (c_options c) -> option_case2 a o = Ok (strings, va) ->
     opt_variable o = Ok (fst va) /\ snd va = args_of o /\ (forall x, In x strings <-> spelling (ps, c) o x) /\
     forall w, case_matches (make_pattern strings) w <-> spelling (ps, c) o w).
  { intros o strings va Ho E. unfold option_case2 in E. apply bind_ok in E as (l1 & E1 & E). apply bind_ok in E as (l2 & E2 & E).
    apply bind_ok in E as (v & Ev & E). apply inr_inj, pair_inj in E as [Es <-]. cbn [fst snd].
    assert (Hw : forall x, In x strings <-> spelling (ps, c) o x).
    { intros x. rewrite <- Es, in_app_iff. rewrite (spelled_short root ps c o x Hb Hl Ho).
      rewrite (spelled_words root ps c a o l1 l2 Hb Hl Ho Ha E1 E2 x). rewrite (spelling_cases ps c o x Hl) at 3. tauto. }
    split; [exact Ev |]. split; [reflexivity |]. split; [exact Hw |]. intros w. rewrite <- Hw. apply make_pattern_exact.
    - pose proof (located_option_nonempty ps c o Hl Ho) as Hne. destruct (o_strings o) as [| x l] eqn:Eo; [now destruct Hne |].
      assert (In x strings) by (apply Hw; split; [exact Ho |]; left; rewrite Eo; now left). now destruct strings.
    - intros x Hx. apply Hw in Hx. destruct (spelling_chars root ps c o x (tame_strings root Hto) Hl Hx) as [Hp _].
      destruct (spelling_dash root ps c o x Hb Hl Hx) as (y & -> & _). split; [discriminate | exact Hp].
    - apply (Hnum ps c o Hl Ho); intros x Hx; now apply Hw. }
  split.
  - intros pat va w Hin Hmt. unfold make_option_switch_code in Hin. apply in_map_iff in Hin as ([strings va'] & E & Hin).
    apply pair_inj in E as [<- <-]. destruct (Forall2_In_r _ _ _ _ Hm Hin) as (o & Ho & E).
    apply (get_options_own root ps c o Hb Hl) in Ho. destruct (Hone o strings va' Ho E) as (H1 & H2 & _ & H3).
    exists o. split; [exact H1 |]. split; [now apply H3 | exact H2].
  - intros w va (o & Hv & Hs & Hva). pose proof (proj1 Hs) as Ho. cbn [snd] in Ho. pose proof Ho as Ho'.
    apply (get_options_own root ps c o Hb Hl) in Ho'. destruct (Forall2_In_l _ _ _ _ Hm Ho') as ([strings va'] & Hin & E).
    destruct (Hone o strings va' Ho E) as (_ & _ & _ & H3). exists (make_pattern strings), va'. split; [| now apply H3].
    apply in_map_iff. exists (strings, va'). auto.
Qed.

Lemma means2_unique ps c p1 p2 w va1 va2 : located root ps c -> in_scope (ps, c) p1 -> in_scope (ps, c) p2 ->
  means2 p1 w va1 -> means2 p2 w va2 -> va1 = va2.
Proof.
  intros Hl H1 H2 (o1 & V1 & S1 & A1) (o2 & V2 & S2 & A2).
  destruct (tame_spelling root Hto ps c p1 p2 o1 o2 w Hl H1 H2 S1 S2) as [_ <-]. destruct va1, va2. cbn [fst snd] in *. congruence.
Qed.

Context (sc : script2) (Hsc : generate2 root = Ok sc).
Lemma script2_parts : make_find_option_code root = Ok (s2_find sc) /\ make_subcommand_switch_code root = Ok (s2_switch sc) /\
  s2_types sc = get_defined_option_types root.
Proof.
  unfold generate2 in Hsc. apply bind_ok in Hsc as (f & Ef & E). apply bind_ok in E as (sw & Esw & E).
  apply inr_inj in E. rewrite <- E. auto.
Qed.

Definition applies (command : option str) (cmd : str) : Prop :=
  match command with Some command => case_matches command cmd | None => True end.
Lemma block_scope ps c ps' c' b : located root ps c -> located root ps' c' ->
  make_cmd_plus_option_switch_code (Nat.eqb (List.length (rev (visit_commandlines [] root))) 1) ps' c' = Ok (Some b) ->
  (applies (fst b) (get_subcommand_path ps c) <-> in_scope (ps, c) (ps', c')) /\
  exists cases, generate_option_cases2 ps' c' = Ok cases /\ snd b = make_option_switch_code cases.
Proof.
  intros Hl Hl' H. unfold make_cmd_plus_option_switch_code in H. apply bind_ok in H as (cases & Hc & H).
  destruct (negb (nonempty cases)); [discriminate |]. destruct (Nat.eqb_spec (List.length (rev (visit_commandlines [] root))) 1) as [E | _].
  - apply inr_inj in H. assert (Eb : b = (None, make_option_switch_code cases)) by congruence. subst b. cbn [fst snd applies].
    split; [| exists cases; auto]. split; [intros _ | trivial].
    assert (Hall : forall qs d, located root qs d -> In (qs, d) (visit_commandlines [] root)).
    { intros qs d Hq. apply visit_iff. exists qs. rewrite app_nil_r. auto. }
    apply Hall in Hl, Hl'. rewrite rev_length in E. destruct (visit_commandlines [] root) as [| x [| y l]]; try discriminate E.
    destruct Hl as [Hl | []], Hl' as [Hl' | []]. left. congruence.
  - apply inr_inj in H. set (q := if inherits c' then _ else _) in H.
    assert (Eb : b = (Some q, make_option_switch_code cases)) by congruence. subst b. cbn [fst snd applies].
    split; [| exists cases; auto]. rewrite <- (command_case root ps c ps' c' Hb Htc Hl Hl').
    replace q with (get_subcommand_path ps' c' ++ (if inherits c' then s "*" else [])); [reflexivity |].
    unfold q. rewrite quote_safe by (apply path_nonempty || eapply path_safe; eassumption).
    destruct (inherits c'); [reflexivity | apply app_nil_r].
Qed.
Lemma block_none ps c omit : located root ps c -> make_cmd_plus_option_switch_code omit ps c = Ok None ->
  generate_option_cases2 ps c = Ok [].
Proof.
  intros Hl H. unfold make_cmd_plus_option_switch_code in H. apply bind_ok in H as (cases & Hc & H).
  destruct cases as [| x cases]; [exact Hc |]. cbn [nonempty negb] in H. destruct omit; discriminate.
Qed.

Lemma find_option_some blocks cmd arg va : find_option blocks cmd arg = Some va ->
  exists b, In b blocks /\ applies (fst b) cmd /\ exists pat, In (pat, va) (snd b) /\ case_matches pat arg.
Proof.
  induction blocks as [| [q cl] blocks IH]; [discriminate |]. cbn [find_option]. intros H.
  assert (Hrec : find_option blocks cmd arg = Some va -> exists b, In b ((q, cl) :: blocks) /\
     applies (fst b) cmd /\ exists pat, In (pat, va) (snd b) /\ case_matches pat arg).
  { intros H'. destruct (IH H') as (b & Hin & R). exists b. split; [now right | exact R]. }
  destruct (match q with Some command => case_matchb command cmd | None => true end) eqn:Eq; [| now apply Hrec].
  destruct (first_clause cl arg) as [va' |] eqn:Ef; [| now apply Hrec].
  injection H as ->. apply first_some in Ef. exists (q, cl). split; [now left |]. split; [| exact Ef].
  cbn [fst]. destruct q as [q |]; [now apply case_matchb_iff | exact I].
Qed.
Lemma find_option_none blocks cmd arg : find_option blocks cmd arg = None ->
  forall b, In b blocks -> applies (fst b) cmd -> forall pat va, In (pat, va) (snd b) -> ~ case_matches pat arg.
Proof.
  induction blocks as [| [q cl] blocks IH]; [intros _ b [] |]. cbn [find_option]. intros H b Hin Hq.
  assert (Hrec : find_option blocks cmd arg = None /\ (applies q cmd -> first_clause cl arg = None)).
  { destruct (match q with Some command => case_matchb command cmd | None => true end) eqn:Eq.
    - destruct (first_clause cl arg); [discriminate | now split].
    - split; [exact H |]. destruct q as [q |]; [| discriminate]. intros Hq'. apply case_matchb_iff in Hq'. congruence. }
  destruct Hin as [<- | Hin]; [| now apply (IH (proj1 Hrec) b)]. cbn [fst snd] in *. now apply first_none, Hrec.
Qed.

Lemma find_some2 ps c w va : located root ps c -> find_option (s2_find sc) (get_subcommand_path ps c) w = Some va ->
  exists p, in_scope (ps, c) p /\ means2 p w va.
Proof.
  intros Hl H. apply find_option_some in H as (b & Hin & Hq & pat & Hpat & Hm).
  destruct script2_parts as (Hf & _). unfold make_find_option_code in Hf. apply bind_ok in Hf as (code & Hc & Hf).
  apply inr_inj in Hf. rewrite <- Hf in Hin. apply in_flat_map in Hin as (ob & Hin & Hob). destruct ob as [b' |]; [| destruct Hob].
  destruct Hob as [<- | []]. apply map_res_ok in Hc. destruct (Forall2_In_r _ _ _ _ Hc Hin) as ([ps' c'] & Hp & E).
  apply in_rev in Hp. apply visit_iff in Hp as (rs & Er & Hlp). rewrite app_nil_r in Er. subst rs.
  destruct (block_scope ps c ps' c' b' Hl Hlp E) as (Hsc' & cases & Hg & Ecl). exists (ps', c'). split; [now apply Hsc' |].
  rewrite Ecl in Hpat. now apply (proj1 (generated2 ps' c' cases Hlp Hg) pat).
Qed.
Lemma find_word ps c w p va : located root ps c -> in_scope (ps, c) p -> means2 p w va ->
  find_option (s2_find sc) (get_subcommand_path ps c) w = Some va.
Proof.
  intros Hl Hp Hm. destruct (find_option (s2_find sc) (get_subcommand_path ps c) w) as [va' |] eqn:E.
  - f_equal. apply find_some2 in E as (p' & Hp' & Hm'); [| exact Hl]. exact (means2_unique ps c p' p w va' va Hl Hp' Hp Hm' Hm).
  - exfalso. pose proof (in_scope_located _ _ _ _ Hl Hp) as Hlp. destruct p as [ps' c']. cbn [fst snd] in Hlp.
    destruct script2_parts as (Hf & _). unfold make_find_option_code in Hf. apply bind_ok in Hf as (code & Hc & Hf).
    apply inr_inj in Hf. apply map_res_ok in Hc.
    assert (Hin : In (ps', c') (rev (visit_commandlines [] root))).
    { apply in_rev. rewrite rev_involutive. apply visit_iff. exists ps'. rewrite app_nil_r. auto. }
    destruct (Forall2_In_l _ _ _ _ Hc Hin) as (ob & Hob & Eob). cbn beta iota in Eob. destruct ob as [b |].
    + destruct (block_scope ps c ps' c' b Hl Hlp Eob) as (Hsc' & cases & Hg & Ecl).
      destruct (proj2 (generated2 ps' c' cases Hlp Hg) w va Hm) as (pat & va' & H1 & H2). rewrite <- Ecl in H1.
      refine (find_option_none _ _ _ E b _ _ pat va' H1 H2); [| now apply Hsc'].
      rewrite <- Hf. apply in_flat_map. exists (Some b). split; [exact Hob | now left].
    + apply block_none in Eob; [| exact Hlp]. destruct (proj2 (generated2 ps' c' [] Hlp Eob) w va Hm) as (pat & va' & [] & _).
Qed.
Lemma find_nothing ps c w : located root ps c -> (forall o, ~ known (ps, c) w o) ->
  find_option (s2_find sc) (get_subcommand_path ps c) w = None.
Proof.
  intros Hl Hn. destruct (find_option (s2_find sc) (get_subcommand_path ps c) w) as [va |] eqn:E; [exfalso | reflexivity].
  apply find_some2 in E as (p & Hp & o & _ & Hs & _); [| exact Hl]. apply (Hn o). exists p. auto.
Qed.
Lemma find_known ps c w o v : located root ps c -> known (ps, c) w o -> opt_variable o = Ok v ->
  find_option (s2_find sc) (get_subcommand_path ps c) w = Some (v, args_of o).
Proof. intros Hl (p & Hp & Hs) Hv. apply (find_word ps c w p (v, args_of o) Hl Hp). exists o. auto. Qed.

(** ** Kinds of options *)
Lemma starts_dashes w : starts_with (s "--") w = true <-> exists t, w = DASH :: DASH :: t.
Proof.
  change (s "--") with [DASH; DASH].
  destruct w as [| a [| b w]]; cbn [starts_with].
  - split; [discriminate | intros (t & E); discriminate].
  - rewrite andb_false_r. split; [discriminate | intros (t & E); discriminate].
  - rewrite !andb_true_iff, !N.eqb_eq. split.
    + intros (<- & <- & _). now exists w.
    + intros (t & E). injection E as -> -> _. auto.
Qed.
Lemma option_exists ps c p o (f : opt -> bool) : located root ps c -> in_scope (ps, c) p -> In o (c_options (snd p)) -> f o = true ->
  existsb f (flat_map c_options (map snd (visit_commandlines [] root))) = true.
Proof.
  intros Hl Hp Ho Hf. apply existsb_exists. exists o. split; [| exact Hf]. apply in_flat_map. exists (snd p). split; [| exact Ho].
  apply in_map_iff. exists p. split; [reflexivity |]. destruct p as [ps' c']. apply visit_iff. exists ps'. rewrite app_nil_r.
  split; [reflexivity | exact (in_scope_located _ _ _ _ Hl Hp)].
Qed.
Lemma types_word ps c x o : located root ps c -> known (ps, c) x o -> 3 <= List.length x ->
  if starts_with (s "--") x then t_long (s2_types sc) = true else t_old (s2_types sc) = true.
Proof.
  intros Hl (p & Hp & Hs) H3. destruct script2_parts as (_ & _ & ->). unfold get_defined_option_types. cbn [t_long t_old].
  pose proof (in_scope_located _ _ _ _ Hl Hp) as Hlp. destruct p as [ps' c']. cbn [fst snd] in Hlp. pose proof (proj1 Hs) as Ho.
  assert (exists y t, In y (o_strings o) /\ y = x ++ t) as (y & t & Hy & E).
  { destruct Hs as [_ [Hx | (_ & _ & y & Hy & (t & E) & _)]]; [exists x, []; now rewrite app_nil_r | now exists y, t]. }
  pose proof (located_option_valid root ps' c' o Hb Hlp Ho y Hy) as Hv.
  destruct (spelling_dash root ps' c' o x Hb Hlp Hs) as (z & -> & _). destruct z as [| d [| e z]]; [cbn in H3; lia .. |].
  assert (Hy3 : 3 <= List.length y) by (rewrite E, app_length; cbn; lia).
  destruct (option_style y Hv) as (_ & Hlong & Hold).
  assert (Es : starts_with (s "--") (DASH :: d :: e :: z) = N.eqb d DASH).
  { apply eq_true_iff_eq. rewrite starts_dashes, N.eqb_eq. split; [intros (u & Eu); now injection Eu | intros ->; now eexists]. }
  rewrite Es. destruct (N.eqb_spec d DASH) as [-> | Hd].
  - apply (option_exists ps c (ps', c') o _ Hl Hp Ho). assert (In y (get_long_option_strings (o_strings o))); [| now destruct (get_long_option_strings _)].
    apply filter_In. split; [exact Hy |]. rewrite E. reflexivity.
  - apply (option_exists ps c (ps', c') o _ Hl Hp Ho). assert (In y (get_old_option_strings (o_strings o))); [| now destruct (get_old_option_strings _)].
    apply filter_In. split; [exact Hy |]. apply Hold. rewrite E. exists d, e, (z ++ t). auto.
Qed.
Lemma types_short ps c d o : located root ps c -> known (ps, c) [DASH; d] o ->
  t_short (s2_types sc) = true /\ (arg_kind o = ArgOptional -> t_short_optional (s2_types sc) = true).
Proof.
  intros Hl (p & Hp & Hs). destruct script2_parts as (_ & _ & ->). unfold get_defined_option_types. cbn [t_short t_short_optional].
  pose proof (in_scope_located _ _ _ _ Hl Hp) as Hlp. destruct p as [ps' c']. cbn [fst snd] in Hlp. pose proof (proj1 Hs) as Ho.
  assert (Hn : nonempty (get_short_option_strings (o_strings o)) = true).
  { assert (In [DASH; d] (get_short_option_strings (o_strings o))) by now apply (spelled_short root ps' c' o _ Hb Hlp Ho).
    now destruct (get_short_option_strings _). }
  split; [now apply (option_exists ps c (ps', c') o _ Hl Hp Ho) |]. intros K. apply (option_exists ps c (ps', c') o _ Hl Hp Ho).
  destruct (kind_cases o) as [(_ & K1 & K2) | [(K' & K1 & K2) | (K' & K1 & K2)]]; try congruence. now rewrite Hn, K1, K2.
Qed.

(** ** Characters *)
Lemma cluster_run2 ps c cs es w : located root ps c -> cluster (ps, c) cs es w ->
  exists f, run_chars2 (t_short_optional (s2_types sc)) (s2_find sc) (get_subcommand_path ps c) cs = (es, f) /\
    match w with Some v => f = LeaveWithNext v | None => f = Stay \/ f = Leave end.
Proof.
  intros Hl H.
  induction H as [| d o v cs es w Hk Ha Hv _ IH | d o v Hk Ha Hv | d o v t Hk Ha Hv Ht _ | d o v Hk Ha Hv]; cbn [run_chars2].
  - exists Stay. auto.
  - rewrite (find_known ps c _ o v Hl Hk Hv). destruct IH as (f & E & Hf). rewrite E. exists f. split; [| exact Hf].
    unfold args_of. destruct (kind_cases o) as [(K & K1 & K2) | [(K & K1 & K2) | (K & K1 & K2)]]; try congruence. rewrite K1, K2, andb_false_r. reflexivity.
  - rewrite (find_known ps c _ o v Hl Hk Hv). exists Leave. split; [| now right]. destruct (types_short ps c d o Hl Hk) as [_ T].
    unfold args_of. destruct (kind_cases o) as [(K & K1 & K2) | [(K & K1 & K2) | (K & K1 & K2)]]; try congruence. rewrite K1, (T K). reflexivity.
  - rewrite (find_known ps c _ o v Hl Hk Hv). exists Leave. split; [| now right]. destruct t as [| e t]; [now destruct Ht |].
    destruct (types_short ps c d o Hl Hk) as [_ T].
    unfold args_of. destruct (kind_cases o) as [(K & K1 & K2) | [(K & K1 & K2) | (K & K1 & K2)]]; try congruence; rewrite K1, ?K2, ?(T K); reflexivity.
  - rewrite (find_known ps c _ o v Hl Hk Hv). exists (LeaveWithNext v). split; [| reflexivity].
    unfold args_of. destruct (kind_cases o) as [(K & K1 & K2) | [(K & K1 & K2) | (K & K1 & K2)]]; try congruence. rewrite K1, K2. reflexivity.
Qed.

(** ** The loop *)

Definition go_word (v : str) (a : args) (cmd : str) (k : nat) (ws after : list str) : list event :=
  match a with
  | ArgsOne => match ws with
               | [] => [Append v (hd [] after)]
               | x :: ws' => Append v x :: loop2 sc cmd k ws' after
               end
  | _ => Append v OPT_ISSET :: loop2 sc cmd k ws after
  end.
Lemma loop2_word ps c k x o v ws after : located root ps c -> known (ps, c) x o -> 3 <= List.length x -> opt_variable o = Ok v ->
  loop2 sc (get_subcommand_path ps c) k (x :: ws) after = go_word v (args_of o) (get_subcommand_path ps c) k ws after.
Proof.
  intros Hl Hk H3 Hv. pose proof (types_word ps c x o Hl Hk H3) as T. pose proof (find_known ps c x o v Hl Hk Hv) as F.
  destruct Hk as (p & Hp & Hs). pose proof (in_scope_located _ _ _ _ Hl Hp) as Hlp.
  destruct (dashed_word root Hb p o x [] Hlp Hs H3) as [D E]. rewrite app_nil_r in D, E.
  destruct (spelling_before root (tame_strings root Hto) p o x [] Hlp Hs) as (_ & _ & _ & He).
  cbn [loop2]. rewrite E, D, He, F. destruct (starts_with (s "--") x); rewrite T; cbn [negb]; destruct (args_of o); reflexivity.
Qed.
Lemma loop2_attached ps c k x o v t ws after : located root ps c -> known (ps, c) x o -> 3 <= List.length x -> opt_variable o = Ok v ->
  loop2 sc (get_subcommand_path ps c) k ((x ++ EQ :: t) :: ws) after = Append v t :: loop2 sc (get_subcommand_path ps c) k ws after.
Proof.
  intros Hl Hk H3 Hv. pose proof (types_word ps c x o Hl Hk H3) as T. pose proof (find_known ps c x o v Hl Hk Hv) as F.
  destruct Hk as (p & Hp & Hs). pose proof (in_scope_located _ _ _ _ Hl Hp) as Hlp.
  destruct (dashed_word root Hb p o x (EQ :: t) Hlp Hs H3) as [D E].
  destruct (spelling_before root (tame_strings root Hto) p o x t Hlp Hs) as (B1 & B2 & _ & _).
  assert (He : has_equals (x ++ EQ :: t) = true).
  { unfold has_equals, memc. rewrite existsb_app. apply orb_true_iff. right. reflexivity. }
  assert (Es : starts_with (s "--") (x ++ EQ :: t) = starts_with (s "--") x).
  { apply eq_true_iff_eq. rewrite !starts_dashes. destruct x as [| a [| b x]]; [cbn in H3; lia .. |].
    split; intros (u & E'); injection E' as -> -> _; eexists; reflexivity. }
  cbn [loop2]. rewrite E, D, He, B1, B2, F, Es. destruct (starts_with (s "--") x); rewrite T; reflexivity.
Qed.


Lemma known_chars ps c x o d : located root ps c -> known (ps, c) x o -> In d x -> d <> EQ.
Proof.
  intros Hl (p & Hp & Hs) Hd ->. destruct p as [ps' c']. pose proof (in_scope_located _ _ _ _ Hl Hp) as Hlp.
  now apply (proj2 (spelling_chars root ps' c' o x (tame_strings root Hto) Hlp Hs)).
Qed.
Lemma known_length ps c x o : located root ps c -> known (ps, c) x o -> List.length x = 2 \/ 3 <= List.length x.
Proof.
  intros Hl (p & Hp & Hs). destruct p as [ps' c']. pose proof (in_scope_located _ _ _ _ Hl Hp) as Hlp.
  exact (spelling_length root ps' c' o x Hb Hlp Hs).
Qed.
Lemma before_behind w : has_equals w = true -> w = before_equals w ++ EQ :: behind_equals w.
Proof.
  unfold has_equals, memc. induction w as [| d w IH]; [discriminate |]. cbn [existsb before_equals behind_equals].
  destruct (N.eqb_spec d EQ) as [-> | Hd]; [reflexivity |]. intros H. cbn [app]. f_equal. apply IH.
  apply orb_prop in H as [H | H]; [apply N.eqb_eq in H; congruence | exact H].
Qed.
Lemma cluster_no_equals ps c cs es w : located root ps c -> cluster (ps, c) cs es w -> cs <> [] -> no_word (ps, c) (DASH :: cs) ->
  has_equals (DASH :: cs) = true -> forall o, ~ known (ps, c) (before_equals (DASH :: cs)) o.
Proof.
  intros Hl Hc Hne Hn He o Hk. apply before_behind in He. set (x := before_equals (DASH :: cs)) in *.
  destruct (known_length ps c x o Hl Hk) as [H2 | H3].
  - assert (exists d t, cs = d :: EQ :: t) as (d & t & ->).
    { destruct x as [| a [| b [| ? ?]]]; try discriminate H2. cbn [app] in He. injection He as _ ->. now exists b, (behind_equals (DASH :: cs)). }
    inversion Hc as [| ? o' ? ? ? ? Hk' _ _ Hc' E1 | | ? ? ? ? _ _ _ _ Hd |]; subst; [| now apply Hd].
    assert (exists o2, known (ps, c) [DASH; EQ] o2) as (o2 & Hk2) by (inversion Hc'; subst; eauto).
    apply (known_chars ps c _ o2 EQ Hl Hk2); [right; now left | reflexivity].
  - apply (proj2 (Hn x o Hk H3)). exists (behind_equals (DASH :: cs)). rewrite <- app_assoc. exact He.
Qed.

Lemma loop2_cluster ps c k cs es w ws after : located root ps c -> cluster (ps, c) cs es w -> cs <> [] -> no_word (ps, c) (DASH :: cs) ->
  loop2 sc (get_subcommand_path ps c) k ((DASH :: cs) :: ws) after =
  es ++ match w with
        | None => loop2 sc (get_subcommand_path ps c) k ws after
        | Some v => match ws with
                    | [] => [Append v (hd [] after)]
                    | x :: ws' => Append v x :: loop2 sc (get_subcommand_path ps c) k ws' after
                    end
        end.
Proof.
  intros Hl Hc Hne Hn. destruct (dashed_cluster root Hb ps c cs es w Hl Hc Hne) as [D E].
  assert (exists d o cs', cs = d :: cs' /\ known (ps, c) [DASH; d] o) as (d & o & cs' & Ecs & Hk).
  { destruct Hc; [now destruct Hne | ..]; eauto. }
  destruct (types_short ps c d o Hl Hk) as [Ts _].
  assert (Es : starts_with (s "--") (DASH :: cs) = false).
  { destruct (starts_with (s "--") (DASH :: cs)) eqn:Es; [exfalso | reflexivity]. apply starts_dashes in Es as (t & Es).
    injection Es as Es. rewrite Ecs in Es. injection Es as -> _. destruct Hk as (p & Hp & Hs). destruct p as [ps' c'].
    pose proof (in_scope_located _ _ _ _ Hl Hp) as Hlp. destruct (spelling_dash root ps' c' o _ Hb Hlp Hs) as (y & Ey & _ & Hy).
    injection Ey as <-. now apply Hy. }
  destruct (cluster_run2 ps c cs es w Hl Hc) as (f & Ef & Hf).
  assert (Hchars : es ++ match f with
        | LeaveWithNext v => match ws with [] => [Append v (hd [] after)]
                             | x :: ws' => Append v x :: loop2 sc (get_subcommand_path ps c) k ws' after end
        | _ => loop2 sc (get_subcommand_path ps c) k ws after end =
    es ++ match w with
        | None => loop2 sc (get_subcommand_path ps c) k ws after
        | Some v => match ws with
                    | [] => [Append v (hd [] after)]
                    | x :: ws' => Append v x :: loop2 sc (get_subcommand_path ps c) k ws' after
                    end
        end).
  { destruct w as [v |]; [now rewrite Hf | destruct Hf as [-> | ->]; reflexivity]. }
  cbn [loop2]. rewrite E, Es, D, Ts. cbn [tl]. rewrite Ef, Hchars. destruct (t_old (s2_types sc)); [| reflexivity].
  replace (if has_equals (DASH :: cs) then find_option (s2_find sc) (get_subcommand_path ps c) (before_equals (DASH :: cs)) else None)
    with (@None (str * args)).
  2: { destruct (has_equals (DASH :: cs)) eqn:He; [| reflexivity]. symmetry. apply find_nothing; [exact Hl |].
       eapply cluster_no_equals; eassumption. }
  destruct cs' as [| e cs'].
  - (* a single character is found as a whole word *)
    subst cs. inversion Hc as [| ? o' v ? es' w' Hk' Ha Hv Hc' | ? o' v Hk' Ha Hv | ? o' v t Hk' Ha Hv Ht | ? o' v Hk' Ha Hv]; subst;
      rewrite (find_known ps c _ o' v Hl Hk' Hv); unfold args_of;
      destruct (kind_cases o') as [(K & K1 & K2) | [(K & K1 & K2) | (K & K1 & K2)]]; try congruence; rewrite K1, ?K2; try reflexivity.
    inversion Hc'; subst. reflexivity.
  - rewrite (find_nothing ps c (DASH :: cs) Hl); [reflexivity |]. intros o' Hk'. subst cs.
    apply (proj1 (Hn (DASH :: d :: e :: cs') o' Hk' ltac:(cbn; lia))). reflexivity.
Qed.

Definition keep (l : list event) : list event :=
  if t_positionals (s2_types sc) then l else filter (fun e => negb (is_positional e)) l.
Lemma keep_app a b : keep (a ++ b) = keep a ++ keep b.
Proof. unfold keep. destruct (t_positionals _); [reflexivity | apply filter_app]. Qed.
Lemma keep_append v x l : keep (Append v x :: l) = Append v x :: keep l.
Proof. unfold keep. now destruct (t_positionals _). Qed.
Lemma keep_cluster ps c cs es w : cluster (ps, c) cs es w -> keep es = es.
Proof. induction 1; rewrite ?keep_append, ?IHcluster; try reflexivity; unfold keep; now destruct (t_positionals _). Qed.
Lemma filter_positionals ws : filter (fun e => negb (is_positional e)) (map Positional ws) = [].
Proof. now induction ws. Qed.

Theorem understood2 here n ws es e : usage here n ws es e -> located root (fst here) (snd here) ->
  forall k w behind res, (t_positionals (s2_types sc) = true -> Z.of_nat k = (Z.of_nat n + sum (map consumed (fst here)))%Z) ->
  rest_events e w behind res ->
  loop2 sc (get_subcommand_path (fst here) (snd here)) k ws (w :: behind) = keep (es ++ res).
Proof.
  destruct script2_parts as (_ & Hsw & Ht).
  intros H. induction H as [here n | here n ws | here n x o v ws es e Hk H3 Ha Hv _ IH | here n x o v t ws es e Hk H3 Ha Hv _ IH
    | here n x o v t ws es e Hk H3 Ha Hv _ IH | here n x o v Hk H3 Ha Hv | here n cs es0 ws es e Hne Hc Hn _ IH
    | here n cs es0 v t ws es e Hc Hn _ IH | here n cs es0 v Hc Hn | ps c n w0 ws es e Ho Hn _ IH | ps c n sub w0 ws es e Ho Hn Hs Hw _ IH];
    intros Hl k w behind res Hcount Hres.
  - cbn [loop2 app]. unfold at_cursor, keep. cbn [hd]. destruct Hres as [[H ->] | [H ->]].
    + apply dashed_option_like in H. rewrite H. now destruct (t_positionals _).
    + destruct (dashed w) eqn:D; [exfalso; apply H; now apply dashed_option_like |]. now destruct (t_positionals _).
  - cbn [loop2]. replace (str_eqb (s "--") (s "--")) with true by reflexivity. cbn [rest_events] in Hres. subst res. unfold keep.
    change (EndOfOptions :: map Positional ws) with ([EndOfOptions] ++ map Positional ws). rewrite <- app_assoc, <- map_app.
    destruct (t_positionals _); [reflexivity |]. cbn [app filter is_positional negb]. now rewrite filter_positionals.
  - destruct here as [ps c]. cbn [fst snd] in *. rewrite (loop2_word ps c k x o v ws _ Hl Hk H3 Hv). unfold go_word, args_of.
    destruct (kind_cases o) as [(K & K1 & K2) | [(K & K1 & K2) | (K & K1 & K2)]]; try congruence; rewrite K1, ?K2; cbn [app]; rewrite keep_append;
      f_equal; now apply IH.
  - destruct here as [ps c]. cbn [fst snd] in *. rewrite (loop2_attached ps c k x o v t ws _ Hl Hk H3 Hv). cbn [app]. rewrite keep_append.
    f_equal. now apply IH.
  - destruct here as [ps c]. cbn [fst snd] in *. rewrite (loop2_word ps c k x o v (t :: ws) _ Hl Hk H3 Hv). unfold go_word, args_of.
    destruct (kind_cases o) as [(K & K1 & K2) | [(K & K1 & K2) | (K & K1 & K2)]]; try congruence; rewrite K1, ?K2; cbn [app]; rewrite keep_append.
    f_equal; now apply IH.
  - destruct here as [ps c]. cbn [fst snd] in *. rewrite (loop2_word ps c k x o v [] _ Hl Hk H3 Hv). unfold go_word, args_of.
    destruct (kind_cases o) as [(K & K1 & K2) | [(K & K1 & K2) | (K & K1 & K2)]]; try congruence; rewrite K1, ?K2.
    cbn [rest_events] in Hres. subst res. cbn [app hd]. rewrite keep_append. unfold keep. now destruct (t_positionals _).
  - destruct here as [ps c]. cbn [fst snd] in *. rewrite (loop2_cluster ps c k cs es0 None ws _ Hl Hc Hne Hn).
    rewrite <- app_assoc, keep_app, (keep_cluster _ _ _ _ _ Hc). f_equal. now apply IH.
  - destruct here as [ps c]. cbn [fst snd] in *. assert (Hne : cs <> []) by (intros ->; inversion Hc).
    rewrite (loop2_cluster ps c k cs es0 _ (t :: ws) _ Hl Hc Hne Hn).
    rewrite <- app_assoc, keep_app, (keep_cluster _ _ _ _ _ Hc). f_equal. cbn [app]. rewrite keep_append. f_equal. now apply IH.
  - destruct here as [ps c]. cbn [fst snd] in *. assert (Hne : cs <> []) by (intros ->; inversion Hc).
    rewrite (loop2_cluster ps c k cs es0 _ [] _ Hl Hc Hne Hn). cbn [rest_events] in Hres. subst res. cbn [hd].
    rewrite keep_app, (keep_cluster _ _ _ _ _ Hc). f_equal. rewrite keep_append. unfold keep. now destruct (t_positionals _).
  - cbn [fst snd] in *. assert (D : dashed w0 = false).
    { destruct (dashed w0) eqn:D; [exfalso; apply Ho; now apply dashed_option_like | reflexivity]. }
    assert (Es : starts_with (s "--") w0 = false).
    { destruct (starts_with (s "--") w0) eqn:Es; [exfalso | reflexivity]. apply starts_dashes in Es as (t & ->). discriminate D. }
    cbn [loop2]. rewrite D, Es. replace (str_eqb w0 (s "--")) with false.
    2: { symmetry. destruct (str_eqb_spec w0 (s "--")) as [-> | _]; [discriminate D | reflexivity]. }
    cbn [app]. destruct (t_positionals (s2_types sc)) eqn:Tp.
    + rewrite (switch_word root Hb Htc _ Hsw ps c n k w0 Hl (Hcount eq_refl) Hn). rewrite IH with (res := res); [| exact Hl | intros _; specialize (Hcount eq_refl); lia | exact Hres].
      unfold keep. now rewrite Tp.
    + rewrite IH with (res := res); [| exact Hl | discriminate | exact Hres]. unfold keep. now rewrite Tp.
  - cbn [fst snd] in *. assert (D : dashed w0 = false).
    { destruct (dashed w0) eqn:D; [exfalso; apply Ho; now apply dashed_option_like | reflexivity]. }
    assert (Es : starts_with (s "--") w0 = false).
    { destruct (starts_with (s "--") w0) eqn:Es; [exfalso | reflexivity]. apply starts_dashes in Es as (t & ->). discriminate D. }
    assert (Tp : t_positionals (s2_types sc) = true).
    { rewrite Ht. cbn [t_positionals get_defined_option_types]. apply existsb_exists. exists c. split.
      - apply in_map_iff. exists (ps, c). split; [reflexivity |]. apply visit_iff. exists ps. now rewrite app_nil_r.
      - apply orb_true_iff. right. now destruct (subs c). }
    cbn [loop2]. rewrite D, Es, Tp. replace (str_eqb w0 (s "--")) with false.
    2: { symmetry. destruct (str_eqb_spec w0 (s "--")) as [-> | _]; [discriminate D | reflexivity]. }
    cbn [app]. rewrite (switch_command root Hb Htc _ Hsw ps c n k w0 sub Hl (Hcount Tp) Hn Hs Hw).
    rewrite IH with (res := res); [| now constructor | | exact Hres].
    + unfold keep. now rewrite Tp.
    + intros _. specialize (Hcount Tp). unfold sum in *. cbn [fst map fold_right]. lia.
Qed.

Lemma positionals_iff : t_positionals (s2_types sc) = true <-> has_positionals root.
Proof.
  destruct script2_parts as (_ & _ & ->). cbn [t_positionals get_defined_option_types]. rewrite existsb_exists. split.
  - intros (c & Hc & H). apply in_map_iff in Hc as ([ps c'] & E & Hp). cbn [snd] in E. subst c'.
    apply visit_iff in Hp as (rs & Er & Hl). rewrite app_nil_r in Er. subst rs. exists ps, c. split; [exact Hl |].
    apply orb_true_iff in H as [H | H]; [left | right]; intros E; now rewrite E in H.
  - intros (ps & c & Hl & H). exists c. split; [apply in_map_iff; exists (ps, c); split; [reflexivity |]; apply visit_iff; exists ps; now rewrite app_nil_r |].
    apply orb_true_iff. destruct H as [H | H]; [left; now destruct (c_positionals c) | right; now destruct (subs c)].
Qed.
End Second.
