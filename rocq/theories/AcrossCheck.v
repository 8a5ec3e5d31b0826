(** * Deciding the conditions on definitions for both shells, for the examples beside the theorems. *)
From Coq Require Import Permutation.
From Verif Require Import Base Value When Shell StrUtils SpecShell Cli SpecCli CliMore BashUtils PatternMore SpecGlob SpecWhen BashParser SpecParser ParserPaths ParserProofs
  ParserCheck SpecOffered BashOffers SpecBash BashStrings BashArguments BashDispatch BashDashes BashWhole BashCheck
  FishUtils SpecFish FishConditions FishRuntime SpecFishOffers PropertiesFish SpecAcross.
Open Scope list_scope.

Definition same_variable_b (a b : opt) : bool :=
  match opt_variable a, opt_variable b with Ok v, Ok w => str_eqb v w | _, _ => false end.
Definition subset (a b : list str) : bool := forallb (fun x => mems x b) a.
Definition apart_check (here : place) : bool :=
  let os := flat_map c_options (snd here :: fst here) in
  forallb (fun o => match opt_variable o with Ok _ => true | Err _ => false end) os &&
  forallb (fun a => forallb (fun b =>
    negb (same_variable_b a b || overlap (o_strings a) (o_strings b)) ||
    (same_variable_b a b && subset (o_strings a) (o_strings b) && subset (o_strings b) (o_strings a))) os) os.
Lemma apart_ok here : apart_check here = true -> apart here.
Proof.
  intros H d1 d2 o1 o2 Hd1 Hd2 Ho1 Ho2 K. unfold apart_check in H. cbv zeta in H. apply andb_prop in H as [H0 H].
  assert (G : forall d o, In d (snd here :: fst here) -> In o (c_options d) -> In o (flat_map c_options (snd here :: fst here))) by (intros d o Hd Ho; apply in_flat_map; eauto).
  rewrite forallb_forall in H0, H. pose proof (H0 o1 (G d1 o1 Hd1 Ho1)) as E1. pose proof (H0 o2 (G d2 o2 Hd2 Ho2)) as E2. cbn beta in E1, E2.
  specialize (H o1 (G d1 o1 Hd1 Ho1)). cbn beta in H. rewrite forallb_forall in H. specialize (H o2 (G d2 o2 Hd2 Ho2)). cbn beta in H.
  unfold same_variable_b in H. destruct (opt_variable o1) as [er1 | v1]; [discriminate E1 |]. destruct (opt_variable o2) as [er2 | v2]; [discriminate E2 |].
  assert (T : str_eqb v1 v2 || overlap (o_strings o1) (o_strings o2) = true).
  { destruct K as [K | (x & X1 & X2)]; [apply inr_inj in K; subst v2; now rewrite str_eqb_refl | rewrite (overlap_In _ _ x X1 X2); apply orb_true_r]. }
  rewrite T in H. cbn [negb orb] in H. rewrite !andb_true_iff in H. destruct H as [[Hv H1] H2]. apply str_eqb_eq in Hv. subst v2.
  unfold subset in H1, H2. rewrite forallb_forall in H1, H2. split; [reflexivity |]. intros x. split; intros Hx; [apply H1 in Hx | apply H2 in Hx]; now apply mems_In.
Qed.

(** ** Conditions *)

Definition closed_check (c : cmd) (os : list str) : bool :=
  forallb (fun o => negb (overlap os (o_strings o)) || subset (o_strings o) os) (c_options c).
Lemma closed_ok c os : closed_check c os = true -> closed c os.
Proof.
  intros H o x (Ho & y & Hy & Hyo) Hx. unfold closed_check in H. rewrite forallb_forall in H. specialize (H o Ho). rewrite (overlap_In _ _ y Hy Hyo) in H.
  cbn [negb orb] in H. unfold subset in H. rewrite forallb_forall in H. apply mems_In. now apply H.
Qed.
Definition is_required (o : opt) : bool := match arg_kind o with ArgRequired => true | _ => false end.
Definition about_check (c : cmd) (os : list str) (any : bool) : bool :=
  closed_check c os && forallb (fun o => negb (overlap os (o_strings o)) || is_required o) (c_options c) &&
  (any || pairwise (fun a b => overlap os (o_strings a) && overlap os (o_strings b)) (c_options c)).
Lemma about_ok c os any : about_check c os any = true -> about_values c os any.
Proof.
  intros H. unfold about_check in H. rewrite !andb_true_iff in H. destruct H as [[H1 H2] H3]. split; [now apply closed_ok |]. split.
  - intros o (Ho & y & Hy & Hyo). rewrite forallb_forall in H2. specialize (H2 o Ho). rewrite (overlap_In _ _ y Hy Hyo) in H2. unfold is_required in H2.
    now destruct (arg_kind o).
  - apply orb_prop in H3 as [-> | H3]; [now left | right]. intros o1 o2 (Ho1 & y1 & Hy1 & Hx1) (Ho2 & y2 & Hy2 & Hx2).
    apply (pairwise_eq _ _ H3); try assumption. now rewrite (overlap_In _ _ y1 Hy1 Hx1), (overlap_In _ _ y2 Hy2 Hx2).
Qed.
Definition agreeing_check (c : cmd) (t : wobj) : bool :=
  match t with
  | HasOption os => closed_check c os
  | OptionIs os _ _ any | OptionMatch os _ _ any => about_check c os any
  | PositionalCount _ _ => true
  | PositionalContains _ n values => (1 <=? n)%Z && forallb (fun x => nonempty x) values
  end.
Fixpoint nodup_check (l : list str) : bool := match l with [] => true | x :: l => negb (mems x l) && nodup_check l end.
Lemma nodup_ok l : nodup_check l = true -> NoDup l.
Proof.
  induction l as [| x l IH]; [constructor |]. cbn [nodup_check]. intros H. apply andb_prop in H as [H1 H2]. constructor; [| now apply IH].
  apply negb_true_iff in H1. now apply mems_false.
Qed.
Definition sound_check (t : wobj) : bool :=
  match t with
  | OptionIs os _ _ _ | OptionMatch os _ _ _ | HasOption os => forallb is_valid_option_string os
  | PositionalCount op _ => mems op [s "=="; s "!="; s "<="; s ">="; s "<"; s ">"]
  | PositionalContains ic n values => (1 <=? n)%Z && nodup_check (if ic then map lower values else values)
  end.
Definition clean_text (x : str) : bool := forallb (fun c => negb (N.eqb c BS) && negb (N.eqb c BTICK)) x.
Definition conditions_check (ere : str -> bool) (root : cmd) : bool :=
  forallb (fun '(c, e) =>
    match parse_when ere e with
    | Ok toks => forallb (fun tok => match tok with WObj t => agreeing_check c t && sound_check t && forallb clean_text (test_arguments t) | _ => true end) toks
    | Err _ => true
    end) (whens root).
Lemma conditions_ok ere root : conditions_check ere root = true -> forall ps c, located root ps c -> agreeing_conditions ere c.
Proof.
  intros H ps c Hl o e cond t Ho He Hp Ht. unfold conditions_check in H. rewrite forallb_forall in H.
  assert (Hin : In (c, e) (whens root)) by (apply (whens_In root ps c e Hl); left; eauto). specialize (H _ Hin). cbn beta iota in H. rewrite Hp in H.
  rewrite forallb_forall in H. specialize (H (wtok_of (STest t)) (in_map wtok_of _ _ Ht)). cbn [wtok_of] in H. rewrite !andb_true_iff in H. destruct H as [[H1 H2] H3].
  split; [| split; [| now apply clean_check]].
  - destruct t as [os ws ic any | os r ic any | os | op n | ic n ws]; cbn [agreeing_check agreeing_test] in *; try (now apply about_ok); [now apply closed_ok | exact I |].
    apply andb_prop in H1 as [H1 H4]. split; [lia |]. rewrite forallb_forall in H4. intros K. now apply H4 in K.
  - destruct t as [os ws ic any | os r ic any | os | op n | ic n ws]; cbn [sound_check sound_test] in *; try (now apply forallb_forall); [now apply mems_In |].
    apply andb_prop in H2 as [H2 H4]. split; [lia | now apply nodup_ok].
Qed.

(** ** Words *)

Definition unabbreviated_check (root : cmd) (ws : list str) : bool :=
  forallb (fun w => forallb (fun here => forallb (fun '(p, o) => forallb (fun x =>
    negb (Nat.leb 3 (List.length x)) || negb (str_eqb w x || starts_with (x ++ [EQ]) w) || mems x (o_strings o)) (spellings p o)) (scope_options here))
    (visit_commandlines [] root)) ws.
Lemma unabbreviated_ok root ws : unabbreviated_check root ws = true -> unabbreviated root ws.
Proof.
  intros H w rs c x o Hw Hl (p & Hp & Hs) Hx K. unfold unabbreviated_check in H. rewrite forallb_forall in H. specialize (H w Hw).
  rewrite forallb_forall in H. specialize (H _ (located_visit root rs c Hl)). rewrite forallb_forall in H. specialize (H _ (scope_options_In (rs, c) p o x Hp Hs)).
  cbn beta iota in H. rewrite forallb_forall in H. specialize (H x (spellings_In p o x Hs)). apply Nat.leb_le in Hx. rewrite Hx in H. cbn [negb orb] in H.
  apply orb_prop in H as [H | H]; [| now apply mems_In]. exfalso. apply negb_true_iff, orb_false_iff in H as [H1 H2]. destruct K as [-> | (t & ->)].
  - now rewrite str_eqb_refl in H1.
  - assert (E : starts_with (x ++ [EQ]) ((x ++ [EQ]) ++ t) = true); [| congruence]. clear. induction (x ++ [EQ]) as [| c l IH]; [reflexivity |]. cbn. now rewrite N.eqb_refl.
Qed.

(** ** fish *)

Definition dashes_check (x : str) : bool :=
  match x with a :: b :: y => N.eqb a DASH && (negb (N.eqb b DASH) || match y with d :: _ => negb (N.eqb d DASH) | [] => false end) | _ => false end.
Lemma dashes_check_ok x : dashes_check x = true -> dashes_ok x.
Proof.
  destruct x as [| a [| b y]]; try discriminate. cbn [dashes_check]. intros H.
  apply andb_true_iff in H as [Ha H]. apply N.eqb_eq in Ha as ->. destruct (N.eqb_spec b DASH) as [-> | Hn]; [| exists b, y; auto].
  destruct y as [| d y]; [discriminate |]. cbn [negb orb] in H. exists d, y. split; [| now right]. intros ->. now rewrite N.eqb_refl in H.
Qed.
Fixpoint names_check (ps : list cmd) (c : cmd) : bool :=
  match ps with
  | [] => true
  | p :: ps' => nonempty (c_prog c) && negb (mems (c_prog c) (c_aliases c)) && forallb clean_text (c_prog c :: c_aliases c) && names_check ps' p
  end.
Lemma names_check_ok ps : forall c, names_check ps c = true -> sound_names ps c.
Proof.
  induction ps as [| p ps IH]; intros c H; [exact I |]. cbn [names_check] in H. rewrite !andb_true_iff in H. destruct H as [[[H1 H2] H3] H4].
  split; [now destruct (c_prog c) |]. split; [now apply mems_false, negb_true_iff |]. split; [apply clean_check; exact H3 | now apply IH].
Qed.
Definition help_check (h : option str) : bool := match h with Some x => clean_text x | None => true end.
Lemma help_check_ok h : help_check h = true -> clean_help h.
Proof. intros H x ->. apply clean_check. cbn [forallb]. now rewrite andb_true_r. Qed.
Definition scope_check (root : cmd) : bool :=
  forallb (fun '(ps, c) =>
    names_check ps c && forallb (fun d => forallb (fun o => forallb clean_text (o_strings o)) (c_options d)) (c :: ps) &&
    forallb (fun o => forallb dashes_check (o_strings o) && help_check (o_help o)) (c_options c) && forallb (fun p => help_check (p_help p)) (c_positionals c) &&
    (negb (is_some (c_subcommands c)) || passes_onb c || match c_positionals c with [] => true | _ => false end) &&
    forallb (fun '(_, d) => forallb (fun p => negb (FishUtils.is_command_arg (p_complete p))) (c_positionals d)) (visit_commandlines [] c))
  (visit_commandlines [] root).
Lemma scope_check_ok root completer : (forall l, clean (completer l)) -> scope_check root = true -> forall ps c, located root ps c -> clean_scope completer ps c.
Proof.
  intros Hc H ps c Hl. unfold scope_check in H. rewrite forallb_forall in H. specialize (H _ (located_visit root ps c Hl)). cbn beta iota in H.
  rewrite !andb_true_iff in H. destruct H as [[[[[H1 H2] H3] H4] H5] H6]. rewrite forallb_forall in H3, H4. constructor.
  - now apply names_check_ok.
  - intros d o Hd Ho. rewrite forallb_forall in H2. specialize (H2 d Hd). rewrite forallb_forall in H2. apply clean_check. now apply H2.
  - intros o Ho. apply Forall_forall. intros x Hx. specialize (H3 o Ho). apply andb_prop in H3 as [H3 _]. rewrite forallb_forall in H3. now apply dashes_check_ok, H3.
  - split; [intros o Ho | intros p Hp]; apply help_check_ok; [specialize (H3 o Ho); now apply andb_prop in H3 as [_ H3] | now apply H4].
  - exact Hc.
  - intros Hs Hp. apply orb_prop in H5 as [H5 | H5]; [apply orb_prop in H5 as [H5 | H5] |].
    + now destruct (c_subcommands c).
    + now apply passes_onb_iff in H5.
    + now destruct (c_positionals c).
  - intros rs d p Hd Hp. rewrite forallb_forall in H6. specialize (H6 _ (located_visit c rs d Hd)). cbn beta iota in H6. rewrite forallb_forall in H6. specialize (H6 p Hp).
    now apply negb_true_iff in H6.
Qed.

Definition script_check (e : env) (ere : str -> bool) (completer : list value -> list str) (st inline : bool) (root : cmd) : bool :=
  forallb (fun '(ps, c) =>
    match (do ds <- definitions ere completer ps c; map_res (get_complete_cmd st) ds) with
    | Ok cmds => is_some (completes e (generator_block inline cmds))
    | Err _ => false
    end) (visit_commandlines [] root).
Lemma script_check_ok e ere completer st inline root : script_check e ere completer st inline root = true ->
  forall ps c, located root ps c -> exists argss, fish_script e ere completer st inline (ps, c) argss.
Proof.
  intros H ps c Hl. unfold script_check in H. rewrite forallb_forall in H. specialize (H _ (located_visit root ps c Hl)). cbn beta iota in H.
  destruct (definitions ere completer ps c) as [er | ds] eqn:Ed; [discriminate |]. cbn [bind] in H.
  destruct (map_res (get_complete_cmd st) ds) as [er | cmds] eqn:Ec; [discriminate |].
  destruct (completes e (generator_block inline cmds)) as [argss |] eqn:Ea; [| discriminate]. exists argss, ds, cmds. split; [exact Ed |]. split; [| exact Ea].
  now apply map_res_ok.
Qed.
