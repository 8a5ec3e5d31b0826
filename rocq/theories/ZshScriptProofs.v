(** * The functions of a zsh script hand over to the function of the command that was typed. *)
From Verif Require Import FishRuntime FishQuery ZshQuery ZshQueryMain ParserProofs Base PyStr Shell ShellProofs SpecShell SpecZsh ZshReading SpecChoices ChoicesZsh Cli SpecCli CliProofs
  Helpers HelpersMore GenerationProofs ShippedProofs Zsh ZshScript SpecZshScript When.
Open Scope list_scope.

Lemma to_bar_end x d r : d = RPAR \/ d = PIPE -> forall m w l, zread m w x = Some l -> to_bar m (x ++ d :: r) = Some (x, d, r).
Proof.
  intros Hd. assert (Ed : N.eqb d RPAR || N.eqb d PIPE = true) by (destruct Hd as [-> | ->]; reflexivity).
  induction x as [| c x IH]; intros m w l H.
  - cbn [zread] in H. destruct m; try discriminate. cbn [app to_bar]. now rewrite Ed.
  - cbn [app to_bar zread] in *. destruct m; cbn [zquoting].
    + assert (N.eqb c RPAR || N.eqb c PIPE = false) as ->.
      { destruct (N.eqb_spec c RPAR) as [-> | _]; [discriminate H |]. destruct (N.eqb_spec c PIPE) as [-> | _]; [discriminate H | reflexivity]. }
      destruct (N.eqb c SQ); [now rewrite (IH _ _ _ H) |]. destruct (N.eqb c DQ); [now rewrite (IH _ _ _ H) |].
      destruct (N.eqb c BS); [now rewrite (IH _ _ _ H) |].
      destruct (memc c [SP; TAB; LF]).
      * destruct (zread ZPlain None x) eqn:E; [now rewrite (IH _ _ _ E) |]. destruct w; discriminate H.
      * destruct (zsh_special c); [discriminate |]. destruct (N.eqb c EQ && negb (is_some w)); [discriminate |]. now rewrite (IH _ _ _ H).
    + destruct (N.eqb c LF); now rewrite (IH _ _ _ H).
    + destruct (N.eqb c SQ); now rewrite (IH _ _ _ H).
    + destruct (N.eqb c DQ); [now rewrite (IH _ _ _ H) |]. destruct (N.eqb c BS); [now rewrite (IH _ _ _ H) |].
      destruct (N.eqb c DOLLAR || N.eqb c BTICK); [discriminate |]. now rewrite (IH _ _ _ H).
    + destruct (N.eqb c LF); [now rewrite (IH _ _ _ H) |]. destruct (memc c [DOLLAR; BTICK; DQ; BS]); now rewrite (IH _ _ _ H).
Qed.
Lemma one_word t v : zword t v -> zwords t [v].
Proof.
  intros H. rewrite <- (app_nil_r t). apply (zw_cons [] t v [] []); [intros ? [] | exact H | exact I | apply zw_nil; intros ? []].
Qed.
Lemma bar_word t v d r : zword t v -> d = RPAR \/ d = PIPE -> to_bar ZPlain (t ++ d :: r) = Some (t, d, r) /\ zsh_array t = Some [v].
Proof.
  intros H Hd. apply one_word in H. split; [| now apply zwords_array]. apply zwords_read in H as (l & E & _). now apply (to_bar_end t d r Hd _ _ _ E).
Qed.
Lemma patterns_read ws r : ws <> [] -> (forall w, In w ws -> hd 0%N w <> EQ) -> reads_patterns (join [PIPE] (map quote ws) ++ s ")" ++ r) ws r.
Proof.
  induction ws as [| w ws IH]; intros Hn H; [congruence |]. assert (Hw : zword (quote w) w) by (apply zword_quote, H; now left).
  destruct ws as [| w' ws].
  - cbn [map join]. change (s ")" ++ r) with (RPAR :: r). destruct (bar_word _ _ RPAR r Hw (or_introl eq_refl)) as [E1 E2]. exact (rp_last _ _ _ _ E1 E2).
  - change (join [PIPE] (map quote (w :: w' :: ws))) with (quote w ++ [PIPE] ++ join [PIPE] (map quote (w' :: ws))). rewrite <- !app_assoc.
    change ([PIPE] ++ join [PIPE] (map quote (w' :: ws)) ++ s ")" ++ r) with (PIPE :: (join [PIPE] (map quote (w' :: ws)) ++ s ")" ++ r)).
    destruct (bar_word _ _ PIPE (join [PIPE] (map quote (w' :: ws)) ++ s ")" ++ r) Hw (or_intror eq_refl)) as [E1 E2].
    apply (rp_more _ _ _ _ _ _ E1 E2), IH; [discriminate | intros v Hv; apply H; now right].
Qed.
Lemma branches_read branches : (forall ws f, In (ws, f) branches -> ws <> [] /\ (forall w, In w ws -> hd 0%N w <> EQ) /\ forallb is_word f = true /\ f <> []) ->
  reads_branches (flat_map (fun k => s "  " ++ join [PIPE] (map quote (fst k)) ++ s ") " ++ snd k ++ s "; return $?;;" ++ [LF]) branches ++ s "esac") branches.
Proof.
  induction branches as [| [ws f] l IH]; intros H; [apply rb_end |]. cbn [flat_map fst snd]. destruct (H ws f (or_introl eq_refl)) as (H1 & H2 & H3 & H4).
  rewrite <- !app_assoc. eapply rb_branch; [| exact H3 | exact H4 | apply IH; intros; apply H; now right].
  change (s ") " ++ ?x) with (s ")" ++ s " " ++ x). now apply patterns_read.
Qed.
Lemma init_read query ps c : reads_init query (init_text query ps c) (get_query_option_strings ps c true).
Proof.
  exists (quote (get_query_option_strings ps c true)). split; [reflexivity |]. apply zwords_array, one_word.
  apply zword_app; [| apply reads_quote]. exact (zword_quote (s "opts=") ltac:(discriminate)).
Qed.

Section Script.
Context (prefix query : str) (root : cmd).
Notation fname ps c := (make_completion_funcname prefix ps c []).
Context (Hprefix : exists d, In d prefix /\ is_word d = true) (Hnames : plain_names root).

Lemma fname_word ps c : forallb is_word (fname ps c) = true.
Proof. unfold make_completion_funcname. rewrite app_nil_r. apply make_identifier_word. Qed.
Lemma fname_nonempty ps c : fname ps c <> [].
Proof.
  unfold make_completion_funcname. rewrite app_nil_r. destruct Hprefix as (d & Hd & Hw). apply (make_identifier_nonempty _ d); [| now left].
  rewrite get_parents_rev. destruct (map c_prog (rev ps ++ [c])) as [| x l] eqn:E.
  { apply (f_equal (@List.length str)) in E. rewrite map_length, app_length in E. cbn in E. lia. }
  cbn [set_first]. destruct l; cbn [join]; [exact Hd | apply in_or_app; now left].
Qed.

Definition calls_of (ps : list cmd) (c : cmd) (l : list cmd) : res (list (list str * str)) :=
  map_res (fun sub => do names <- get_all_command_variations sub (Some c); Ok (names, fname (c :: ps) sub)) l.
Lemma calls_total ps c l : (forall sub, In sub l -> In sub (subs c)) -> exists calls, calls_of ps c l = Ok calls.
Proof.
  intros H. apply map_res_total. intros sub Hs. destruct (variations_total c sub (H sub Hs)) as (n & -> & _). cbn [bind]. eauto.
Qed.
Lemma sections_total ps c : exists x, sections_of prefix query ps c = Ok x.
Proof.
  unfold sections_of, subcommand_calls. destruct (c_subcommands c) as [l |] eqn:E; [| cbn [bind]; eauto].
  destruct (calls_total ps c l) as (calls & Hc); [unfold subs; now rewrite E |]. unfold calls_of in Hc. rewrite Hc. cbn [bind]. eauto.
Qed.
Lemma script_total : exists scr, script prefix query root = Ok scr.
Proof.
  apply map_res_total. intros [ps c] _. cbn [fst snd]. destruct (sections_total ps c) as (x & ->). cbn [bind]. eauto.
Qed.

Context (scr : list (str * sections)) (Hscr : script prefix query root = Ok scr) (Hdiff : different_functions prefix root).
Lemma script_names : map fst scr = map (fun p => fname (fst p) (snd p)) (visit_commandlines [] root).
Proof.
  unfold script in Hscr. revert Hscr. generalize (visit_commandlines [] root). clear. intros l. revert scr.
  induction l as [| [ps c] l IH]; intros scr H; cbn [map_res] in H.
  - now apply Ok_inj in H as <-.
  - cbn [fst snd] in H. destruct (sections_of prefix query ps c) as [e | x]; [discriminate |]. cbn [bind] in H.
    destruct (map_res _ l) as [e | r] eqn:E; [discriminate |]. cbn [bind] in H. apply Ok_inj in H as <-. cbn [map fst snd]. f_equal. now apply IH.
Qed.
Lemma defined_of ps c x : located root ps c -> sections_of prefix query ps c = Ok x -> defined scr (fname ps c) x.
Proof.
  intros Hl Hx. apply visited in Hl. apply in_split in Hl as (l1 & l2 & E). pose proof script_names as Hn. unfold different_functions in Hdiff.
  unfold script in Hscr. rewrite E in Hscr, Hn, Hdiff. apply map_res_ok, Forall2_app_inv_l in Hscr as (s1 & s2 & _ & H2 & Es).
  inversion H2 as [| a b l l' Hh Ht E1 E2]. subst s2. cbn [fst snd] in Hh. rewrite Hx in Hh. cbn [bind] in Hh. apply Ok_inj in Hh as <-.
  exists s1, l'. split; [exact Es |].
  rewrite <- Hn, Es, map_app in Hdiff. cbn [map fst] in Hdiff. apply NoDup_remove_2 in Hdiff. intros K. apply Hdiff, in_or_app. now right.
Qed.

Context (unquote : str -> str) (raw : list str).
Notation answer := (fun opts n => get_positional (zquery_init unquote (get_macros root) opts raw) (Z.of_nat n)).

Lemma select_case f ps c w : forall l calls, calls_of ps c l = Ok calls ->
  match select w calls with
  | None => forall d, case_of f d c w l = Ok d
  | Some g => exists sub, In sub l /\ g = fname (c :: ps) sub /\ forall d, case_of f d c w l = f sub
  end.
Proof.
  induction l as [| sub l IH]; intros calls H; unfold calls_of in H; cbn [map_res] in H.
  - apply Ok_inj in H as <-. intros d. reflexivity.
  - destruct (get_all_command_variations sub (Some c)) as [e | names] eqn:En; [discriminate |]. cbn [bind] in H.
    destruct (map_res _ l) as [e | r] eqn:E; [discriminate |]. cbn [bind] in H. apply Ok_inj in H as <-. cbn [select case_of]. rewrite En. cbn [bind].
    destruct (mems w names); [exists sub; split; [now left | now split] |].
    specialize (IH r E). destruct (select w r) as [g |]; [destruct IH as (sub' & H1 & H2 & H3); exists sub'; split; [now right | now split] | exact IH].
Qed.
Lemma calls_good ps c l calls : located root ps c -> (forall sub, In sub l -> In sub (subs c)) -> calls_of ps c l = Ok calls ->
  forall ws f, In (ws, f) calls -> ws <> [] /\ (forall w, In w ws -> hd 0%N w <> EQ) /\ forallb is_word f = true /\ f <> [].
Proof.
  intros Hl Hsub H ws f Hin. unfold calls_of in H. apply map_res_ok in H. revert Hin. induction H as [| sub y l l' Hy _ IH]; [intros [] |].
  intros [-> | Hin]; [| apply IH; [intros; apply Hsub; now right | exact Hin]].
  destruct (get_all_command_variations sub (Some c)) as [e | names] eqn:En; [discriminate |]. cbn [bind] in Hy. apply Ok_inj in Hy.
  assert (names = ws) as <- by exact (f_equal fst Hy). assert (fname (c :: ps) sub = f) as <- by exact (f_equal snd Hy). clear Hy.
  assert (Hs : In sub (subs c)) by (apply Hsub; now left). split; [| split; [| split; [apply fname_word | apply fname_nonempty]]].
  - destruct (variations_total c sub Hs) as (n & E & Hp & _). rewrite En in E. apply Ok_inj in E as <-.
    destruct (Hnames (c :: ps) sub (located_sub root ps c sub Hl Hs)) as [Hne _]. specialize (Hp Hne). intros ->. destruct Hp.
  - destruct (Hnames ps c Hl) as [_ Hw]. intros w. now apply (Hw sub names w).
Qed.

Theorem hands_over n : forall ps c rs c', size c < n -> located root ps c -> completing unquote root ps c raw = Ok (rs, c') ->
  leaves_to query answer scr (fname ps c) (fname rs c').
Proof.
  induction n as [| n IH]; intros ps c rs c' Hn Hl Hc; [lia |]. rewrite completing_eq in Hc. destruct (c_subcommands c) as [l |] eqn:El.
  - assert (Hsub : forall sub, In sub l -> In sub (subs c)) by (unfold subs; now rewrite El).
    destruct (calls_total ps c l Hsub) as (calls & Hcalls). pose proof (selector_number root ps c Hl) as Hnum.
    pose proof (consumed_pos c) as P1. pose proof (sum_nonneg ps) as P2. set (k := (positional_index ps (subcommands_number c) + 1)%Z) in *.
    assert (Hdef : defined scr (fname ps c) (Sections (init_text query ps c) (subcommand_call_text query (k, calls)))).
    { apply defined_of; [exact Hl |]. unfold sections_of, subcommand_calls. rewrite El. unfold calls_of in Hcalls. rewrite Hcalls. reflexivity. }
    assert (Hk : Z.of_nat (Z.to_nat k) = k) by lia.
    assert (Hcase : reads_case query (subcommand_call_text query (k, calls)) (Z.to_nat k) calls).
    { unfold subcommand_call_text. cbn [fst snd]. exists (flat_map (fun k => s "  " ++ join [PIPE] (map quote (fst k)) ++ s ") " ++ snd k ++ s "; return $?;;" ++ [LF]) calls ++ s "esac").
      split; [| apply branches_read; now apply (calls_good ps c l)].
      assert (show_Z k = show_nat (Z.to_nat k)) as ->; [| reflexivity]. unfold show_Z. replace (k <? 0)%Z with false by lia. f_equal. lia. }
    pose proof (select_case (fun sub => completing unquote root (c :: ps) sub raw) ps c
      (get_positional (zquery unquote root ps c raw) k) l calls Hcalls) as Hs.
    assert (Ha : answer (get_query_option_strings ps c true) (Z.to_nat k) = get_positional (zquery unquote root ps c raw) k) by (cbn beta; rewrite Hk; reflexivity).
    rewrite <- Ha in Hs, Hc. destruct (select _ calls) as [g |] eqn:Eg.
    + destruct Hs as (sub & Hin & -> & Hf). rewrite Hf in Hc.
      eapply lt_call; [exact Hdef | apply init_read | exact Hcase | exact Eg |]. apply IH; [| apply located_sub; auto | exact Hc].
      pose proof (size_sub c sub (Hsub sub Hin)). lia.
    + rewrite Hs in Hc. apply Ok_inj, pair_inj in Hc as [<- <-]. eapply lt_none; [exact Hdef | apply init_read | exact Hcase | exact Eg].
  - apply Ok_inj, pair_inj in Hc as [<- <-]. apply lt_plain, defined_of; [exact Hl |]. unfold sections_of, subcommand_calls. now rewrite El.
Qed.
End Script.

(** ** When functions have different names *)
Lemma NoDup_via {A B C} (f : A -> B) (g : A -> C) l : NoDup (map f l) -> (forall x y, In x l -> In y l -> g x = g y -> f x = f y) -> NoDup (map g l).
Proof.
  induction l as [| x l IH]; intros H Hg; [constructor |]. cbn [map] in *. inversion H as [| ? ? Hn Hd]; subst. constructor.
  - intros K. apply in_map_iff in K as (y & E & Hy). apply Hn. rewrite (Hg x y); [now apply in_map | now left | now right | easy].
  - apply IH; [exact Hd | intros a b Ha Hb; apply Hg; now right].
Qed.
Lemma path_root root ps c : located root ps c -> exists l, rev ps ++ [c] = root :: l.
Proof.
  induction 1 as [| ps c sub _ (l & E) Hs]; [now exists [] |]. exists (l ++ [sub]). cbn [rev]. rewrite E. reflexivity.
Qed.
