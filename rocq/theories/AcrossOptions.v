(** * Proofs: the options that Bash and fish offer. *)
From Coq Require Import Permutation.
From Verif Require Import Base Value Dict StrUtils Shell SpecShell When SpecWhen WhenProofs Cli CliExamples CliProofs CliMore SpecCli BashUtils BashParser SpecParser ParserPaths ParserProofs ParserProofs2 ParserCheck
  PropertiesParser SpecOffered BashOffers SpecBash BashStrings BashArguments BashPositionals BashFunctions BashDashes BashMeaning BashWhole
  FishUtils SpecFish FishConditions FishRuntime SpecFishOffers PropertiesFish FishQuery SpecQuery PropertiesQuery SpecAcross Across.
Open Scope list_scope.

Section Fish.
Variables (matches : str -> bool -> str -> bool) (incomplete : list str -> bool) (e : env) (prog : str).
Hypotheses (He : good_names e) (Hprog : e (s "prog") = Some prog) (HC : forall n, e (s "C" ++ n) = None).
Variables (root : cmd) (ere : str -> bool) (completer : list value -> list str) (st inline : bool).
Hypotheses (Hb : built root) (Hcl : clear_definition root).
Hypothesis Hscope : forall ps c, located root ps c -> clean_scope completer ps c.
Hypothesis Hscript : forall ps c, located root ps c -> exists argss, fish_script e ere completer st inline (ps, c) argss.
Hypothesis Hone : forall ps c o1 o2 x, located root ps c -> In o1 (c_options c) -> In o2 (c_options c) -> In x (o_strings o1) -> In x (o_strings o2) -> o1 = o2.

Lemma Forall2_In_l {A B} (R : A -> B -> Prop) l l' x : Forall2 R l l' -> In x l -> exists y, In y l' /\ R x y.
Proof. intros H. induction H as [| a b l l' Hab H IH]; [easy |]. intros [<- | Hx]; [exists b; split; [now left | exact Hab] |]. destruct (IH Hx) as (y & Hy & K). exists y. split; [now right | exact K]. Qed.
Lemma Forall2_In_r {A B} (R : A -> B -> Prop) l l' y : Forall2 R l l' -> In y l' -> exists x, In x l /\ R x y.
Proof. intros H. induction H as [| a b l l' Hab H IH]; [easy |]. intros [<- | Hy]; [exists a; split; [now left | exact Hab] |]. destruct (IH Hy) as (x & Hx & K). exists x. split; [now right | exact K]. Qed.
Lemma same_script p a b : fish_script e ere completer st inline p a -> fish_script e ere completer st inline p b -> a = b.
Proof.
  intros (ds & cmds & H1 & H2 & H3) (ds' & cmds' & H1' & H2' & H3'). rewrite H1' in H1. apply inr_inj in H1. subst ds'.
  assert (E : cmds' = cmds); [| subst; congruence]. clear -H2 H2'. revert cmds' H2'. induction H2 as [| d k ds cmds Hk H IH]; intros cmds' H'; inversion H'; subst; [reflexivity |].
  f_equal; [| now apply IH]. match goal with K : get_complete_cmd st d = _ |- _ => rewrite Hk in K; apply inr_inj in K; congruence end.
Qed.

Lemma fish_offers_iff P G ps c o cond : located root ps c -> In o (c_options c) -> sound_when ere (o_when o) cond ->
  (fish_offers matches incomplete (MkQuery P G) e ere completer st inline (ps, c) o <->
   option_offered P G ps c o /\
   (o_hidden o = true -> (exists x, In x (o_strings o) /\ is_given G x) \/ incomplete (o_strings o) = true) /\
   when_holds matches (MkQuery P G) cond).
Proof.
  intros Hl Ho Hw. destruct (Hscript ps c Hl) as (argss & Hs). pose proof Hs as (ds & cmds & Hd & Hc & Hr). cbn [fst snd] in *.
  destruct (C81_offers_partial matches incomplete (MkQuery P G) e prog root ere completer ps c st ds cmds inline He Hprog HC Hb Hl (Hscope ps c Hl) Hd Hc)
    as (argss' & os & k1 & k2 & k3 & Hr' & Hk & Hperm & Hk1 & Hk2 & Hk3).
  assert (argss' = argss) by congruence. subst argss'.
  assert (Hne : exists x, In x (o_strings o)).
  { pose proof (located_option_nonempty root Hb ps c o Hl Ho) as K. destruct (o_strings o) as [| x l]; [congruence | exists x; now left]. }
  split.
  - intros (argss' & args & k & Hs' & Hin & Hka & Hp & Htrue). rewrite (same_script _ _ _ Hs' Hs) in Hin.
    destruct (Forall2_In_l _ _ _ _ Hk Hin) as (k' & Hk' & Ek). assert (k' = k) by congruence. subst k'.
    assert (Hno : k_options k = [] -> False).
    { intros E. rewrite E in Hp. destruct Hne as (x & Hx). apply (Permutation_in x (Permutation_sym Hp)) in Hx. destruct Hx. }
    apply in_app_or in Hk' as [Hk' | Hk']; [| apply in_app_or in Hk' as [Hk' | Hk']].
    + destruct (Forall2_In_r _ _ _ _ Hk1 Hk') as (o' & Ho' & Hsays). apply (Permutation_in o' Hperm) in Ho'.
      destruct Hsays as (Hp' & _ & _ & _ & Hoff). destruct Hne as (x & Hx).
      assert (E : o' = o).
      { apply (Hone ps c o' o x Hl Ho' Ho); [| exact Hx]. apply (Permutation_in x Hp'). now apply (Permutation_in x (Permutation_sym Hp)). }
      subst o'. destruct (Hoff cond Hw) as (_ & Hiff & _). now apply Hiff.
    + exfalso. destruct (Forall2_In_r _ _ _ _ Hk2 Hk') as (p & _ & (E & _)). now apply Hno.
    + exfalso. destruct (c_subcommands c) as [l |]; [| now subst k3]. destruct Hk3 as (k0 & -> & (E & _)). destruct Hk' as [-> | []]. now apply Hno.
  - intros Hoff. apply (Permutation_in o (Permutation_sym Hperm)) in Ho. destruct (Forall2_In_l _ _ _ _ Hk1 Ho) as (k & Hkin & Hp & _ & _ & _ & Hsays).
    destruct (Forall2_In_r _ _ _ k Hk) as (args & Hargs & Ek); [apply in_or_app; now left |].
    exists argss, args, k. split; [exact Hs |]. split; [exact Hargs |]. split; [exact Ek |]. split; [exact Hp |].
    destruct (Hsays cond Hw) as (_ & Hiff & _). now apply Hiff.
Qed.
End Fish.

Lemma sound_of ere (c : cmd) o : (forall x, o_when o = Some x -> exists cond, parse_when ere x = Ok (map wtok_of (conds_syms cond))) ->
  In o (c_options c) -> agreeing_conditions ere c -> forall x cond, o_when o = Some x -> parse_when ere x = Ok (map wtok_of (conds_syms cond)) ->
  sound_when ere (o_when o) (Some cond).
Proof.
  intros Hp Ho Ha x cond Hx Hc. rewrite Hx. destruct x as [| x0 x].
  - exfalso. cbn in Hc. discriminate Hc.
  - exists cond. split; [reflexivity |]. split; [exact Hc |]. intros t Ht. apply (Ha o (x0 :: x) cond t Ho Hx Hc Ht).
Qed.

Section Both.
Variables (ere : str -> bool) (matches : str -> bool -> str -> bool) (f1 f2 f3 : str) (code : opt -> str) (pcode : pos -> str) (choices_code : list str -> str).
Hypotheses (Hf1 : is_name f1) (Hf2 : is_name f2) (Hf3 : is_name f3) (D12 : f1 <> f2) (D13 : f1 <> f3) (D23 : f2 <> f3).
Variable root : cmd.
Hypotheses (R : bash_ready ere root) (N : bash_named ere root) (HP : has_positionals root).
Variables (incomplete : list str -> bool) (e : env) (prog : str).
Hypotheses (He : good_names e) (Hprog : e (s "prog") = Some prog) (HC : forall n, e (s "C" ++ n) = None).
Variables (completer : list value -> list str) (st inline : bool).
Hypothesis Hcl : clear_definition root.
Hypothesis Hscope : forall ps c, located root ps c -> clean_scope completer ps c.
Hypothesis Hscript : forall ps c, located root ps c -> exists argss, fish_script e ere completer st inline (ps, c) argss.
Hypothesis Hagree : forall ps c, located root ps c -> agreeing_conditions ere c.

Lemma one_option ps c o1 o2 x : located root ps c -> In o1 (c_options c) -> In o2 (c_options c) -> In x (o_strings o1) -> In x (o_strings o2) -> o1 = o2.
Proof.
  intros Hl H1 H2 X1 X2. apply (tame_spelling root (br_options _ _ R) ps c (ps, c) (ps, c) o1 o2 x Hl); try (now left); (split; [assumption | now left]).
Qed.
Lemma path_incl here p d : on_path here p -> In d (snd p :: fst p) -> In d (snd here :: fst here).
Proof.
  intros [-> | H] Hd; [exact Hd |]. right. destruct here as [rs c]. cbn [fst] in *. clear c. induction rs as [| x rs IH]; [destruct H |].
  cbn [ancestors] in H. destruct H as [<- | H]; [exact Hd | right; now apply IH].
Qed.

(** The command that is completed, and what was given, as both shells see it. *)
Section At.
Variables (P : list str) (G : list (str * str)) (es : list event) (ps : list cmd) (c : cmd) (m : nat).
Hypothesis Hleads : leads root ([], root) P (ps, c) m.
Hypothesis Hmeant : Forall2 (meant (ps, c)) G (appends es).
Hypothesis HPes : positionals_in es = P.
Hypothesis Hapart : apart (ps, c).

Lemma at_located : located root ps c. Proof. apply Hleads. Qed.
Lemma at_kinds p1 p2 o1 o2 x : on_path (ps, c) p1 -> on_path (ps, c) p2 -> In o1 (c_options (snd p1)) -> In x (o_strings o1) ->
  In o2 (c_options (snd p2)) -> In x (o_strings o2) -> arg_kind o1 = arg_kind o2.
Proof. intros H1 H2. apply (clear_options root Hcl ps c p1 p2 o1 o2 x at_located H1 H2). Qed.
Lemma at_silent d o : In d (c :: ps) -> In o (c_options d) -> (given_values es o = [] <-> silent G (o_strings o)).
Proof.
  intros Hd Ho. destruct (path_of (ps, c) d Hd) as (p & Hp & E). pose proof (on_path_located root ps c p at_located Hp) as Hl.
  apply (given_silent (ps, c) G es Hmeant Hapart at_kinds d Hd); [| exact Ho]. rewrite <- E.
  intros o' Ho'. destruct (bn_variables _ _ N (fst p) (snd p) o' Hl Ho') as (v & Hv & _). now exists v.
Qed.

Lemma scope_offered p o : located root (fst p) (snd p) -> In o (c_options (snd p)) ->
  (option_offered P G (fst p) (snd p) o <->
   in_scope (ps, c) p /\
   (forall d f, In d (snd p :: fst p) -> In f (c_options d) -> o_final f = true -> given_values es f = []) /\
   (forall q, In q (c_options (snd p)) -> opt_eqb q o = false -> share_group o q -> given_values es q = []) /\
   (o_repeatable o = XFalse -> given_values es o = [])).
Proof.
  intros Hl Ho. pose proof Hleads as (Hloc & _ & Hsel & Hlen & Hm). cbn [fst snd] in Hloc, Hsel, Hlen, Hm.
  pose proof (leads_deepest root P _ _ _ Hleads) as Hdeep. cbn [fst snd] in Hdeep.
  assert (Hd : forall d, on_path (ps, c) p -> In d (snd p :: fst p) -> In d (c :: ps)) by (intros d Hp; apply (path_incl (ps, c) p d Hp)).
  assert (Hin : forall d, In d (snd p :: fst p) -> d = d) by reflexivity. clear Hin.
  split.
  - intros (H1 & H2 & H3 & H4 & H5).
    assert (Hp : on_path (ps, c) p).
    { rewrite (surjective_pairing p). apply (below root (clear_unique root Hcl) P ps c (fst p) (snd p) Hloc Hsel Hdeep Hl H5). }
    split; [| split; [| split]].
    + destruct Hp as [-> | Hp]; [now left |]. right. split; [exact Hp |]. intros Hi.
      destruct (next_on_path root ps c p Hloc Hp) as (d & Hds & Hdp). apply (selected_path P ps c) in Hdp; [| exact Hsel].
      cbn [fst snd selected] in Hdp. destruct Hdp as (_ & w & (_ & Hw) & _).
      assert (K : (Z.of_nat (List.length P) < taken (snd p :: fst p))%Z).
      { apply H4; [unfold subs in Hds; destruct (c_subcommands (snd p)); [discriminate | destruct Hds] | intros K; now apply K]. }
      assert (K' : Z.to_nat (taken (snd p :: fst p) - 1) < List.length P) by (apply nth_error_Some; congruence). lia.
    + intros d f Hdd Hf Hff. apply (at_silent d f (Hd d Hp Hdd) Hf). now apply (H1 d).
    + intros q Hq Hn Hs. apply (at_silent (snd p) q (Hd _ Hp (or_introl eq_refl)) Hq). now apply H2.
    + intros Hr. apply (at_silent (snd p) o (Hd _ Hp (or_introl eq_refl)) Ho). now apply H3.
  - intros (Hs & H1 & H2 & H3). pose proof (scope_path _ _ Hs) as Hp. split; [| split; [| split; [| split]]].
    + intros d f Hdd Hf Hff. apply (at_silent d f (Hd d Hp Hdd) Hf). now apply (H1 d).
    + intros q Hq Hn Hg. apply (at_silent (snd p) q (Hd _ Hp (or_introl eq_refl)) Hq). now apply H2.
    + intros Hr. apply (at_silent (snd p) o (Hd _ Hp (or_introl eq_refl)) Ho). now apply H3.
    + intros Hsub Hpass. destruct Hs as [-> | [_ Hpass']]; [| contradiction]. cbn [fst snd] in *. rewrite taken_cons. destruct Hm as [Hm | Hm]; [congruence | lia].
    + now apply (selected_path P ps c).
Qed.

Lemma same_offers p o : located root (fst p) (snd p) -> In o (c_options (snd p)) -> o_hidden o = false ->
  (in_scope (ps, c) p /\ to_offer ere matches es p o <-> fish_offers matches incomplete (MkQuery P G) e ere completer st inline p o).
Proof.
  intros Hl Ho Hh. set (cc := snd p) in *.
  assert (Hcond : forall cond x, on_path (ps, c) p -> o_when o = Some x -> parse_when ere x = Ok (map wtok_of (conds_syms cond)) ->
    (SpecBash.cond_value matches (given_values es) (positionals_in es) cc cond <-> SpecOffered.cond_holds matches P G cond)).
  { intros cond x Hp Hx Hc. rewrite HPes. apply (cond_agrees (ps, c) G es Hmeant Hapart at_kinds matches P cc).
    - apply (path_in (ps, c) p Hp).
    - intros o' Ho'. destruct (bn_variables _ _ N (fst p) cc o' Hl Ho') as (v & Hv & _). now exists v.
    - intros t Ht. split; [now apply (Hagree (fst p) cc Hl o x cond t) |]. intros y Hy.
      apply (bn_conditions _ _ N (fst p) cc x cond t y Hl); [left; now exists o | exact Hc | exact Ht | exact Hy]. }
  pose proof (br_conditions _ _ R (fst p) cc o) as Hparse.
  rewrite (surjective_pairing p).
  assert (Hcases : (exists x, o_when o = Some x) \/ o_when o = None) by (destruct (o_when o) as [x |]; [left; now exists x | now right]).
  destruct Hcases as [(x & Ew) | Ew].
  - destruct (Hparse x Hl Ho Ew) as (cond0 & Hc0).
    assert (Hsound : forall cond, parse_when ere x = Ok (map wtok_of (conds_syms cond)) -> sound_when ere (o_when o) (Some cond)).
    { intros cond Hc. apply (sound_of ere cc o) with (x := x); try assumption; [intros y Hy; exists cond; congruence | now apply (Hagree (fst p))]. }
    split.
    + intros (Hs & [H1 H2 H3 H4 H5 H6]). rewrite <- (surjective_pairing p) in Hs. cbn [fst snd] in *. fold cc in H1, H3, H4, H6.
      destruct (H6 x Ew) as (cond & Hc & Hv).
      apply (fish_offers_iff matches incomplete e prog He Hprog HC root ere completer st inline (br_built _ _ R) Hscope Hscript one_option P G (fst p) cc o (Some cond) Hl Ho (Hsound cond Hc)).
      split; [apply (scope_offered p o Hl Ho); auto |]. split; [congruence |]. cbn [when_holds q_positionals q_options].
      now apply (Hcond cond x (scope_path _ _ Hs) Ew Hc).
    + intros H. apply (fish_offers_iff matches incomplete e prog He Hprog HC root ere completer st inline (br_built _ _ R) Hscope Hscript one_option P G (fst p) cc o (Some cond0) Hl Ho (Hsound cond0 Hc0)) in H.
      destruct H as (H & _ & Hw). apply (scope_offered p o Hl Ho) in H as (Hs & H1 & H2 & H3). rewrite <- (surjective_pairing p). split; [exact Hs |].
      constructor; try assumption. intros y Hy. assert (y = x) by congruence. subst y. exists cond0. split; [exact Hc0 |].
      now apply (Hcond cond0 x (scope_path _ _ Hs) Ew Hc0).
  - assert (Hsound : sound_when ere (o_when o) None) by (rewrite Ew; reflexivity).
    split.
    + intros (Hs & [H1 H2 H3 H4 H5 H6]). rewrite <- (surjective_pairing p) in Hs. cbn [fst snd] in *. fold cc in H1, H3, H4, H6.
      apply (fish_offers_iff matches incomplete e prog He Hprog HC root ere completer st inline (br_built _ _ R) Hscope Hscript one_option P G (fst p) cc o None Hl Ho Hsound).
      split; [apply (scope_offered p o Hl Ho); auto |]. split; [congruence | exact I].
    + intros H. apply (fish_offers_iff matches incomplete e prog He Hprog HC root ere completer st inline (br_built _ _ R) Hscope Hscript one_option P G (fst p) cc o None Hl Ho Hsound) in H.
      destruct H as (H & _ & Hw). apply (scope_offered p o Hl Ho) in H as (Hs & H1 & H2 & H3). rewrite <- (surjective_pairing p). split; [exact Hs |].
      constructor; try assumption. congruence.
Qed.
End At.

Theorem options_agree ws P G cur behind es' ps c l b :
  typed (root_first root) ([], root) 0 ws P G false -> (forall w, In w ws -> ~ In LF w) -> ~ In (s "--") ws -> unabbreviated root ws ->
  option_like cur -> parsed root ws cur behind es' ->
  located root ps c -> selected P ps c -> deepest P ps c -> apart (ps, c) ->
  (forall p, in_scope (ps, c) p -> BashDashes.quiet (seen root ws cur behind es') p) ->
  run_function ere f1 f2 f3 code pcode choices_code (whole_truth matches f1 f2 f3 es') (seen root ws cur behind es') [] root = Ok (l, b) ->
  exists q, query_init root ws = Ok (q, false) /\
  forall x, In x (words_of l) <->
    is_prefix cur x /\ exists p o, located root (fst p) (snd p) /\ In o (c_options (snd p)) /\ o_hidden o = false /\ offered_text o x /\
      fish_offers matches incomplete q e ere completer st inline p o.
Proof.
  intros Ht Hlf Hdd Hu Hcur Hpar Hl Hsel Hdeep Hap Hq Hrun.
  exists (MkQuery P G). split; [apply (C83_query_partial root ws P G false (br_built _ _ R) Hcl Ht Hlf) |].
  destruct (typed_usage root (root_first root) (fun here n p H => proj1 H)
    (fun rs d o Hd Ho => match bn_variables _ _ N rs d o Hd Ho with ex_intro _ v (conj Hv _) => ex_intro _ v Hv end)
    ([], root) 0 ws P G false Ht (located_root root) Hu Hdd (or_intror (consumed_pos root)) [] eq_refl I) as (es & en & [rs d] & m & Hus & Hpos & Hen & Hlead & Hmean).
  cbn [app] in Hlead. destruct en; [| destruct Hen | discriminate Hen].
  assert (E : (rs, d) = (ps, c)).
  { pose proof (leads_deepest root P _ _ _ Hlead) as K. destruct Hlead as (H1 & _ & H2 & _). cbn [fst snd] in *.
    now apply (place_unique root (clear_unique root Hcl) P). }
  apply pair_inj in E as [-> ->].
  assert (Hsel' : selected (positionals_in es) ps c) by now rewrite Hpos.
  assert (Hdeep' : forall w sub, nth_positional (positionals_in es) (taken (c :: ps)) w -> In sub (subs c) -> ~ names c sub w) by now rewrite Hpos.
  destruct (whole_options ere matches f1 f2 f3 code pcode choices_code Hf1 Hf2 Hf3 D12 D13 D23 root R N ws es cur behind es' ps c l b HP Hus Hcur Hpar Hl Hsel' Hdeep' Hq Hrun) as (_ & _ & Hx).
  intros x. rewrite Hx. split.
  - intros (Hpre & p & o & Hs & Ht' & Hto). split; [exact Hpre |]. exists p, o.
    pose proof (on_path_located root ps c p Hl (scope_path _ _ Hs)) as Hlp. pose proof (of_option _ _ _ _ _ Hto) as Ho. pose proof (of_visible _ _ _ _ _ Hto) as Hv.
    do 4 (split; [assumption |]). apply (same_offers P G es ps c m Hlead Hmean Hpos Hap p o Hlp Ho Hv). now split.
  - intros (Hpre & p & o & Hlp & Ho & Hv & Ht' & Hf). split; [exact Hpre |]. exists p, o.
    apply (same_offers P G es ps c m Hlead Hmean Hpos Hap p o Hlp Ho Hv) in Hf as [Hs Hto]. auto.
Qed.
End Both.
