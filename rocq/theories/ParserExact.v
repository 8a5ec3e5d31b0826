(** * Option strings typed in full. *)
From Verif Require Import Base Dict Shell StrUtils Abbrev Cli SpecCli CliProofs CliMore PyStr
  BashPatterns BashUtils PatternMore SpecGlob GlobMatch BashParser SpecParser ParserPaths ParserTables ParserProofs.
Open Scope list_scope.

(** Commands are visited behind their ancestors. *)
Lemma visit_around root ps c : located root ps c ->
  exists pre post, visit_commandlines [] root = pre ++ visit_commandlines ps c ++ post /\
    forall p, In p (ancestors ps) -> In p pre.
Proof.
  intros H. induction H as [| ps c sub H IH Hi].
  - exists [], []. rewrite app_nil_r. split; [reflexivity | intros p []].
  - destruct IH as (pre & post & -> & Hp). apply in_split in Hi as (l1 & l2 & E). rewrite (visit_eq ps c), E, flat_map_app.
    cbn [flat_map]. exists (pre ++ (ps, c) :: flat_map (visit_commandlines (c :: ps)) l1),
      (flat_map (visit_commandlines (c :: ps)) l2 ++ post). split.
    + rewrite <- !app_assoc. cbn [app]. rewrite <- !app_assoc. reflexivity.
    + intros p [<- | Hin]; apply in_or_app; [right; now left | left; now apply Hp].
Qed.
Lemma visit_nearest root ps c : built root -> located root ps c ->
  exists l1 l2, rev (visit_commandlines [] root) = l1 ++ (ps, c) :: l2 /\ forall p, In p l1 -> ~ in_scope (ps, c) p.
Proof.
  intros Hb Hl. destruct (visit_around root ps c Hl) as (pre & post & E & Hp).
  assert (Hnd : NoDup (visit_commandlines [] root)) by (apply visit_nodup, built_wfc, Hb). rewrite (visit_eq ps c) in E.
  exists (rev (flat_map (visit_commandlines (c :: ps)) (subs c) ++ post)), (rev pre). split.
  - rewrite E, rev_app_distr. cbn [app rev]. now rewrite <- app_assoc.
  - intros p Hin [-> | [Ha _]]; apply in_rev in Hin; rewrite E in Hnd.
    + apply NoDup_remove_2 in Hnd. apply Hnd, in_or_app. now right.
    + apply Hp in Ha. apply in_split in Ha as (a & b & ->). rewrite <- app_assoc in Hnd. cbn [app] in Hnd. apply NoDup_remove_2 in Hnd.
      apply Hnd. apply in_or_app. right. apply in_or_app. right. right. exact Hin.
Qed.

Lemma run_long_misses blocks blocks' cmd arg : (forall q cl, In (q, cl) blocks -> ~ case_matches q cmd) ->
  run_long (blocks ++ blocks') cmd arg = run_long blocks' cmd arg.
Proof.
  induction blocks as [| [q cl] blocks IH]; [reflexivity |]. intros H. cbn [app run_long].
  assert (E : case_matchb q cmd = false) by (apply case_matchb_false, (H q cl); now left). rewrite E.
  apply IH. intros q' cl' Hin. apply (H q' cl'). now right.
Qed.

Theorem exact_option root sc ps c o x v : built root -> tame_commands root -> plain_options root ->
  generate1 root = Ok sc -> located root ps c ->
  In o (c_options c) -> In x (o_strings o) -> 3 <= List.length x ->
  (forall o', In o' (c_options c) -> In x (o_strings o') -> o' = o) -> opt_variable o = Ok v ->
  run_long (s1_long sc) (get_subcommand_path ps c) x = Some (v, without_action o).
Proof.
  intros Hb Htc Hps Hsc Hl Ho Hx H3 Hu Hv. destruct (generated1 root sc Hsc) as (cases & _ & HF & El & _).
  rewrite El, run_long_filter. destruct (visit_nearest root ps c Hb Hl) as (l1 & l2 & Ev & Hn). rewrite Ev in HF.
  apply Forall2_app_inv_l in HF as (b1 & b2 & F1 & F2 & ->). inversion F2 as [| ? b ? b2' F0 F3]; subst. clear F2.
  destruct F0 as (_ & Hg & Hq). destruct b as [q [l sh]]. cbn [fst snd] in *. rewrite map_app. cbn [map fst snd].
  rewrite run_long_misses.
  2: { intros q' cl' Hin Hm. apply in_map_iff in Hin as ([q2 [l' sh']] & E & Hin). apply pair_inj in E as [E1 E2]. cbn [fst snd] in E1, E2. subst q2 l'.
       destruct (Forall2_In_r _ _ _ _ F1 Hin) as ([ps' c'] & Hp & Hlp & _ & Hq'). cbn [fst snd] in *. subst q'.
       apply (Hn _ Hp). now apply (command_case root ps c ps' c' Hb Htc Hl Hlp). }
  cbn [run_long].
  assert (Em : case_matchb q (get_subcommand_path ps c) = true).
  { apply case_matchb_iff. rewrite Hq. apply (command_case root ps c ps c Hb Htc Hl Hl). now left. }
  rewrite Em. destruct (generated_clauses root Hb Hps ps c l sh Hl Hg) as (G1 & G2 & _).
  assert (Hsp : spelling (ps, c) o x) by (split; [exact Ho | now left]).
  destruct (first_clause l x) as [va |] eqn:Ef.
  - f_equal. apply first_some in Ef as (pat & Hin & Hm). destruct (G1 pat va x Hin Hm) as (o' & Hv' & M). destruct va as [v' a]. cbn [fst snd] in *.
    destruct M as [(Hs' & _ & ->) | (y & t & E & Hs' & _)].
    + assert (o' = o) as ->; [| congruence]. destruct Hs' as [Ho' [Hx' | (_ & _ & y & Hy & Hpre & Huniq)]]; [now apply Hu |].
      apply Hu; [exact Ho' |]. destruct (list_eq_dec N.eq_dec x y) as [-> | Hne]; [exact Hy | exfalso].
      apply (Huniq x); [| exact Hne | exists []; now rewrite app_nil_r].
      exists c, o. split; [exact Ho |]. split; [exact Hx |]. split; [exact H3 | now left].
    + exfalso. now apply (spelling_not_attached root Hps (ps, c) (ps, c) o o' x y t Hl Hl Hsp Hs').
  - exfalso. destruct (G2 x (v, without_action o)) as (pat & va' & Hin & Hm); [exists o; auto |].
    now apply (first_none _ _ Ef pat va').
Qed.
