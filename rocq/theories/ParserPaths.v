(** * Paths of commands in the generated Bash parsers. *)
From Verif Require Import Base Dict Shell StrUtils StrUtilsProofs Abbrev AbbrevProofs Cli SpecCli CliProofs CliMore PyStr
  BashPatterns BashPatternsProofs BashUtils PatternMore SpecShell SpecGlob GlobMatch BashParser SpecParser.
From Coq Require Import Permutation.
Open Scope list_scope.

(** ** Generalities *)
Lemma map_res_ok {A B} (f : A -> res B) l : forall r, map_res f l = Ok r ->
  Forall2 (fun x y => f x = Ok y) l r.
Proof.
  induction l as [| x l IH]; intros r H; cbn [map_res] in H.
  - injection H as <-. constructor.
  - destruct (f x) as [e | y] eqn:E; [discriminate |]. cbn in H. destruct (map_res f l) as [e | r'] eqn:E'; [discriminate |].
    cbn in H. injection H as <-. constructor; [exact E |]. now apply IH.
Qed.
Lemma Forall2_In_l {A B} (R : A -> B -> Prop) l r x : Forall2 R l r -> In x l -> exists y, In y r /\ R x y.
Proof.
  induction 1 as [| a b l r Hab H IH]; intros Hx; [destruct Hx |]. destruct Hx as [-> | Hx]; [exists b; split; [now left | exact Hab] |].
  destruct (IH Hx) as (y & Hy & Hr). exists y. split; [now right | exact Hr].
Qed.
Lemma Forall2_In_r {A B} (R : A -> B -> Prop) l r y : Forall2 R l r -> In y r -> exists x, In x l /\ R x y.
Proof.
  induction 1 as [| a b l r Hab H IH]; intros Hx; [destruct Hx |]. destruct Hx as [-> | Hx]; [exists a; split; [now left | exact Hab] |].
  destruct (IH Hx) as (x & Hy & Hr). exists x. split; [now right | exact Hr].
Qed.

(** ** Paths *)
Definition trail (ps : list cmd) (c : cmd) : list str := map c_prog (tl (get_parents ps c true)).
Fixpoint colons (l : list str) : str := match l with [] => [] | x :: l' => s ":" ++ x ++ colons l' end.

Lemma join_colons x l : join (s ":") (x :: l) = x ++ colons l.
Proof.
  revert x. induction l as [| y l IH]; intros x; [cbn; now rewrite app_nil_r |].
  change (join (s ":") (x :: y :: l)) with (x ++ s ":" ++ join (s ":") (y :: l)). now rewrite IH.
Qed.
Lemma path_colons ps c : get_subcommand_path ps c = s "root" ++ colons (trail ps c).
Proof. unfold get_subcommand_path, trail. apply join_colons. Qed.
Lemma colons_app l1 l2 : colons (l1 ++ l2) = colons l1 ++ colons l2.
Proof. induction l1 as [| x l1 IH]; [reflexivity |]. cbn [app colons]. now rewrite IH, <- !app_assoc. Qed.

Lemma parents_eq ps c : get_parents ps c true = rev ps ++ [c].
Proof. unfold get_parents. now rewrite parents_loop_eq, app_nil_r. Qed.
Lemma trail_root c : trail [] c = [].
Proof. reflexivity. Qed.
Lemma trail_sub ps c sub : trail (c :: ps) sub = trail ps c ++ [c_prog sub].
Proof.
  unfold trail. rewrite !parents_eq. cbn [rev].
  destruct (rev ps ++ [c]) as [| x l] eqn:E; [now destruct (rev ps) |]. cbn [app tl]. now rewrite map_app.
Qed.
Lemma path_root c : get_subcommand_path [] c = s "root".
Proof. reflexivity. Qed.
Lemma path_sub ps c sub : get_subcommand_path (c :: ps) sub = get_subcommand_path ps c ++ s ":" ++ c_prog sub.
Proof. rewrite !path_colons, trail_sub, colons_app. cbn [colons]. now rewrite app_nil_r, <- !app_assoc. Qed.

Definition colon_free (x : str) : Prop := ~ In COLON x.
Lemma split_colon x y a b : colon_free x -> colon_free y -> x ++ a = y ++ b ->
  (x = y /\ a = b) \/ (exists t, t <> [] /\ y = x ++ t /\ a = t ++ b) \/ (exists t, t <> [] /\ x = y ++ t /\ b = t ++ a).
Proof.
  revert y. induction x as [| c x IH]; intros [| d y] Hx Hy E.
  - now left.
  - right. left. exists (d :: y). split; [discriminate | auto].
  - right. right. exists (c :: x). split; [discriminate |]. cbn [app] in *. auto.
  - cbn [app] in E. injection E as -> E. destruct (IH y) as [[-> ->] | [(t & Ht & -> & ->) | (t & Ht & -> & ->)]].
    + intros H. apply Hx. now right.
    + intros H. apply Hy. now right.
    + exact E.
    + now left.
    + right. left. exists t. auto.
    + right. right. exists t. auto.
Qed.
Lemma colons_start l : colons l = [] \/ exists z, colons l = COLON :: z.
Proof. destruct l as [| x l]; [now left |]. right. now exists (x ++ colons l). Qed.

Lemma colons_prefix l1 : forall l2, Forall colon_free l1 -> Forall colon_free l2 ->
  is_prefix (colons l1) (colons l2) ->
  (exists r, l2 = l1 ++ r) \/
  exists l0 x y r, l1 = l0 ++ [x] /\ l2 = l0 ++ y :: r /\ is_prefix x y /\ x <> y.
Proof.
  induction l1 as [| x l1 IH]; intros l2 H1 H2 (t & E); [left; now exists l2 |].
  destruct l2 as [| y l2]; [discriminate |]. cbn [colons app] in E. injection E as E.
  rewrite <- app_assoc in E. inversion H1 as [| ? ? Hx H1']. inversion H2 as [| ? ? Hy H2']. subst.
  symmetry in E. destruct (split_colon x y _ _ Hx Hy E) as [[-> E'] | [(u & Hu & -> & E') | (u & Hu & -> & E')]].
  - destruct (IH l2 H1' H2') as [(r & ->) | (l0 & a & b & r & -> & -> & Hp & Hn)].
    + exists t. now rewrite E'.
    + left. now exists r.
    + right. exists (y :: l0), a, b, r. auto.
  - destruct (colons_start l1) as [El | (z & El)].
    + destruct l1; [| discriminate]. right. exists [], x, (x ++ u), l2. split; [reflexivity |]. split; [reflexivity |].
      split; [now exists u |]. intros C. apply Hu. rewrite <- (app_nil_r x) in C at 1. now apply app_inv_head in C.
    + exfalso. rewrite El in E'. destruct u as [| d u]; [now apply Hu |]. cbn in E'. injection E' as <- E'.
      apply Hy. apply in_or_app. right. now left.
  - exfalso. destruct (colons_start l2) as [El | (z & El)]; rewrite El in E'; destruct u as [| d u]; try (now apply Hu); try discriminate.
    cbn in E'. injection E' as <- E'. apply Hx. apply in_or_app. right. now left.
Qed.
Lemma colons_inj l1 l2 : Forall colon_free l1 -> Forall colon_free l2 -> colons l1 = colons l2 -> l1 = l2.
Proof.
  revert l2. induction l1 as [| x l1 IH]; intros [| y l2] H1 H2 E; try discriminate; [reflexivity |].
  cbn [colons app] in E. injection E as E. inversion H1 as [| ? ? Hx H1']. inversion H2 as [| ? ? Hy H2']. subst.
  destruct (split_colon x y _ _ Hx Hy E) as [[-> E'] | [(u & Hu & -> & E') | (u & Hu & -> & E')]].
  - f_equal. now apply IH.
  - exfalso. destruct (colons_start l1) as [El | (z & El)]; rewrite El in E'; destruct u as [| d u]; try (now apply Hu); try discriminate.
    cbn in E'. injection E' as <- E'. apply Hy. apply in_or_app. right. now left.
  - exfalso. destruct (colons_start l2) as [El | (z & El)]; rewrite El in E'; destruct u as [| d u]; try (now apply Hu); try discriminate.
    cbn in E'. injection E' as <- E'. apply Hx. apply in_or_app. right. now left.
Qed.

(** ** Places with the same path *)
Lemma located_nodup root ps c : built root -> located root ps c -> NoDup (map c_prog (subs c)).
Proof. intros Hb Hl. destruct (located_wfc root ps c (built_wfc root Hb) Hl) as [Hc _]. now destruct Hc. Qed.
Lemma nodup_prog l d1 d2 : NoDup (map c_prog l) -> In d1 l -> In d2 l -> c_prog d1 = c_prog d2 -> d1 = d2.
Proof.
  induction l as [| x l IH]; intros Hn H1 H2 E; [destruct H1 |]. cbn [map] in Hn. apply NoDup_cons_iff in Hn as [Hx Hn].
  destruct H1 as [-> | H1], H2 as [-> | H2]; auto.
  - exfalso. apply Hx. rewrite E. now apply in_map.
  - exfalso. apply Hx. rewrite <- E. now apply in_map.
Qed.

Lemma trail_nil root ps c : located root ps c -> trail ps c = [] -> ps = [] /\ c = root.
Proof. intros H E. destruct H as [| ps c sub H Hi]; [auto |]. rewrite trail_sub in E. now destruct (trail ps c). Qed.
Lemma trail_inj root : built root -> forall ps c, located root ps c ->
  forall ps' c', located root ps' c' -> trail ps c = trail ps' c' -> (ps, c) = (ps', c').
Proof.
  intros Hb ps c H. induction H as [| ps c sub H IH Hi]; intros ps' c' H' E.
  - symmetry in E. apply (trail_nil root) in E as [-> ->]; [reflexivity | exact H'].
  - destruct H' as [| ps' c' sub' H' Hi']; [rewrite trail_sub in E; now destruct (trail ps c) |].
    rewrite !trail_sub in E. apply app_inj_tail in E as [E1 E2]. specialize (IH _ _ H' E1). injection IH as <- <-.
    assert (sub = sub') as <-; [| reflexivity]. eapply nodup_prog; try eassumption. eapply located_nodup; eassumption.
Qed.
Lemma trail_prefix root : built root -> forall ps c, located root ps c ->
  forall ps' c' r, located root ps' c' -> trail ps c = trail ps' c' ++ r ->
  (ps', c') = (ps, c) \/ In (ps', c') (ancestors ps).
Proof.
  intros Hb ps c H. induction H as [| ps c sub H IH Hi]; intros ps' c' r H' E.
  - rewrite trail_root in E. symmetry in E. apply app_eq_nil in E as [E _].
    apply (trail_nil root) in E as [-> ->]; [now left | exact H'].
  - destruct r as [| z r] using rev_ind.
    + rewrite app_nil_r in E. left. symmetry. apply (trail_inj root Hb); [now apply located_sub | exact H' | exact E].
    + rewrite trail_sub, app_assoc in E. apply app_inj_tail in E as [E _]. right. cbn [ancestors In].
      destruct (IH ps' c' r H' E) as [Ep | Hp]; [left; now symmetry | right; exact Hp].
Qed.
Lemma ancestors_located root ps c p : located root ps c -> In p (ancestors ps) -> located root (fst p) (snd p).
Proof.
  intros H. induction H as [| ps c sub H IH Hi]; cbn [ancestors In]; [intros [] |]. intros [<- | Hp]; [exact H | now apply IH].
Qed.
Lemma ancestors_trail ps c : forall p, In p (ancestors ps) -> exists r, trail ps c = trail (fst p) (snd p) ++ r.
Proof.
  revert c. induction ps as [| q ps IH]; intros c p Hp; [destruct Hp |]. cbn [ancestors In] in Hp. rewrite trail_sub.
  destruct Hp as [<- | Hp]; [now exists [c_prog c] |]. destruct (IH q p Hp) as (r & ->). exists (r ++ [c_prog c]).
  now rewrite app_assoc.
Qed.
Lemma in_scope_located root ps c p : located root ps c -> in_scope (ps, c) p -> located root (fst p) (snd p).
Proof. intros H [-> | [Hp _]]; [exact H | eapply ancestors_located; eassumption]. Qed.

(** Names on the way to a command *)
Lemma good_trail root ps c : tame_commands root -> located root ps c -> Forall good_name (trail ps c).
Proof.
  intros Ht H. induction H as [| ps c sub H IH Hi]; [constructor |]. rewrite trail_sub. apply Forall_app. split; [exact IH |].
  constructor; [| constructor]. eapply (tame_names root Ht); try eassumption. now left.
Qed.
Lemma good_colon_free x : good_name x -> colon_free x.
Proof. intros [_ H] Hi. rewrite forallb_forall in H. specialize (H _ Hi). discriminate H. Qed.
Lemma good_trail_colon_free root ps c : tame_commands root -> located root ps c -> Forall colon_free (trail ps c).
Proof. intros Ht H. eapply Forall_impl; [exact good_colon_free | eapply good_trail; eassumption]. Qed.

Lemma path_inj root ps c ps' c' : built root -> tame_commands root -> located root ps c -> located root ps' c' ->
  get_subcommand_path ps c = get_subcommand_path ps' c' -> (ps, c) = (ps', c').
Proof.
  intros Hb Ht H H' E. rewrite !path_colons in E. apply app_inv_head in E.
  apply colons_inj in E; try (eapply good_trail_colon_free; eassumption). now apply (trail_inj root Hb).
Qed.

(** The pattern of a command that passes on its options matches the paths of its descendants only. *)
Lemma path_scope root ps c ps' c' : built root -> tame_commands root -> located root ps c -> located root ps' c' ->
  (in_scope (ps, c) (ps', c') <->
   if inherits c' then is_prefix (get_subcommand_path ps' c') (get_subcommand_path ps c)
   else get_subcommand_path ps c = get_subcommand_path ps' c').
Proof.
  intros Hb Ht H H'.
  assert (Hin : inherits c' = true <-> passes_on c').
  { unfold inherits, passes_on. destruct (c_inherit c'); cbn; split; congruence. }
  split.
  - intros [E | [Ha Hp]].
    + injection E as -> ->. destruct (inherits c); [exists []; now rewrite app_nil_r | reflexivity].
    + apply Hin in Hp. cbn [snd] in Hp. rewrite Hp. destruct (ancestors_trail ps c (ps', c') Ha) as (r & E). cbn [fst snd] in E.
      exists (colons r). now rewrite !path_colons, E, colons_app, app_assoc.
  - destruct (inherits c') eqn:Ei.
    2:{ intros E. left. symmetry. now apply (path_inj root). }
    intros (t & E). rewrite !path_colons, <- app_assoc in E. apply app_inv_head in E.
    pose proof (good_trail_colon_free _ _ _ Ht H) as F. pose proof (good_trail_colon_free _ _ _ Ht H') as F'.
    destruct (colons_prefix _ _ F' F) as [(r & Er) | (l0 & x & y & r & E1 & E2 & Hxy & Hn)].
    + now exists t.
    + destruct (trail_prefix root Hb ps c H ps' c' r H' Er) as [Ep | Ha]; [left; exact Ep |].
      right. split; [exact Ha |]. now apply Hin.
    + exfalso. assert (G : forall ps c, located root ps c -> forall l0 y r, trail ps c = l0 ++ y :: r ->
        exists ps0 c0 d, located root ps0 c0 /\ In d (subs c0) /\ trail ps0 c0 = l0 /\ c_prog d = y).
      { clear. intros ps c H. induction H as [| ps c sub H IH Hi]; intros l0 y r E; [now destruct l0 |].
        rewrite trail_sub in E. destruct r as [| z r] using rev_ind.
        - apply app_inj_tail in E as [E1 E2]. exists ps, c, sub. auto.
        - rewrite app_comm_cons, app_assoc in E. apply app_inj_tail in E as [E _]. eapply IH. exact E. }
      destruct (G _ _ H l0 y r E2) as (ps0 & c0 & d & Hl0 & Hd & Et & Ey).
      destruct H' as [| ps1 c1 sub1 H1 Hi1]; [rewrite trail_root in E1; now destruct l0 |].
      rewrite trail_sub in E1. apply app_inj_tail in E1 as [E1 E1'].
      assert ((ps1, c1) = (ps0, c0)) as Ep by (apply (trail_inj root Hb); [exact H1 | exact Hl0 | congruence]).
      injection Ep as <- <-. apply Hn. subst x y.
      now rewrite (tame_prefix root Ht ps1 c1 sub1 d H1 Hi1 Hd (proj1 Hin eq_refl) Hxy).
Qed.
