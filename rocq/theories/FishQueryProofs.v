(** * Proofs about how fish scripts read the command line. *)
From Verif Require Import Base Value Shell StrUtils Cli CliProofs CliMore SpecCli BashUtils BashParser SpecParser
  ParserPaths ParserTables ParserProofs FishRuntime FishQuery SpecQuery.
Open Scope list_scope.

(** ** Regular expressions *)
Lemma special_alnum c : memc c re_special = true -> is_lower c || is_upper c || is_digit c = false.
Proof.
  unfold memc. rewrite existsb_exists. intros (d & Hd & E). apply N.eqb_eq in E as ->.
  repeat (destruct Hd as [<- | Hd]; [reflexivity |]). destruct Hd.
Qed.
Lemma not_special c : memc c re_special = false ->
  N.eqb c 41 = false /\ N.eqb c 124 = false /\ N.eqb c BS = false /\ memc c (s "()[]{}?*+|^$.") = false.
Proof.
  intros H. assert (G : forall d, memc d re_special = true -> N.eqb c d = false).
  { intros d Hd. apply N.eqb_neq. intros ->. congruence. }
  repeat split; try (apply G; reflexivity).
  destruct (memc c (s "()[]{}?*+|^$.")) eqn:E; [| reflexivity]. exfalso.
  unfold memc in E. apply existsb_exists in E as (d & Hd & E). apply N.eqb_eq in E as ->.
  repeat (destruct Hd as [<- | Hd]; [discriminate H |]). destruct Hd.
Qed.
Lemma alternatives_escape x : forall acc r, alternatives acc (re_escape x ++ r) = alternatives (rev x ++ acc) r.
Proof.
  induction x as [| c x IH]; intros acc r; [reflexivity |]. cbn [re_escape flat_map]. fold (re_escape x).
  destruct (memc c re_special) eqn:E.
  - cbn [app alternatives]. change (N.eqb BS 41) with false. change (N.eqb BS 124) with false. rewrite N.eqb_refl. cbn iota.
    rewrite (special_alnum c E), IH. cbn [rev]. now rewrite <- app_assoc.
  - destruct (not_special c E) as (E1 & E2 & E3 & E4). cbn [app alternatives]. rewrite E1, E2, E3, E4, IH. cbn [rev]. now rewrite <- app_assoc.
Qed.
Lemma alternatives_join cmds : cmds <> [] -> alternatives [] (join (s "|") (map re_escape cmds) ++ s ")") = Some cmds.
Proof.
  induction cmds as [| x cmds IH]; intros Hn; [now destruct Hn |]. destruct cmds as [| y cmds].
  - cbn [map join]. rewrite alternatives_escape. cbn [alternatives s]. rewrite app_nil_r.
    change (s ")") with [41%N]. cbn [alternatives]. rewrite N.eqb_refl. now rewrite rev_involutive.
  - cbn [map]. rewrite join_cons. change (re_escape y :: map re_escape cmds) with (map re_escape (y :: cmds)). rewrite <- !app_assoc, alternatives_escape, app_nil_r.
    change (s "|") with [124%N] at 1. cbn [app alternatives].
    change (N.eqb 124 41) with false. change (N.eqb 124 124) with true. cbn iota. rewrite IH by discriminate.
    cbn [option_map]. now rewrite rev_involutive.
Qed.
Definition bracket (cmds : list str) : str := s "(" ++ join (s "|") (map re_escape cmds) ++ s ")".
Lemma no_newline w c v : ~ In LF w -> rev w = c :: v -> N.eqb c LF = false.
Proof. intros H E. apply N.eqb_neq. intros ->. apply H. apply in_rev. rewrite E. now left. Qed.
Lemma string_match_plain r w : ~ In LF w -> string_match r w = whole_match r w.
Proof.
  intros H. unfold string_match. destruct (rev w) as [| c v] eqn:E; [now rewrite orb_false_r |].
  rewrite (no_newline w c v H E). cbn [andb]. now rewrite orb_false_r.
Qed.
Lemma match_bracket cmds w : cmds <> [] -> ~ In LF w -> (string_match (bracket cmds) w = true <-> In w cmds).
Proof.
  intros Hn Hw. rewrite string_match_plain by exact Hw. unfold bracket, whole_match.
  change (s "(") with [40%N]. cbn [app]. change (N.eqb 40 40) with true. cbn iota.
  replace (str_eqb (40%N :: join (s "|") (map re_escape cmds) ++ s ")") (s ".*")) with false by reflexivity.
  rewrite (alternatives_join cmds Hn). unfold mems. rewrite existsb_exists. split.
  - intros (x & Hx & E). apply str_eqb_eq in E as ->. exact Hx.
  - intros Hx. exists w. split; [exact Hx |]. now apply str_eqb_eq.
Qed.
Lemma match_anything w : ~ In LF w -> string_match (s ".*") w = true.
Proof.
  intros Hw. rewrite string_match_plain by exact Hw. change (whole_match (s ".*") w) with (negb (memc LF w)).
  destruct (memc LF w) eqn:E; [| reflexivity]. exfalso. apply Hw. unfold memc in E. apply existsb_exists in E as (d & Hd & E).
  apply N.eqb_eq in E as ->. exact Hd.
Qed.
Lemma match_nothing w : ~ In LF w -> (string_match [] w = true <-> w = []).
Proof. intros Hw. rewrite string_match_plain by exact Hw. cbn [whole_match]. apply str_eqb_eq. Qed.

(** ** Patterns *)
Lemma sparse_past l : forall i v, List.length l <= i -> sparse_set l i v = l ++ repeat (s ".*") (i - List.length l) ++ [v].
Proof.
  induction l as [| x l IH]; intros i v H.
  - cbn [List.length app]. rewrite Nat.sub_0_r. clear H. induction i as [| i IH]; [reflexivity |]. cbn [sparse_set repeat app]. now rewrite IH.
  - destruct i as [| i]; [cbn in H; lia |]. cbn [sparse_set app List.length Nat.sub]. rewrite IH by (cbn in H; lia). reflexivity.
Qed.
Section Patterns.
Context (root : cmd) (Hb : built root) (Hd : clear_definition root).

Lemma selector_index rs c : located root rs c -> positional_index rs (subcommands_number c) = (consumed c - 1 + sum (map consumed rs))%Z.
Proof.
  intros Hl. pose proof (ParserProofs.selector_number root rs c Hl). lia.
Qed.
(** the number of patterns *)
Definition taken_n (rs : list cmd) : nat := Z.to_nat (sum (map consumed rs)).
Lemma taken_cons c rs : Z.of_nat (taken_n (c :: rs)) = (consumed c + sum (map consumed rs))%Z.
Proof.
  unfold taken_n. change (sum (map consumed (c :: rs))) with (consumed c + sum (map consumed rs))%Z.
  pose proof (consumed_pos c). pose proof (sum_nonneg rs). lia.
Qed.
Lemma patterns_shape rs p c r : located root (p :: rs) c -> positional_patterns (p :: rs) c = Ok r ->
  exists r0 cmds, positional_patterns rs p = Ok r0 /\ get_all_command_variations c (Some p) = Ok cmds /\
    (List.length r0 = taken_n rs -> r = r0 ++ repeat (s ".*") (taken_n (p :: rs) - 1 - taken_n rs) ++ [bracket cmds]).
Proof.
  intros Hl H. cbn [positional_patterns] in H. apply bind_ok in H as (r0 & H0 & H). apply bind_ok in H as (cmds & Hc & H).
  exists r0, cmds. split; [exact H0 |]. split; [exact Hc |]. intros Hlen. apply inr_inj in H. rewrite <- H. clear H.
  assert (Hp : located root rs p) by now inversion Hl. rewrite (selector_index rs p Hp).
  pose proof (consumed_pos p). pose proof (sum_nonneg rs). pose proof (taken_cons p rs).
  rewrite sparse_past.
  - f_equal. f_equal. f_equal. rewrite Hlen. unfold taken_n in *. lia.
  - rewrite Hlen. unfold taken_n. lia.
Qed.
Lemma taken_step p rs : taken_n rs < taken_n (p :: rs).
Proof. pose proof (taken_cons p rs). pose proof (consumed_pos p). unfold taken_n in *. pose proof (sum_nonneg rs). lia. Qed.
Lemma patterns_length rs : forall c r, located root rs c -> positional_patterns rs c = Ok r -> List.length r = taken_n rs.
Proof.
  induction rs as [| p rs IH]; intros c r Hl H.
  - cbn in H. injection H as <-. reflexivity.
  - destruct (patterns_shape rs p c r Hl H) as (r0 & cmds & H0 & _ & E).
    assert (Hp : located root rs p) by now inversion Hl. pose proof (IH p r0 Hp H0) as L.
    rewrite (E L), !app_length, repeat_length, L. cbn [List.length]. pose proof (taken_step p rs). lia.
Qed.
Lemma patterns_last rs p c r : located root (p :: rs) c -> positional_patterns (p :: rs) c = Ok r ->
  exists r0 cmds, positional_patterns rs p = Ok r0 /\ get_all_command_variations c (Some p) = Ok cmds /\
    List.length r0 = taken_n rs /\ r = r0 ++ repeat (s ".*") (taken_n (p :: rs) - 1 - taken_n rs) ++ [bracket cmds].
Proof.
  intros Hl H. destruct (patterns_shape rs p c r Hl H) as (r0 & cmds & H0 & Hc & E). exists r0, cmds.
  assert (Hp : located root rs p) by now inversion Hl. pose proof (patterns_length rs p r0 Hp H0) as L. auto.
Qed.

(** [word_at k]: the word that selects *)
Definition matches_all (r : list str) (words : list str) : Prop :=
  forall i, i < List.length r -> string_match (nth i r []) (nth i words []) = true.
(** The words select [c]: at the position of the name of every command on the way there is one of
    its names; missing words count as empty. *)
Fixpoint leads (words : list str) (rs : list cmd) (c : cmd) : Prop :=
  match rs with
  | [] => True
  | p :: rs' => leads words rs' p /\ names p c (nth (taken_n rs - 1) words [])
  end.
Lemma sub_prog rs p c : located root (p :: rs) c -> c_prog c <> [].
Proof. intros Hl. inversion Hl as [| ? ? ? Hp Hs]; subst. exact (proj1 (clear_names root Hd _ _ _ _ Hp Hs (or_introl eq_refl))). Qed.
Lemma names_clear rs p c x : located root (p :: rs) c -> names p c x -> x <> [] /\ ~ In LF x /\ ~ In 62%N x.
Proof.
  intros Hl. inversion Hl as [| ? ? ? Hp Hs]; subst. intros [-> | [H | (_ & Hx & (t & E) & _)]].
  - eapply (clear_names root Hd); eauto.
  - eapply (clear_names root Hd); eauto.
  - destruct (clear_names root Hd _ _ _ (c_prog c) Hp Hs (or_introl eq_refl)) as (_ & H1 & H2).
    split; [exact Hx |]. rewrite E in H1, H2. split; intros K; [apply H1 | apply H2]; apply in_or_app; now left.
Qed.
Lemma variations_spec rs p c cmds : located root (p :: rs) c -> get_all_command_variations c (Some p) = Ok cmds ->
  cmds <> [] /\ forall x, In x cmds <-> names p c x.
Proof.
  intros Hl H. pose proof (sub_prog rs p c Hl) as Hne. inversion Hl as [| ? ? ? Hp Hs]; subst.
  pose proof (variations_names p c cmds Hs Hne H) as Hv. split; [| exact Hv].
  intros ->. apply (proj2 (Hv (c_prog c))). now left.
Qed.
Lemma nth_clean words i : (forall w, In w words -> ~ In LF w) -> ~ In LF (nth i words []).
Proof.
  intros Hw. destruct (Nat.lt_ge_cases i (List.length words)) as [H | H]; [apply Hw, nth_In, H |].
  rewrite nth_overflow by exact H. intros [].
Qed.
Lemma patterns_lead words rs : (forall w, In w words -> ~ In LF w) -> forall c r, located root rs c -> positional_patterns rs c = Ok r ->
  (matches_all r words <-> leads words rs c).
Proof.
  intros Hw. induction rs as [| p rs IH]; intros c r Hl H.
  - cbn in H. injection H as <-. split; [intros _; exact I | intros _ i Hi; cbn in Hi; lia].
  - destruct (patterns_last rs p c r Hl H) as (r0 & cmds & H0 & Hc & L & ->).
    assert (Hp : located root rs p) by now inversion Hl. specialize (IH p r0 Hp H0).
    destruct (variations_spec rs p c cmds Hl Hc) as [Hne Hv]. pose proof (taken_step p rs) as Ht.
    cbn [leads]. rewrite <- IH, <- Hv, <- (match_bracket cmds _ Hne (nth_clean words _ Hw)). unfold matches_all.
    rewrite !app_length, repeat_length, L. cbn [List.length]. split.
    + intros Hm. split.
      * intros i Hi. rewrite <- (Hm i) by lia. rewrite app_nth1 by (rewrite L; lia). reflexivity.
      * rewrite <- (Hm (taken_n (p :: rs) - 1)) by lia. f_equal. rewrite app_nth2 by (rewrite L; lia).
        rewrite app_nth2 by (rewrite repeat_length, L; lia). rewrite repeat_length, L.
        now replace (taken_n (p :: rs) - 1 - taken_n rs - (taken_n (p :: rs) - 1 - taken_n rs)) with 0 by lia.
    + intros [H1 H2] i Hi. destruct (Nat.lt_ge_cases i (taken_n rs)) as [Hlt | Hge].
      * rewrite app_nth1 by (rewrite L; lia). apply H1. lia.
      * rewrite app_nth2 by (rewrite L; lia). rewrite L.
        destruct (Nat.eq_dec i (taken_n (p :: rs) - 1)) as [-> | Hneq].
        -- rewrite app_nth2 by (rewrite repeat_length; lia). rewrite repeat_length.
           replace (taken_n (p :: rs) - 1 - taken_n rs - (taken_n (p :: rs) - 1 - taken_n rs)) with 0 by lia. exact H2.
        -- rewrite app_nth1 by (rewrite repeat_length; lia).
           replace (nth (i - taken_n rs) (repeat (s ".*") (taken_n (p :: rs) - 1 - taken_n rs)) []) with (s ".*").
           ++ apply match_anything. now apply nth_clean.
           ++ symmetry. apply (repeat_spec (taken_n (p :: rs) - 1 - taken_n rs)). apply nth_In. rewrite repeat_length. lia.
Qed.
(** no [>] in a pattern, and no [=] at its end *)
Definition calm (x : str) : Prop := ~ In 62%N x /\ exists y c, x = y ++ [c] /\ c <> EQ.
Lemma escape_no_gt x : ~ In 62%N x -> ~ In 62%N (re_escape x).
Proof.
  intros H K. apply in_flat_map in K as (c & Hc & K). destruct (memc c re_special).
  - destruct K as [K | [K | []]]; [discriminate K | subst; auto].
  - destruct K as [K | []]; subst; auto.
Qed.
Lemma join_no_gt l : (forall x, In x l -> ~ In 62%N x) -> ~ In 62%N (join (s "|") l).
Proof.
  induction l as [| x l IH]; intros H; [intros [] |]. destruct l as [| y l]; [apply H; now left |].
  rewrite join_cons. intros K. rewrite !in_app_iff in K. destruct K as [K | [K | K]].
  - revert K. apply H. now left.
  - destruct K as [K | []]; discriminate.
  - revert K. apply IH. intros z Hz. apply H. now right.
Qed.
Lemma patterns_calm rs : forall c r, located root rs c -> positional_patterns rs c = Ok r -> Forall calm r.
Proof.
  induction rs as [| p rs IH]; intros c r Hl H.
  - cbn in H. injection H as <-. constructor.
  - destruct (patterns_last rs p c r Hl H) as (r0 & cmds & H0 & Hc & L & ->).
    assert (Hp : located root rs p) by now inversion Hl. apply Forall_app. split; [exact (IH p r0 Hp H0) |].
    apply Forall_app. split.
    + apply Forall_forall. intros x Hx. apply repeat_spec in Hx as ->. split.
      * intros K. repeat (destruct K as [K | K]; [discriminate K |]). destruct K.
      * exists (s "."), 42%N. split; [reflexivity | discriminate].
    + constructor; [| constructor]. split.
      * unfold bracket. rewrite !in_app_iff. intros [K | [K | K]].
        -- destruct K as [K | []]; discriminate K.
        -- revert K. apply join_no_gt. intros x Hx. apply in_map_iff in Hx as (y & <- & Hy). apply escape_no_gt.
           destruct (variations_spec rs p c cmds Hl Hc) as [_ Hv]. now destruct (names_clear rs p c y Hl (proj1 (Hv y) Hy)) as (_ & _ & ?).
        -- destruct K as [K | []]; discriminate K.
      * exists (s "(" ++ join (s "|") (map re_escape cmds)), 41%N. unfold bracket. rewrite <- app_assoc. split; [reflexivity | discriminate].
Qed.
Lemma split_arrow_calm x y : calm x -> split_arrow (x ++ y) = let (a, b) := split_arrow y in (x ++ a, b).
Proof.
  intros [Hg (z & e & -> & He)]. revert y. induction z as [| c z IH]; intros y.
  - cbn [app]. cbn [split_arrow]. destruct y as [| d y]; [reflexivity |].
    replace (N.eqb e EQ) with false by (symmetry; now apply N.eqb_neq). cbn [andb]. destruct (split_arrow (d :: y)). reflexivity.
  - assert (Hg' : ~ In 62%N (z ++ [e])) by (intros K; apply Hg; now right). specialize (IH Hg' y).
    cbn [app] in *. cbn [split_arrow]. destruct ((z ++ [e]) ++ y) as [| d u] eqn:E; [destruct z; discriminate E |].
    assert (Hd' : N.eqb d 62 = false).
    { apply N.eqb_neq. intros ->. apply Hg'. destruct z as [| f z]; cbn [app] in E; injection E as E1 _; rewrite E1; now left. }
    rewrite Hd', andb_false_r, IH. now destruct (split_arrow y).
Qed.
Lemma split_arrow_join l y : Forall calm l -> split_arrow (join (s ">") l ++ s "=>" ++ y) = (join (s ">") l, y).
Proof.
  intros H. induction H as [| x l Hx H IH].
  - reflexivity.
  - destruct l as [| z l].
    + cbn [join]. rewrite (split_arrow_calm x _ Hx). change (split_arrow (s "=>" ++ y)) with (@nil N, y). cbn beta iota. now rewrite app_nil_r.
    + rewrite join_cons. rewrite <- !app_assoc, (split_arrow_calm x _ Hx).
      change (s ">" ++ join (s ">") (z :: l) ++ s "=>" ++ y) with (62%N :: join (s ">") (z :: l) ++ s "=>" ++ y).
      assert (E : forall u, split_arrow (62%N :: u) = let (a, b) := split_arrow u in (62%N :: a, b)) by (intros [| ? ?]; reflexivity).
      rewrite E, IH. reflexivity.
Qed.
Lemma match_pattern words rs c pat : located root rs c -> (forall w, In w words -> ~ In LF w) ->
  get_positional_pattern rs c = Ok pat ->
  (match_positionals words pat = true <-> (rs = [] -> nth 0 words [] = []) /\ leads words rs c).
Proof.
  intros Hl Hw H. unfold get_positional_pattern in H. apply bind_ok in H as (r & Hr & H). apply inr_inj in H as <-.
  pose proof (patterns_length rs c r Hl Hr) as L. rewrite <- (patterns_lead words rs Hw c r Hl Hr).
  unfold match_positionals. rewrite forallb_forall. destruct rs as [| p rs].
  - cbn in Hr. injection Hr as <-. cbn [join]. cbn [split_c List.length]. split.
    + intros Hm. split; [| intros i Hi; cbn in Hi; lia]. intros _. apply (match_nothing _ (nth_clean words 0 Hw)). apply (Hm 0). now left.
    + intros [E _] i [<- | []]. apply (match_nothing _ (nth_clean words 0 Hw)). now apply E.
  - assert (Hne : r <> []) by (intros ->; pose proof (taken_step p rs); cbn [List.length] in L; lia).
    change (s ">") with [62%N]. rewrite split_join_c; [| exact Hne |].
    + unfold matches_all. split.
      * intros Hm. split; [discriminate |]. intros i Hi. apply Hm. apply in_rev. rewrite rev_involutive. apply in_seq. lia.
      * intros [_ Hm] i Hi. apply in_rev in Hi. apply in_seq in Hi. apply Hm. lia.
    + intros w Hin. pose proof (proj1 (Forall_forall _ _) (patterns_calm _ c r Hl Hr) w Hin) as Hc. exact (proj1 Hc).
Qed.

(** ** Option strings *)
Definition render (o : opt) : list str :=
  if has_required_arg o then map (fun x => x ++ s "=") (o_strings o)
  else if has_optional_arg o then map (fun x => x ++ s "=?") (o_strings o)
  else o_strings o.
Lemma eq_end (x y t u : str) : ~ In EQ x -> ~ In EQ y -> x ++ EQ :: t = y ++ EQ :: u -> x = y /\ t = u.
Proof.
  revert y. induction x as [| c x IH]; intros [| d y] Hx Hy E; cbn [app] in E.
  - injection E as ->. auto.
  - injection E as <- _. exfalso. apply Hy. now left.
  - injection E as -> _. exfalso. apply Hx. now left.
  - injection E as -> E. destruct (IH y) as [-> ->]; [intros K; apply Hx; now right | intros K; apply Hy; now right | exact E | auto].
Qed.
Lemma render_word o x w : In w (render o) -> ~ In EQ x -> (forall y, In y (o_strings o) -> ~ In EQ y) ->
  (w = x <-> In x (o_strings o) /\ arg_kind o = ArgNone /\ w = x) /\
  (w = x ++ s "=" <-> In x (o_strings o) /\ arg_kind o = ArgRequired /\ w = x ++ s "=") /\
  (w = x ++ s "=?" <-> In x (o_strings o) /\ arg_kind o = ArgOptional /\ w = x ++ s "=?").
Proof.
  intros Hw Hx Hs. change (s "=?") with [EQ; 63%N] in *. change (s "=") with [EQ] in *.
  assert (Hin : forall y t, In EQ (y ++ EQ :: t)) by (intros; apply in_or_app; right; now left).
  assert (P : forall A B : Prop, (A -> B) -> (A <-> B /\ A)) by tauto.
  unfold render in Hw. change (s "=?") with [EQ; 63%N] in Hw. change (s "=") with [EQ] in Hw.
  destruct (kind_cases o) as [(K & K1 & K2) | [(K & K1 & K2) | (K & K1 & K2)]]; rewrite K1, K2 in Hw; rewrite K.
  - apply in_map_iff in Hw as (y & <- & Hy). split; [| split]; split; try tauto.
    + intros E. exfalso. apply Hx. rewrite <- E. apply Hin.
    + intros E. destruct (eq_end y x [63%N] [] (Hs y Hy) Hx E) as [_ Q]. discriminate.
    + intros E. destruct (eq_end y x _ _ (Hs y Hy) Hx E) as [-> _]. auto.
  - apply in_map_iff in Hw as (y & <- & Hy). split; [| split]; split; try tauto.
    + intros E. exfalso. apply Hx. rewrite <- E. apply Hin.
    + intros E. destruct (eq_end y x _ _ (Hs y Hy) Hx E) as [-> _]. auto.
    + intros E. destruct (eq_end y x [] [63%N] (Hs y Hy) Hx E) as [_ Q]. discriminate.
  - split; [| split]; split; try tauto.
    + intros ->. auto.
    + intros ->. exfalso. apply (Hs _ Hw). apply Hin.
    + intros ->. exfalso. apply (Hs _ Hw). apply Hin.
Qed.
Lemma lookup_some x l k : lookup_option x l = Some k ->
  exists w, In w l /\ (w = x /\ k = ArgNone \/ w = x ++ s "=" /\ k = ArgRequired \/ w = x ++ s "=?" /\ k = ArgOptional).
Proof.
  induction l as [| w l IH]; cbn [lookup_option]; [discriminate |].
  destruct (str_eqb_spec w x) as [-> | _]; [intros [= <-]; exists x; split; [now left | auto] |].
  destruct (str_eqb_spec w (x ++ s "=")) as [-> | _]; [intros [= <-]; exists (x ++ s "="); split; [now left | auto] |].
  destruct (str_eqb_spec w (x ++ s "=?")) as [-> | _]; [intros [= <-]; exists (x ++ s "=?"); split; [now left | auto] |].
  intros H. destruct (IH H) as (v & Hv & E). exists v. split; [now right | exact E].
Qed.
Lemma lookup_none x l : lookup_option x l = None -> ~ In x l /\ ~ In (x ++ s "=") l /\ ~ In (x ++ s "=?") l.
Proof.
  induction l as [| w l IH]; cbn [lookup_option In]; [tauto |].
  destruct (str_eqb_spec w x); [discriminate |]. destruct (str_eqb_spec w (x ++ s "=")); [discriminate |].
  destruct (str_eqb_spec w (x ++ s "=?")); [discriminate |]. intros H. destruct (IH H) as (H1 & H2 & H3). tauto.
Qed.
Lemma render_own o x : In x (o_strings o) ->
  match arg_kind o with ArgNone => In x (render o) | ArgRequired => In (x ++ s "=") (render o) | ArgOptional => In (x ++ s "=?") (render o) end.
Proof.
  intros Hx. unfold render. destruct (kind_cases o) as [(K & K1 & K2) | [(K & K1 & K2) | (K & K1 & K2)]]; rewrite K, K1, K2;
    [| | exact Hx]; apply in_map_iff; exists x; auto.
Qed.
Definition own_words (rs : list cmd) (c : cmd) : list str := split_c SP (get_query_option_strings rs c false).
Lemma own_words_eq rs c : located root rs c -> c_options c <> [] -> own_words rs c = flat_map render (get_options rs c false false).
Proof.
  intros Hl Hne. unfold own_words, get_query_option_strings. fold render.
  assert (Hv : forall o, In o (get_options rs c false false) -> o_strings o <> [] /\ forall x, In x (o_strings o) -> ~ In SP x).
  { intros o Ho. apply (get_options_own root rs c o Hb Hl) in Ho. destruct (built_valid root rs c Hb Hl) as (_ & _ & Hopt & _).
    destruct (Hopt o Ho) as (H1 & H2 & _). split; [exact H1 |]. intros x Hx K. destruct (H2 x Hx) as (y & -> & _ & _ & Hy).
    destruct K as [K | K]; [discriminate K |]. destruct (Hy _ K) as [Q _]. discriminate Q. }
  apply split_join_c.
  - intros E. assert (exists o, In o (get_options rs c false false)) as (o & Ho).
    { destruct (c_options c) as [| o l] eqn:Ec; [now destruct Hne |]. exists o. apply (get_options_own root rs c o Hb Hl). rewrite Ec. now left. }
    destruct (Hv o Ho) as [Hn _]. destruct (o_strings o) as [| x l] eqn:Es; [now destruct Hn |].
    assert (Hx : In x (o_strings o)) by (rewrite Es; now left). pose proof (render_own o x Hx) as Hr.
    assert (forall w, ~ In w (render o)) as F.
    { intros w Hw. assert (In w (flat_map render (get_options rs c false false))) by (apply in_flat_map; eauto).
      rewrite E in H. exact H. }
    destruct (arg_kind o); eapply F; exact Hr.
  - intros w Hw. apply in_flat_map in Hw as (o & Ho & Hw). destruct (Hv o Ho) as [_ Hsp]. unfold render in Hw.
    destruct (has_required_arg o); [| destruct (has_optional_arg o)].
    + apply in_map_iff in Hw as (x & <- & Hx). rewrite in_app_iff. intros [K | K]; [now apply (Hsp x) | destruct K as [K | []]; discriminate K].
    + apply in_map_iff in Hw as (x & <- & Hx). rewrite in_app_iff. intros [K | K]; [now apply (Hsp x) |].
      destruct K as [K | [K | []]]; discriminate K.
    + now apply Hsp.
Qed.
Lemma lookup_own rs c x : located root rs c -> c_options c <> [] -> ~ In EQ x ->
  (forall k, lookup_option x (own_words rs c) = Some k -> exists o, In o (c_options c) /\ In x (o_strings o) /\ k = arg_kind o) /\
  (forall o, In o (c_options c) -> In x (o_strings o) -> lookup_option x (own_words rs c) <> None).
Proof.
  intros Hl Hne Hx. rewrite (own_words_eq rs c Hl Hne). split.
  - intros k H. apply lookup_some in H as (w & Hw & E). apply in_flat_map in Hw as (o & Ho & Hw).
    apply (get_options_own root rs c o Hb Hl) in Ho. exists o. split; [exact Ho |].
    destruct (render_word o x w Hw Hx) as (R1 & R2 & R3).
    { intros y Hy. exact (clear_strings root Hd rs c o y Hl Ho Hy). }
    destruct E as [[E ->] | [[E ->] | [E ->]]].
    + apply R1 in E as (H1 & H2 & _). auto.
    + apply R2 in E as (H1 & H2 & _). auto.
    + apply R3 in E as (H1 & H2 & _). auto.
  - intros o Ho Hs H. apply lookup_none in H as (H1 & H2 & H3). pose proof (render_own o x Hs) as Hr.
    assert (G : forall w, In w (render o) -> In w (flat_map render (get_options rs c false false))).
    { intros w Hw. apply in_flat_map. exists o. split; [now apply (get_options_own root rs c o Hb Hl) | exact Hw]. }
    destruct (arg_kind o); apply G in Hr; contradiction.
Qed.

(** ** Definitions *)
Context (defs : list str) (Hdefs : get_cmdline_definitions root = Ok defs).
Lemma query_strings_empty rs c : located root rs c -> (get_query_option_strings rs c false = [] <-> c_options c = []).
Proof.
  intros Hl. split.
  - intros E. destruct (c_options c) as [| o l] eqn:Ec; [reflexivity |]. exfalso.
    assert (Hne : c_options c <> []) by (rewrite Ec; discriminate). pose proof (own_words_eq rs c Hl Hne) as Hw.
    unfold own_words in Hw. rewrite E in Hw. cbn [split_c] in Hw.
    assert (Ho : In o (c_options c)) by (rewrite Ec; now left). destruct (built_valid root rs c Hb Hl) as (_ & _ & Hopt & _).
    destruct (Hopt o Ho) as (H1 & H2 & _). destruct (o_strings o) as [| x xs] eqn:Es; [now destruct H1 |].
    assert (Hx : In x (o_strings o)) by (rewrite Es; now left). pose proof (render_own o x Hx) as Hr.
    assert (G : forall w, In w (render o) -> w = []).
    { intros w Hin. assert (K : In w [[]]); [rewrite Hw; apply in_flat_map; exists o; split; [now apply (get_options_own root rs c o Hb Hl) | exact Hin] |].
      destruct K as [K | []]. now symmetry. }
    rewrite <- Es in H2. destruct (H2 x Hx) as (y & -> & _). destruct (arg_kind o); apply G in Hr; discriminate Hr.
  - intros E. unfold get_query_option_strings.
    assert (get_options rs c false false = []) as ->; [| reflexivity].
    destruct (get_options rs c false false) as [| o l] eqn:Eo; [reflexivity |].
    assert (In o (c_options c)) as K; [apply (get_options_own root rs c o Hb Hl); rewrite Eo; now left | rewrite E in K; destruct K].
Qed.
Lemma definition_iff d : In d defs <-> exists rs c pat, located root rs c /\ c_options c <> [] /\
  get_positional_pattern rs c = Ok pat /\ d = pat ++ s "=>" ++ get_query_option_strings rs c false.
Proof.
  unfold get_cmdline_definitions in Hdefs. apply bind_ok in Hdefs as (l & Hl & E). apply inr_inj in E as <-.
  apply map_res_ok in Hl. rewrite in_concat. split.
  - intros (l0 & Hl0 & Hin). destruct (Forall2_In_r _ _ _ _ Hl Hl0) as ([rs c] & Hp & E).
    apply visit_iff in Hp as (rs' & Er & Hloc). rewrite app_nil_r in Er. subst rs'.
    pose proof (query_strings_empty rs c Hloc) as Hq. destruct (get_query_option_strings rs c false) as [| a q] eqn:Eq.
    + apply inr_inj in E as <-. destruct Hin.
    + apply bind_ok in E as (pat & Hpat & E). apply inr_inj in E as <-. destruct Hin as [<- | []].
      exists rs, c, pat. rewrite Eq. split; [exact Hloc |]. split; [| auto]. intros K. apply Hq in K. discriminate K.
  - intros (rs & c & pat & Hloc & Hne & Hpat & ->).
    assert (Hv : In (rs, c) (visit_commandlines [] root)) by (apply visit_iff; exists rs; rewrite app_nil_r; auto).
    destruct (Forall2_In_l _ _ _ _ Hl Hv) as (l0 & Hl0 & E). exists l0. split; [exact Hl0 |].
    pose proof (query_strings_empty rs c Hloc) as Hq. destruct (get_query_option_strings rs c false) as [| a q] eqn:Eq.
    + exfalso. apply Hne, Hq. reflexivity.
    + cbn beta iota in E. rewrite Hpat in E. cbn [bind] in E. apply inr_inj in E as <-. now left.
Qed.
Lemma patterns_total rs : forall c, located root rs c -> exists r, positional_patterns rs c = Ok r.
Proof.
  induction rs as [| p rs IH]; intros c Hl; [now exists [] |]. inversion Hl as [| ? ? ? Hp Hs]; subst. destruct (IH p Hp) as (r & Hr).
  destruct (variations_total p c Hs) as (l & Hv & _). cbn [positional_patterns]. rewrite Hr, Hv. cbn [bind]. now eexists.
Qed.
Lemma pattern_total rs c : located root rs c -> exists pat, get_positional_pattern rs c = Ok pat.
Proof. intros Hl. destruct (patterns_total rs c Hl) as (r & Hr). unfold get_positional_pattern. rewrite Hr. now eexists. Qed.
Lemma definition_parts rs c pat y : located root rs c -> get_positional_pattern rs c = Ok pat -> split_arrow (pat ++ s "=>" ++ y) = (pat, y).
Proof.
  intros Hl H. unfold get_positional_pattern in H. apply bind_ok in H as (r & Hr & H). apply inr_inj in H as <-.
  apply split_arrow_join. eapply patterns_calm; eassumption.
Qed.
Let m := get_macros root.
(** the definition of [c] applies *)
Definition applies (words : list str) (rs : list cmd) (c : cmd) : Prop :=
  m_subcommands m = true -> (rs = [] -> nth 0 words [] = []) /\ leads words rs c.
Lemma applies_iff words rs c pat : located root rs c -> (forall w, In w words -> ~ In LF w) -> get_positional_pattern rs c = Ok pat ->
  ((if m_subcommands m then match_positionals words pat else true) = true <-> applies words rs c).
Proof.
  intros Hl Hw Hp. unfold applies. pose proof (match_pattern words rs c pat Hl Hw Hp) as H. destruct (m_subcommands m).
  - rewrite H. split; [intros K _; exact K | intros K; now apply K].
  - split; [intros _ K; discriminate K | reflexivity].
Qed.
Lemma find_option_spec words x : (forall w, In w words -> ~ In LF w) -> ~ In EQ x ->
  (forall k, find_option m words (rev defs) x = Some k ->
     exists rs c o, located root rs c /\ applies words rs c /\ In o (c_options c) /\ In x (o_strings o) /\ k = arg_kind o) /\
  (forall rs c o, located root rs c -> applies words rs c -> In o (c_options c) -> In x (o_strings o) ->
     find_option m words (rev defs) x <> None).
Proof.
  intros Hw Hx.
  assert (G : forall l, (forall d, In d l -> In d defs) ->
    (forall k, find_option m words l x = Some k ->
       exists rs c o, located root rs c /\ applies words rs c /\ In o (c_options c) /\ In x (o_strings o) /\ k = arg_kind o) /\
    (forall rs c o pat, located root rs c -> applies words rs c -> In o (c_options c) -> In x (o_strings o) ->
       get_positional_pattern rs c = Ok pat -> In (pat ++ s "=>" ++ get_query_option_strings rs c false) l ->
       find_option m words l x <> None)).
  { induction l as [| d l IH]; intros Hin; [split; [discriminate | intros ? ? ? ? ? ? ? ? ? []] |].
    destruct (IH (fun d Hd => Hin d (or_intror Hd))) as [IH1 IH2].
    destruct (proj1 (definition_iff d) (Hin d (or_introl eq_refl))) as (rs & c & pat & Hl & Hne & Hp & Ed).
    cbn [find_option]. pose proof (definition_parts rs c pat (get_query_option_strings rs c false) Hl Hp) as Hs. rewrite <- Ed in Hs. rewrite Hs.
    pose proof (applies_iff words rs c pat Hl Hw Hp) as Ha. fold (own_words rs c).
    destruct (lookup_own rs c x Hl Hne Hx) as [L1 L2].
    split.
    - intros k H. destruct (if m_subcommands m then match_positionals words pat else true); [| now apply IH1].
      destruct (lookup_option x (own_words rs c)) as [k' |] eqn:El; [| now apply IH1]. injection H as ->.
      destruct (L1 k eq_refl) as (o & Ho & Hs' & ->). exists rs, c, o. repeat split; try assumption; now apply Ha.
    - intros rs' c' o pat' Hl' Ha' Ho Hs' Hp' [E | Hin'].
      + rewrite Ed in E. pose proof (definition_parts rs' c' pat' (get_query_option_strings rs' c' false) Hl' Hp') as Hs2.
        rewrite <- E, <- Ed, Hs in Hs2. injection Hs2 as E1 E2.
        assert (Hne' : c_options c' <> []) by (intros K; rewrite K in Ho; destruct Ho).
        destruct (lookup_own rs' c' x Hl' Hne' Hx) as [_ L2']. specialize (L2' o Ho Hs').
        pose proof (applies_iff words rs' c' pat' Hl' Hw Hp') as Ha2. rewrite E1. rewrite (proj2 Ha2 Ha').
        unfold own_words in *. rewrite E2. destruct (lookup_option x (split_c SP (get_query_option_strings rs' c' false))); [discriminate | congruence].
      + specialize (IH2 rs' c' o pat' Hl' Ha' Ho Hs' Hp' Hin').
        destruct (if m_subcommands m then match_positionals words pat else true); [| exact IH2].
        destruct (lookup_option x (own_words rs c)); [discriminate | exact IH2]. }
  destruct (G (rev defs)) as [G1 G2]; [intros d K; now apply in_rev |]. split; [exact G1 |].
  intros rs c o Hl Ha Ho Hs. destruct (pattern_total rs c Hl) as (pat & Hp). apply (G2 rs c o pat Hl Ha Ho Hs Hp).
  apply in_rev. rewrite rev_involutive. apply definition_iff. exists rs, c, pat. repeat split; auto. intros K. rewrite K in Ho. destruct Ho.
Qed.
End Patterns.
