(** * Proofs about the patterns of crazy_complete/bash_utils.py. *)
From Verif Require Import Base Shell StrUtils SpecShell SpecGlob BashPatterns BashPatternsProofs BashUtils.
Open Scope list_scope.

(** ** Alternatives of a [case] clause *)
Lemma read_pairs parts : (forall p, In p parts -> reads (fst p) (snd p) /\ snd p <> []) -> parts <> [] ->
  forall alts, read true GPlain [] alts None None (join (s "|") (map fst parts)) = Some (alts ++ map snd parts).
Proof.
  induction parts as [| [x gs] parts IH]; intros H Hn alts; [now destruct Hn |].
  destruct (H (x, gs) (or_introl eq_refl)) as [(_ & _ & R) Hg]. cbn [fst snd] in R, Hg.
  assert (Epush : push_all None gs = Some gs) by (destruct gs; [now destruct Hg | reflexivity]).
  destruct parts as [| [y hs] parts].
  - cbn [join map fst snd]. rewrite <- (app_nil_r x) at 1. rewrite R by discriminate. now rewrite Epush.
  - change (map fst ((x, gs) :: (y, hs) :: parts)) with (x :: map fst ((y, hs) :: parts)).
    change (map snd ((x, gs) :: (y, hs) :: parts)) with (gs :: map snd ((y, hs) :: parts)).
    set (rest := (y, hs) :: parts) in *.
    assert (Ej : join (s "|") (x :: map fst rest) = x ++ s "|" ++ join (s "|") (map fst rest)) by reflexivity.
    rewrite Ej, R by discriminate. rewrite Epush.
    set (z := join (s "|") (map fst rest)) in *. change (s "|" ++ z) with (PIPE :: z). rewrite read_plain.
    assert (E : ext_open PIPE z = None) by (destruct z; [| cbn -[N.eqb]; destruct (N.eqb _ _)]; reflexivity).
    rewrite E. cbn -[read z map rest]. rewrite IH; [| intros a Ha; apply H; now right | discriminate].
    rewrite <- app_assoc. reflexivity.
Qed.
Lemma case_pairs parts w : (forall p, In p parts -> reads (fst p) (snd p) /\ snd p <> []) -> parts <> [] ->
  (case_matches (join (s "|") (map fst parts)) w <-> exists p, In p parts /\ seq_matches (snd p) w).
Proof.
  intros H Hn. unfold case_matches, read_case. rewrite (read_pairs parts H Hn). cbn [app]. split.
  - intros (alts & E & Hm). injection E as <-. apply any_matches_iff in Hm as (a & Ha & Hm).
    apply in_map_iff in Ha as (p & <- & Hp). exists p. auto.
  - intros (p & Hp & Hm). eexists. split; [reflexivity |]. apply any_matches_iff. exists (snd p).
    split; [now apply in_map | exact Hm].
Qed.
Lemma case_one x gs w : reads x gs -> gs <> [] -> (case_matches x w <-> seq_matches gs w).
Proof.
  intros Hr Hg. pose proof (case_pairs [(x, gs)] w) as H. cbn [map fst join] in H. rewrite H.
  - split; [intros (p & [<- | []] & Hm); exact Hm | intros Hm; exists (x, gs); split; [now left | exact Hm]].
  - intros p [<- | []]. now split.
  - discriminate.
Qed.

Lemma reads_star : reads [STAR] [AnyText].
Proof.
  split; [discriminate |]. split; [discriminate |]. intros top st alts cur rest Hr. cbn [app]. rewrite read_plain.
  assert (E : ext_open STAR rest = None).
  { unfold ext_open. destruct rest as [| d rest]; [reflexivity |].
    destruct (N.eqb_spec d LPAR) as [-> |]; [now destruct Hr | reflexivity]. }
  rewrite E. destruct cur; reflexivity.
Qed.
Lemma map_Char_nonempty x : x <> [] -> map Char x <> [].
Proof. destruct x; [congruence | discriminate]. Qed.

Definition plain_word (x : str) : Prop := x <> [] /\ forallb plain x = true.

Lemma long_without_arg strings w : strings <> [] -> (forall x, In x strings -> plain_word x) ->
  (case_matches (for_long_without_arg strings) w <-> In w strings).
Proof.
  intros Hn H. unfold for_long_without_arg.
  set (parts := map (fun x => (x, map Char x)) strings).
  assert (E : strings = map fst parts) by (unfold parts; rewrite map_map; symmetry; apply map_id).
  rewrite E at 1. rewrite case_pairs.
  - split.
    + intros (p & Hp & Hm). apply in_map_iff in Hp as (x & <- & Hx). apply seq_matches_chars in Hm. now subst w.
    + intros Hw. exists (w, map Char w). split; [apply in_map_iff; exists w; auto | now apply seq_matches_chars].
  - intros p Hp. apply in_map_iff in Hp as (x & <- & Hx). destruct (H x Hx) as [H1 H2]. cbn [fst snd].
    split; [now apply reads_chars | now apply map_Char_nonempty].
  - unfold parts. destruct strings; [now destruct Hn | discriminate].
Qed.
Lemma long_with_arg strings w : strings <> [] -> (forall x, In x strings -> plain_word x) ->
  (case_matches (for_long_with_arg strings) w <-> exists x v, In x strings /\ w = x ++ s "=" ++ v).
Proof.
  intros Hn H. unfold for_long_with_arg.
  set (parts := map (fun x => (x ++ s "=*", map Char x ++ [Char EQ; AnyText])) strings).
  assert (E : map (fun o => o ++ s "=*") strings = map fst parts) by (unfold parts; rewrite map_map; now apply map_ext).
  rewrite E. rewrite case_pairs.
  - split.
    + intros (p & Hp & Hm). apply in_map_iff in Hp as (x & <- & Hx). cbn [snd] in Hm.
      apply seq_matches_app in Hm as (u & v & -> & Hu & Hv). apply seq_matches_chars in Hu. subst u.
      apply (seq_matches_app [Char EQ] [AnyText]) in Hv as (u & v2 & -> & Hu & Hv).
      apply seq_matches_one in Hu. cbn in Hu. subst u. exists x, v2. now split.
    + intros (x & v & Hx & ->). exists (x ++ s "=*", map Char x ++ [Char EQ; AnyText]).
      split; [apply in_map_iff; exists x; auto |]. cbn [snd]. apply seq_matches_app. exists x, (s "=" ++ v).
      split; [reflexivity |]. split; [now apply seq_matches_chars |].
      apply (seq_matches_app [Char EQ] [AnyText]). exists [EQ], v. split; [reflexivity |].
      split; apply seq_matches_one; reflexivity.
  - intros p Hp. apply in_map_iff in Hp as (x & <- & Hx). destruct (H x Hx) as [H1 H2]. cbn [fst snd]. split.
    + apply reads_app; [now apply reads_chars |]. change (s "=*") with ([EQ] ++ [STAR]).
      apply (reads_app [EQ] [STAR] [Char EQ] [AnyText]); [now apply reads_char | apply reads_star].
    + destruct x; discriminate.
  - unfold parts. destruct strings; [now destruct Hn | discriminate].
Qed.
Lemma old_without_arg strings w : strings <> [] ->
  (forall x, In x strings -> exists y, x = DASH :: y /\ plain_word y /\ hd_error y <> Some DASH) ->
  (case_matches (for_old_without_arg strings) w <-> In w strings).
Proof.
  intros Hn H. unfold for_old_without_arg. destruct (Nat.leb _ _).
  - apply (long_without_arg strings w Hn). intros x Hx. destruct (H x Hx) as (y & -> & [H1 H2] & _).
    split; [discriminate |]. cbn. exact H2.
  - set (parts := map (fun x => (lstrip_dashes x, map Char (lstrip_dashes x))) strings).
    assert (E : map lstrip_dashes strings = map fst parts) by (unfold parts; rewrite map_map; now apply map_ext).
    rewrite E.
    assert (Hl : forall x, In x strings -> x = DASH :: lstrip_dashes x /\ plain_word (lstrip_dashes x)).
    { intros x Hx. destruct (H x Hx) as (y & -> & Hy & Hd). unfold lstrip_dashes. cbn [lstrip_p].
      change (N.eqb DASH DASH) with true. cbn iota.
      assert (Ey : lstrip_p (N.eqb DASH) y = y).
      { destruct y as [| c y]; [reflexivity |]. cbn [lstrip_p].
        destruct (N.eqb_spec DASH c) as [<- |]; [now destruct Hd | reflexivity]. }
      now rewrite Ey. }
    assert (R : reads (s "-@(" ++ join (s "|") (map fst parts) ++ s ")") ([Char DASH] ++ [Ext ExactlyOne (map snd parts)])).
    { change (s "-@(" ++ ?z) with ([DASH] ++ (s "@(" ++ z)).
      apply (reads_app [DASH] _ [Char DASH] _); [now apply reads_char |].
      apply reads_ext.
      - intros p Hp. apply in_map_iff in Hp as (x & <- & Hx). cbn [fst snd]. apply reads_chars. now apply Hl.
      - unfold parts. destruct strings; [now destruct Hn | discriminate]. }
    rewrite (case_one _ _ w R) by discriminate. rewrite seq_matches_app. split.
    + intros (u & v & -> & Hu & Hv). apply seq_matches_one in Hu. cbn in Hu. subst u.
      apply seq_matches_one in Hv. cbn [matches ext_matches] in Hv. apply any_matches_iff in Hv as (a & Ha & Hv).
      unfold parts in Ha. rewrite map_map in Ha. apply in_map_iff in Ha as (x & <- & Hx). cbn [snd] in Hv.
      apply seq_matches_chars in Hv. subst v. cbn [app]. now rewrite <- (proj1 (Hl x Hx)).
    + intros Hw. exists [DASH], (lstrip_dashes w). split; [exact (proj1 (Hl w Hw)) |].
      split; [now apply seq_matches_one |]. apply seq_matches_one. cbn [matches ext_matches].
      apply any_matches_iff. exists (map Char (lstrip_dashes w)). split; [| now apply seq_matches_chars].
      unfold parts. rewrite map_map. apply in_map_iff. exists w. now split.
Qed.
Lemma short_chars strings w : strings <> [] ->
  (forall x, In x strings -> exists c, x = [DASH; c] /\ plain c = true) ->
  (case_matches (for_short strings) w <-> exists c, w = [c] /\ In [DASH; c] strings).
Proof.
  intros Hn H. unfold for_short.
  change (join (s "|") (map (fun o => firstn 1 (skipn 1 o)) strings))
    with (for_long_without_arg (map (fun o : str => firstn 1 (skipn 1 o)) strings)).
  rewrite long_without_arg.
  - rewrite in_map_iff. split.
    + intros (x & <- & Hx). destruct (H x Hx) as (c & -> & _). exists c. now split.
    + intros (c & -> & Hx). exists [DASH; c]. now split.
  - destruct strings; [now destruct Hn | discriminate].
  - intros y Hy. apply in_map_iff in Hy as (x & <- & Hx). destruct (H x Hx) as (c & -> & Hc).
    split; [discriminate |]. cbn. now rewrite Hc.
Qed.

(** ** File extensions *)
Lemma letter_facts c : is_alpha c = true -> (65 <= c <= 90 \/ 97 <= c <= 122)%N.
Proof.
  unfold is_alpha, is_lower, is_upper. intros H. apply orb_prop in H as [H | H]; apply andb_prop in H as [H1 H2];
    apply N.leb_le in H1, H2; lia.
Qed.
Lemma case_facts c : is_alpha c = true ->
  (65 <= upper_c c <= 90)%N /\ lower_c c = (upper_c c + 32)%N /\ (c = upper_c c \/ c = lower_c c).
Proof.
  intros H. apply letter_facts in H. unfold lower_c, upper_c, is_lower, is_upper.
  destruct H as [H | H].
  - assert (E1 : ((97 <=? c) && (c <=? 122))%N = false) by (apply andb_false_iff; left; apply N.leb_gt; lia).
    assert (E2 : ((65 <=? c) && (c <=? 90))%N = true) by (apply andb_true_intro; split; apply N.leb_le; lia).
    rewrite E1, E2. repeat split; try lia.
  - assert (E1 : ((97 <=? c) && (c <=? 122))%N = true) by (apply andb_true_intro; split; apply N.leb_le; lia).
    assert (E2 : ((65 <=? c) && (c <=? 90))%N = false) by (apply andb_false_iff; right; apply N.leb_gt; lia).
    rewrite E1, E2. repeat split; try lia.
Qed.
Lemma reads_pair a b : (65 <= a <= 122)%N -> (65 <= b <= 122)%N -> plain a = true -> plain b = true ->
  reads (s "[" ++ [a; b] ++ s "]") [OneOf false [(a, a); (b, b)]].
Proof.
  intros Ha Hb Pa Pb. pose proof (plain_facts a Pa) as FA. pose proof (plain_facts b Pb) as FB.
  assert (A : forall d, (d < 65)%N -> N.eqb a d = false) by (intros d Hd; apply N.eqb_neq; lia).
  assert (B : forall d, (d < 65)%N -> N.eqb b d = false) by (intros d Hd; apply N.eqb_neq; lia).
  split; [discriminate |]. split; [discriminate |]. intros top st alts cur rest Hr.
  assert (E : push_all cur [OneOf false [(a, a); (b, b)]] = glob_push (glob_start cur) (OneOf false [(a, a); (b, b)]))
    by (destruct cur; reflexivity).
  rewrite E.
  change ((s "[" ++ [a; b] ++ s "]") ++ rest) with (LBRK :: a :: b :: RBRK :: rest).
  rewrite read_plain. cbn -[read].
  rewrite read_plain. rewrite (FA SQ), (FA DQ), (FA BS), (FA BANG), (FA CARET), (FA RBRK), (FA LBRK) by (cbn; tauto).
  cbn -[read N.eqb]. rewrite (FA BTICK), !A by (try lia; cbn; tauto). cbn -[read N.eqb].
  rewrite read_plain. rewrite (FB SQ), (FB DQ), (FB BS), (FB BANG), (FB CARET), (FB RBRK), (FB LBRK) by (cbn; tauto).
  cbn -[read N.eqb]. rewrite (FB BTICK), !B by (try lia; cbn; tauto). cbn -[read N.eqb].
  rewrite read_plain. cbn -[read]. reflexivity.
Qed.
Definition extension_globs (x : str) : list glob :=
  map (fun c => if is_alpha c then OneOf false [(lower_c c, lower_c c); (upper_c c, upper_c c)] else Char c) x.
Lemma plain_letter c : is_alpha c = true -> plain c = true.
Proof.
  intros H. apply letter_facts in H. unfold plain, posix_special, memc. apply negb_true_iff.
  destruct (existsb _ _) eqn:E; [| reflexivity]. apply existsb_exists in E as (d & Hd & E). apply N.eqb_eq in E. subst d.
  cbn in Hd. repeat (destruct Hd as [Hd | Hd]; [subst c; lia |]). destruct Hd.
Qed.
Lemma upper_alpha c : is_alpha c = true -> is_alpha (upper_c c) = true /\ is_alpha (lower_c c) = true.
Proof.
  intros H. destruct (case_facts c H) as (H1 & H2 & _). rewrite H2. unfold is_alpha, is_lower, is_upper.
  split; apply orb_true_iff.
  - right. apply andb_true_intro. split; apply N.leb_le; lia.
  - left. apply andb_true_intro. split; apply N.leb_le; lia.
Qed.
Lemma reads_extension x : forallb plain x = true -> reads (extension_pattern x) (extension_globs x).
Proof.
  induction x as [| c x IH]; intros H; [apply reads_nil |]. cbn in H. apply andb_prop in H as [Hc H].
  unfold extension_pattern, extension_globs. cbn [flat_map map].
  apply (reads_app _ _ [_] _); [| exact (IH H)].
  destruct (is_alpha c) eqn:E; [| now apply reads_char].
  destruct (upper_alpha c E) as [U L]. pose proof (letter_facts _ U). pose proof (letter_facts _ L).
  apply reads_pair; try (now apply plain_letter); lia.
Qed.
Lemma not_alpha_lower c d : is_alpha c = false -> lower_c d = lower_c c -> d = c.
Proof.
  intros H E. assert (Ec : lower_c c = c) by (unfold lower_c; unfold is_alpha in H; apply orb_false_iff in H as [_ ->]; reflexivity).
  rewrite Ec in E. unfold lower_c in E. destruct (is_upper d) eqn:Ed; [| exact E].
  exfalso. unfold is_alpha, is_lower in H. unfold is_upper in Ed. apply andb_prop in Ed as [E1 E2].
  apply N.leb_le in E1, E2. apply orb_false_iff in H as [H _]. apply andb_false_iff in H as [H | H]; apply N.leb_gt in H; lia.
Qed.
Lemma extension_matches x : forall w, seq_matches (extension_globs x) w <-> lower w = lower x.
Proof.
  induction x as [| c x IH]; intros w.
  - unfold seq_matches. cbn. split; [intros -> | intros H; destruct w]; [reflexivity | reflexivity | discriminate].
  - unfold extension_globs. cbn [map]. 
    change (seq_matches (?g :: ?l) w) with (seq_matches ([g] ++ l) w).
    set (g := if is_alpha c then _ else _). rewrite (seq_matches_app [g]).
    assert (Hg : forall u, matches g u <-> exists d, u = [d] /\ lower_c d = lower_c c).
    { intros u. unfold g. destruct (is_alpha c) eqn:E.
      - cbn [matches in_ranges existsb negb]. destruct (case_facts c E) as (H1 & H2 & H3).
        assert (Hll : forall z, is_upper z = true -> lower_c z = (z + 32)%N) by (intros z Hz; unfold lower_c; now rewrite Hz).
        assert (Uu : is_upper (upper_c c) = true) by (unfold is_upper; apply andb_true_intro; split; apply N.leb_le; lia).
        split; intros (d & -> & Hd); exists d; (split; [reflexivity |]).
        + rewrite orb_false_r in Hd. apply orb_prop in Hd as [Hd | Hd]; apply andb_prop in Hd as [D1 D2]; apply N.leb_le in D1, D2.
          * assert (d = lower_c c) as -> by lia. rewrite H2. unfold lower_c.
            assert (Eu : is_upper (upper_c c + 32) = false) by (unfold is_upper; apply andb_false_iff; right; apply N.leb_gt; lia).
            now rewrite Eu.
          * assert (d = upper_c c) as -> by lia. now rewrite Hll.
        + rewrite orb_false_r. apply orb_true_iff. unfold lower_c in Hd at 1. destruct (is_upper d) eqn:Ed.
          * right. assert (d = upper_c c) by lia. subst d. apply andb_true_intro. split; apply N.leb_le; lia.
          * left. subst d. apply andb_true_intro. split; apply N.leb_le; lia.
      - cbn [matches]. split; [intros ->; exists c; auto |]. intros (d & -> & Hd). now rewrite (not_alpha_lower c d E Hd). }
    split.
    + intros (u & v & -> & Hu & Hv). apply seq_matches_one, Hg in Hu as (d & -> & Hd). apply IH in Hv.
      cbn. f_equal; [exact Hd | exact Hv].
    + intros H. destruct w as [| d w]; [discriminate |]. cbn in H. injection H as Hd Hw.
      exists [d], w. split; [reflexivity |]. split; [apply seq_matches_one, Hg; exists d; auto | now apply IH].
Qed.
Lemma extension_language extensions fuzzy w : extensions <> [] -> (forall x, In x extensions -> forallb plain x = true) ->
  (case_matches (make_file_extension_pattern extensions fuzzy) w <->
   exists x v t, In x extensions /\ w = v ++ t /\ lower v = lower x /\ (fuzzy = true \/ t = [])).
Proof.
  intros Hn H. set (parts := map (fun x => (extension_pattern x, extension_globs x)) extensions).
  assert (E : map extension_pattern extensions = map fst parts) by (unfold parts; rewrite map_map; now apply map_ext).
  assert (R : reads (s "@(" ++ join (s "|") (map fst parts) ++ s ")") [Ext ExactlyOne (map snd parts)]).
  { apply reads_ext.
    - intros p Hp. apply in_map_iff in Hp as (x & <- & Hx). cbn [fst snd]. apply reads_extension. now apply H.
    - unfold parts. destruct extensions; [now destruct Hn | discriminate]. }
  assert (Hm : forall v, matches (Ext ExactlyOne (map snd parts)) v <-> exists x, In x extensions /\ lower v = lower x).
  { intros v. cbn [matches ext_matches]. change (any_matches (map snd parts) v <-> exists x, In x extensions /\ lower v = lower x).
    rewrite any_matches_iff. unfold parts. rewrite map_map. split.
    - intros (a & Ha & Hv). apply in_map_iff in Ha as (x & <- & Hx). cbn [snd] in Hv. apply extension_matches in Hv. exists x. auto.
    - intros (x & Hx & Hv). exists (extension_globs x). split; [apply in_map_iff; exists x; auto | now apply extension_matches]. }
  unfold make_file_extension_pattern. rewrite E. destruct fuzzy; cbn [negb].
  - assert (R2 : reads (s "@(" ++ join (s "|") (map fst parts) ++ s ")*") ([Ext ExactlyOne (map snd parts)] ++ [AnyText])).
    { change (s ")*") with (s ")" ++ [STAR]). rewrite !app_assoc. apply reads_app; [rewrite <- app_assoc; exact R | apply reads_star]. }
    rewrite (case_one _ _ w R2) by discriminate. rewrite seq_matches_app. split.
    + intros (u & t & -> & Hu & _). apply seq_matches_one, Hm in Hu as (x & Hx & Hu). exists x, u, t. auto.
    + intros (x & v & t & Hx & -> & Hv & _). exists v, t. split; [reflexivity |]. split; apply seq_matches_one; [apply Hm; eauto | reflexivity].
  - rewrite (case_one _ _ w R) by discriminate. rewrite seq_matches_one, Hm. split.
    + intros (x & Hx & Hv). exists x, w, []. rewrite app_nil_r. auto.
    + intros (x & v & t & Hx & -> & Hv & [? | ->]); [discriminate |]. rewrite app_nil_r. exists x. auto.
Qed.

(** ** Checking the condition about numbers for given strings *)
From Verif Require Import When.
Fixpoint rest_after (p x : str) : option str :=
  match p, x with
  | [], _ => Some x
  | c :: p', d :: x' => if N.eqb c d then rest_after p' x' else None
  | _ :: _, [] => None
  end.
Lemma rest_after_iff p : forall x u, rest_after p x = Some u <-> x = p ++ u.
Proof.
  induction p as [| c p IH]; intros x u; cbn [rest_after app].
  - split; [intros H; now injection H | intros ->; reflexivity].
  - destruct x as [| d x]; [split; discriminate |]. destruct (N.eqb_spec c d) as [<- | Hn].
    + rewrite IH. split; [intros ->; reflexivity | intros H; now injection H].
    + split; [discriminate | intros H; injection H; congruence].
Qed.
Definition rests (strings : list str) (p : str) : list str :=
  flat_map (fun x => match rest_after p x with Some u => [u] | None => [] end) strings.
Lemma rests_iff strings p u : In u (rests strings p) <-> follows strings p u.
Proof.
  unfold rests, follows. rewrite in_flat_map. split.
  - intros (x & Hx & Hu). destruct (rest_after p x) as [v |] eqn:E; [| destruct Hu].
    destruct Hu as [<- | []]. apply rest_after_iff in E. now subst x.
  - intros H. exists (p ++ u). split; [exact H |]. rewrite (proj2 (rest_after_iff p (p ++ u) u) eq_refl). now left.
Qed.
Definition same_head (u v : str) : bool :=
  match u, v with c :: _, d :: _ => N.eqb c d | [], [] => true | _, _ => false end.
Definition prefix_check (strings : list str) (p : str) : bool :=
  let rs := rests strings p in
  existsb (fun u => existsb (fun v => negb (str_eqb u v) && same_head u v) rs) rs ||
  existsb (fun u => match py_int u with None => true | Some _ => false end) rs ||
  forallb (fun u => Nat.eqb (List.length u) 1) rs.
Definition numbers_check (strings : list str) : bool :=
  forallb (fun x => forallb (fun n => prefix_check strings (firstn n x)) (seq 0 (S (List.length x)))) strings.
Lemma numbers_check_ok strings : numbers_check strings = true ->
  forall p, consecutive py_int strings p -> forall u, follows strings p u -> List.length u = 1.
Proof.
  intros H p (_ & Hd & Hnum & _) u Hu.
  assert (Hp : prefix_check strings p = true).
  { unfold numbers_check in H. rewrite forallb_forall in H. specialize (H (p ++ u) Hu).
    rewrite forallb_forall in H. specialize (H (List.length p)).
    rewrite firstn_app, firstn_all, Nat.sub_diag, app_nil_r in H. apply H.
    apply in_seq. rewrite app_length. lia. }
  unfold prefix_check in Hp. apply orb_prop in Hp as [Hp | Hp]; [apply orb_prop in Hp as [Hp | Hp] |].
  - exfalso. apply existsb_exists in Hp as (a & Ha & Hp). apply existsb_exists in Hp as (b & Hb & Hp).
    apply andb_prop in Hp as [H1 H2]. apply rests_iff in Ha, Hb. apply (Hd a b Ha Hb).
    + intros ->. destruct (str_eqb_spec b b); [discriminate | congruence].
    + destruct a as [| a0 a], b as [| b0 b]; cbn in H2; try discriminate H2; [reflexivity |]. apply N.eqb_eq in H2. now subst.
  - exfalso. apply existsb_exists in Hp as (a & Ha & Hp). apply rests_iff in Ha. apply (Hnum a Ha).
    destruct (py_int a); [discriminate | reflexivity].
  - rewrite forallb_forall in Hp. apply Nat.eqb_eq, Hp. now apply rests_iff.
Qed.

(** ** Variables *)
Lemma drop_nonword_id x : forallb is_word x = true -> drop_nonword x = x.
Proof.
  unfold drop_nonword. induction x as [| c x IH]; intros H; [reflexivity |]. cbn in *.
  apply andb_prop in H as [-> H]. now rewrite IH.
Qed.
Definition letter_or_digit (c : N) : bool := is_lower c || is_upper c || is_digit c.
Lemma letter_or_digit_facts c : letter_or_digit c = true -> c <> DASH /\ c <> UND /\ is_word c = true.
Proof.
  intros H. split; [| split]; [intros -> | intros -> | unfold is_word; unfold letter_or_digit in H; now rewrite H]; discriminate H.
Qed.
Lemma identifier_id x : forallb letter_or_digit x = true -> is_digit (hd 0%N x) = false -> make_identifier x = x.
Proof.
  intros H Hd. unfold make_identifier.
  assert (E1 : replace_c DASH [UND] x = x).
  { clear Hd. induction x as [| c x IH]; [reflexivity |]. cbn in H. apply andb_prop in H as [Hc H]. cbn.
    destruct (N.eqb_spec c DASH) as [-> |]; [discriminate Hc |]. now rewrite IH. }
  assert (E2 : drop_nonword x = x).
  { apply drop_nonword_id. clear E1 Hd. induction x as [| c x IH]; [reflexivity |]. cbn in H. apply andb_prop in H as [Hc H].
    cbn. apply letter_or_digit_facts in Hc as (_ & _ & ->). now apply IH. }
  assert (E3 : collapse_und x = x).
  { clear E1 E2 Hd. induction x as [| c x IH]; [reflexivity |]. cbn in H. apply andb_prop in H as [Hc H].
    cbn [collapse_und]. destruct x as [| d x]; [reflexivity |].
    destruct (N.eqb_spec c UND) as [-> |]; [discriminate Hc |]. cbn [andb]. now rewrite IH. }
  rewrite E1, E2, E3. destruct x as [| c x]; [reflexivity |]. cbn in Hd. now rewrite Hd.
Qed.
